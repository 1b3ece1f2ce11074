(** What Marshal writes for a struct, a map and a slice, in terms of what it writes for their parts. *)
From Verif Require Import GoBase GoBaseProofs BencTypes BencFields BencFieldSpec BencFieldsProofs BencResolveProofs BencEncode BencSpec BencEncSpec BencEncodeProofs BencDepthProofs BencConsumeProofs BencRoundSpec BencRoundProofs BencApiProofs BencPartsSpec.
From Coq Require Import Sorting.Sorted Permutation.

Lemma F2_length {A B} (R : A -> B -> Prop) l l' : Forall2 R l l' -> List.length l = List.length l'.
Proof. induction 1; cbn; congruence. Qed.
(** *** Tags *)
Lemma cut_parts s a b : cut ","%byte s = (a, b) -> forall o, o <> [] -> hd [] (tag_parts s) = a /\ (In o (tl (tag_parts s)) <-> In o (tag_parts b)).
Proof.
  revert a b. induction s as [|c s IH]; intros a b H o No.
  - cbn in H. injection H as <- <-. cbn. split; [reflexivity|]. split; [intros []|intros [E|[]]; congruence].
  - cbn in H. cbn [tag_parts]. destruct (beqb c ","%byte) eqn:E.
    + injection H as <- <-. cbn. split; [reflexivity|tauto].
    + destruct (cut ","%byte s) as [a' b'] eqn:C. injection H as <- <-. destruct (IH _ _ eq_refl o No) as (H1 & H2).
      destruct (tag_parts s) as [|p ps] eqn:T; [destruct s as [|c0 s0]; [discriminate|]; cbn in T; destruct (beqb c0 ","%byte); [discriminate|]; destruct (tag_parts s0); discriminate|].
      cbn in *. subst p. split; [reflexivity|exact H2].
Qed.
Lemma cut_length s a b : cut ","%byte s = (a, b) -> (s <> [] -> List.length b < List.length s)%nat /\ (List.length b <= List.length s)%nat.
Proof.
  revert a b. induction s as [|c s IH]; intros a b H; [cbn in H; injection H as <- <-; cbn; split; [congruence|lia]|].
  cbn in H. destruct (beqb c ","%byte); [injection H as <- <-; cbn; split; [lia|lia]|]. destruct (cut ","%byte s) as [a' b'] eqn:C. injection H as <- <-.
  destruct (IH _ _ eq_refl). cbn. split; lia.
Qed.
Lemma tag_parts_cons s a b : cut ","%byte s = (a, b) -> forall o, o <> [] -> In o (tag_parts s) <-> o = a \/ In o (tag_parts b).
Proof.
  intros H o No. destruct (cut_parts s a b H o No) as (H1 & H2).
  assert (N : tag_parts s <> []). { destruct s as [|c s]; [discriminate|]. cbn. destruct (beqb c ","%byte); [discriminate|]. destruct (tag_parts s); discriminate. }
  destruct (tag_parts s) as [|p ps]; [contradiction|]. cbn in *. subst p. rewrite H2. split; intros [E|E]; auto.
Qed.
Lemma omit_parts n : forall s, (List.length s <= n)%nat -> tag_omitempty n s = true <-> In (bs "omitempty") (tag_parts s).
Proof.
  induction n as [|n IH]; intros s L.
  - destruct s; [|cbn in L; lia]. cbn. split; [discriminate|intros [E|[]]; discriminate].
  - destruct s as [|c s]; [cbn; split; [discriminate|intros [E|[]]; discriminate]|]. cbn [tag_omitempty]. destruct (cut ","%byte (c :: s)) as [o r] eqn:C.
    rewrite (tag_parts_cons _ _ _ C (bs "omitempty")) by discriminate. destruct (cut_length _ _ _ C) as (Lt & _). specialize (Lt ltac:(discriminate)). cbn in L, Lt.
    destruct (bytes_eqb o (bs "omitempty")) eqn:E.
    + apply bytes_eqb_eq in E. subst o. tauto.
    + rewrite IH by lia. split; [auto|]. intros [X|X]; [|exact X]. subst o. rewrite bytes_eqb_refl in E. discriminate.
Qed.
Lemma parse_tag_optional a : snd (parse_tag (fa_tag a)) = true <-> optional a.
Proof.
  unfold parse_tag, optional. destruct (cut ","%byte (fa_tag a)) as [nm r] eqn:C. cbn [snd]. destruct (cut_parts _ _ _ C (bs "omitempty")) as (_ & H); [discriminate|]. rewrite H.
  apply omit_parts. apply cut_length in C. lia.
Qed.

(** *** Emptiness *)
Lemma nil_spec t x : of_kind t x -> is_nil t x = true <-> x = VNil.
Proof. unfold of_kind, is_nil. destruct (under t), x; intros H; try contradiction; split; intros E; try discriminate; reflexivity. Qed.
Lemma empty_spec t x : of_kind t x -> is_empty_value t x = true <-> empty_value x.
Proof.
  unfold of_kind, is_empty_value. destruct (under t) eqn:U, x; intros H; try contradiction; split; intros E; try discriminate; try (inversion E; fail); try constructor; try reflexivity.
  all: try (destruct s; [constructor|discriminate]). all: try (destruct b; [constructor|discriminate]). all: try (destruct b; [discriminate|constructor]).
  all: try (apply Z.eqb_eq in E; subst; constructor). all: try (destruct l; [constructor|discriminate]). all: try (destruct m; [constructor|discriminate]).
  all: try (inversion E; subst; reflexivity).
  - apply Nat.eqb_eq in E. subst n. destruct l; [constructor|discriminate].
Qed.

(** *** The nesting depth a value is encoded at *)
Section Parts.
Variable C : customs.
Lemma marshaler_d id r fl d d' out : enc_marshaler C id r fl d = EOk out -> enc_marshaler C id r fl d' = EOk out.
Proof. unfold enc_marshaler. destruct (fl_ro fl); [discriminate|]. destruct (c_marsh C id r); intros H; congruence. Qed.
Lemma list_mono {A} (f g : A -> eres) l out : (forall x o, In x l -> f x = EOk o -> g x = EOk o) -> fold_right (fun x k => eseq (f x) k) (EOk []) l = EOk out ->
  fold_right (fun x k => eseq (g x) k) (EOk []) l = EOk out.
Proof.
  revert out. induction l as [|x l IH]; intros out H E; [exact E|]. cbn [fold_right] in *. apply eseq_ok in E as (b1 & b2 & E1 & E2 & ->).
  apply eseq_ok. exists b1, b2. split; [apply H; [now left|exact E1]|]. split; [apply IH; [intros; apply H; auto; now right|exact E2]|reflexivity].
Qed.
Lemma shallower fuel : forall t fl d d' v out, (d' <= d)%nat -> encode C fuel t fl d v = EOk out -> encode C fuel t fl d' v = EOk out.
Proof.
  induction fuel as [|n IH]; intros t fl d d' v out L H; [discriminate|]. cbn [encode] in *.
  destruct (if negb (is_ptr t) && fl_addr fl then ptr_impl m_marsh t else None). { eapply marshaler_d; exact H. }
  destruct (impl m_marsh t). { destruct t; try (eapply marshaler_d; exact H). destruct v; eapply marshaler_d; exact H. }
  assert (Lim : (ptr_depth_limit <? S d)%nat = false -> (ptr_depth_limit <? S d')%nat = false) by (rewrite !Nat.ltb_ge; lia).
  destruct (under t), v; try discriminate; try exact H.
  all: repeat match type of H with (if ?c then _ else _) = _ => destruct c eqn:?; try discriminate end; try exact H; try (rewrite Lim by (assumption || reflexivity)).
  all: try (eapply IH; eassumption).
  all: apply ewrite_ok in H as (b' & H & ->); apply ewrite_ok; exists b'; split; [|reflexivity];
       apply eseq_ok in H as (b1 & b2 & H1 & H2 & ->); apply eseq_ok; exists b1, b2; split; [|split; [exact H2|reflexivity]].
  - eapply list_mono; [|exact H1]. intros x o _ E. cbn in E. eapply IH; [|exact E]. lia.
  - eapply list_mono; [|exact H1]. intros x o _ E. cbn in E. eapply IH; [|exact E]. lia.
  - revert b1 H1. induction (sort_map m) as [|p l IHl]; intros b1 H1; [exact H1|]. cbn [fold_right] in *. apply ewrite_ok in H1 as (b' & H1 & ->). apply ewrite_ok. exists b'. split; [|reflexivity].
    apply eseq_ok in H1 as (c1 & c2 & H1 & H3 & ->). apply eseq_ok. exists c1, c2. split; [eapply IH; [|exact H1]; lia|]. split; [apply IHl; exact H3|reflexivity].
  - revert b1 H1. induction (sorted_fields t) as [|p l0 IHl]; intros b1 H1; [exact H1|]. cbn [fold_right] in *. destruct (field_by_index (f_index p) t fl (VStruct l)) as [[[ft ffl] fv]|]; [|discriminate].
    destruct (is_nil ft fv); [apply IHl; exact H1|]. destruct (f_omit p && is_empty_value ft fv); [apply IHl; exact H1|].
    apply ewrite_ok in H1 as (b' & H1 & ->). apply ewrite_ok. exists b'. split; [|reflexivity].
    apply eseq_ok in H1 as (c1 & c2 & H1 & H3 & ->). apply eseq_ok. exists c1, c2. split; [eapply IH; [|exact H1]; lia|]. split; [apply IHl; exact H3|reflexivity].
Qed.
Lemma part_ptr n ft d x tx : legal ft -> encode C n ft fl_new d x = EOk tx -> (vdepth x < n)%nat -> marshal C (Some (TPtr ft, VPtr x)) = EOk tx.
Proof.
  intros Lg H V. apply (shallower n ft fl_new d 0) in H; [|lia]. apply (marshal_eq C (S n)); [|cbn [vdepth]; lia].
  destruct n as [|n]; [lia|]. remember (S n) as k eqn:Ek. cbn [encode is_ptr under negb andb impl]. subst k.
  destruct ft as [| | | | | | | | | | | |id ms u]; try exact H. cbn [ptr_impl] in *.
  destruct (m_marsh ms) as [r|] eqn:M.
  - assert (P : is_ptr (TNamed id ms u) = false) by (unfold is_ptr; cbn [under]; destruct u; try reflexivity; cbn in Lg; congruence).
    cbn [encode] in H. rewrite P in H. cbn [negb andb fl_addr fl_new ptr_impl] in H. rewrite M in H. unfold enc_marshaler in *. cbn [fl_ro fl_new fl_root_val] in *. exact H.
  - exact H.
Qed.
Lemma part_val n ft d x tx : encode C n ft fl_root_val d x = EOk tx -> (vdepth x < n)%nat -> marshal C (Some (ft, x)) = EOk tx.
Proof. intros H V. apply (shallower n ft fl_root_val d 0) in H; [|lia]. now apply (marshal_eq C n). Qed.
Lemma text_of ks ts : List.length ks = List.length ts -> entries_text (combine ks ts) (dtext (map enc_str ks) ts).
Proof.
  revert ts. induction ks as [|k ks IH]; intros [|tx ts] L; try discriminate; [constructor|]. unfold dtext in *. cbn [map combine concat fst snd]. rewrite <- app_assoc.
  constructor; [apply enc_str_text|]. apply IH. now injection L.
Qed.
Lemma map_fst_combine {A B} (a : list A) (b : list B) : List.length a = List.length b -> map fst (combine a b) = a.
Proof. revert b. induction a as [|x a IH]; intros [|y b] L; try discriminate; [reflexivity|]. cbn. f_equal. apply IH. now injection L. Qed.

Lemma flat_leaf t nm fs p a ft : under t = TStruct nm fs -> flat fs -> leaf_at t p = Some (a, ft) -> exists i, p = [i] /\ nth_error fs i = Some (a, ft) /\ takes_part a.
Proof.
  intros U (F & _) H. destruct p as [|i p]; [discriminate|]. apply leaf_at_step in H as (a0 & ft0 & N & Sk & [(-> & _ & -> & ->)|(_ & E & _)]).
  - exists i. split; [reflexivity|]. rewrite (kind_struct_deref t) in N by (unfold kind_struct; now rewrite U). unfold struct_fields in N. rewrite U in N. split; [exact N|].
    apply nth_error_In in N. specialize (F _ _ N). unfold field_skipped in Sk. rewrite F in Sk. apply orb_false_iff in Sk as (S1 & S2). split; [now destruct (fa_exp a)|]. intros X. rewrite X, bytes_eqb_refl in S2. discriminate.
  - rewrite (kind_struct_deref t) in N by (unfold kind_struct; now rewrite U). unfold struct_fields in N. rewrite U in N. apply nth_error_In in N. specialize (F _ _ N).
    unfold field_embed in E. rewrite F in E. destruct (bytes_eqb (field_tag a0) []); discriminate.
Qed.
Lemma flat_leaf_back t nm fs i a ft : under t = TStruct nm fs -> flat fs -> nth_error fs i = Some (a, ft) -> takes_part a -> leaf_at t [i] = Some (a, ft).
Proof.
  intros U (F & _) N (T1 & T2). cbn [leaf_at]. rewrite (kind_struct_deref t) by (unfold kind_struct; now rewrite U). unfold struct_fields. rewrite U, N.
  pose proof (F _ _ (nth_error_In _ _ N)) as An. unfold field_skipped, field_embed. rewrite An, T1. cbn [negb orb]. destruct (bytes_eqb (fa_tag a) (bs "-")) eqn:E; [apply bytes_eqb_eq in E; contradiction|].
  destruct (bytes_eqb (field_tag a) []); reflexivity.
Qed.
Lemma flat_fields t nm fs f : under t = TStruct nm fs -> flat fs -> In f (sorted_fields t) ->
  exists i a ft, nth_error fs i = Some (a, ft) /\ takes_part a /\ f_index f = [i] /\ f_key f = field_key a /\ f_omit f = snd (parse_tag (fa_tag a)).
Proof.
  intros U F H. apply sorted_fields_in in H as (H & _). apply ktf_assoc in H as (_ & a & ft & H & K & _ & _ & O). destruct (flat_leaf _ _ _ _ _ _ U F H) as (i & E & N & T).
  exists i, a, ft. auto.
Qed.
Lemma flat_fields_back t nm fs i a ft : under t = TStruct nm fs -> flat fs -> nth_error fs i = Some (a, ft) -> takes_part a -> exists f, In f (sorted_fields t) /\ f_index f = [i].
Proof.
  intros U F N T. assert (KS : kind_struct t = true) by (unfold kind_struct; now rewrite U).
  destruct (resolve_unique_emitted t [i] (field_key a) KS) as (f & I & _ & _ & E).
  - exists a, ft. split; [eapply flat_leaf_back; eassumption|reflexivity].
  - intros q (b & gt & L & K) Nq. destruct (flat_leaf _ _ _ _ _ _ U F L) as (j & -> & Nj & Tj). exfalso. apply Nq. f_equal. symmetry. eapply (proj2 F); eauto.
  - eauto.
Qed.
Lemma flat_get t nm fs fl vs i a ft x : under t = TStruct nm fs -> nth_error fs i = Some (a, ft) -> nth_error vs i = Some x ->
  field_by_index [i] t fl (VStruct vs) = Some (ft, fl_field fl a, x).
Proof.
  intros U N V. cbn [field_by_index]. replace (is_nil t (VStruct vs)) with false by (unfold is_nil; now rewrite U). rewrite U. unfold struct_fields. rewrite U, N, V. reflexivity.
Qed.
Definition field_of (fs : list (fattr * gty)) (vs : list gval) (k tx : bytes) : Prop :=
  exists i a ft x, nth_error fs i = Some (a, ft) /\ nth_error vs i = Some x /\ takes_part a /\ k = field_key a /\ ~ left_out a x /\ marshal C (Some (TPtr ft, VPtr x)) = EOk tx.
Lemma Forall2_in_l {A B} (R : A -> B -> Prop) l l' x : Forall2 R l l' -> In x l -> exists y, In (x, y) (combine l l') /\ R x y.
Proof. induction 1 as [|a b l l' H F IH]; intros I; [destruct I|]. destruct I as [->|I]; [exists b; cbn; auto|]. destruct (IH I) as (y & I' & R'). exists y. cbn. auto. Qed.
Lemma Forall2_in_c {A B} (R : A -> B -> Prop) l l' x y : Forall2 R l l' -> In (x, y) (combine l l') -> R x y /\ In x l.
Proof. induction 1 as [|a b l l' H F IH]; intros I; [destruct I|]. destruct I as [[= -> ->]|I]; [cbn; auto|]. destruct (IH I). cbn. auto. Qed.
Lemma in_combine_map {A B D} (g : A -> D) (l : list A) (l' : list B) k y : In (k, y) (combine (map g l) l') <-> exists x, In (x, y) (combine l l') /\ k = g x.
Proof.
  revert l'. induction l as [|a l IH]; intros l'.
  - cbn. split; [intros []|intros (x & [] & _)].
  - destruct l' as [|b l']. { cbn. split; [intros []|intros (x & [] & _)]. }
    cbn [map combine In]. split.
    + intros [[= <- <-]|I]; [eauto|]. apply IH in I as (x & I & ->). eauto.
    + intros (x & [[= <- <-]|I] & ->); [auto|]. right. apply IH. eauto.
Qed.
Lemma emitted_spec t nm fs fl vs f i a ft x : under t = TStruct nm fs -> f_index f = [i] -> f_omit f = snd (parse_tag (fa_tag a)) -> nth_error fs i = Some (a, ft) -> nth_error vs i = Some x -> of_kind ft x ->
  emitted t fl (VStruct vs) f = true <-> ~ left_out a x.
Proof.
  intros U Ei Eo N V K. unfold emitted. rewrite Ei, (flat_get t nm fs fl vs i a ft x U N V), Eo. pose proof (nil_spec ft x K) as Hn. pose proof (empty_spec ft x K) as He. pose proof (parse_tag_optional a) as Ho.
  unfold left_out. destruct (is_nil ft x), (snd (parse_tag (fa_tag a))), (is_empty_value ft x); cbn; split; intros X; try discriminate; try reflexivity.
  all: try (exfalso; apply X; tauto). all: intros [Y|(Y & Z)]; intuition discriminate.
Qed.
Lemma ptr_step n t fl d v : impl m_marsh (TPtr t) = None -> encode C (S n) (TPtr t) fl d (VPtr v) = encode C n t (fl_elem fl) d v.
Proof. intros P. cbn [encode]. rewrite P. reflexivity. Qed.
Lemma struct_step n t nm fs fl d vs out : is_ptr t = false -> ptr_impl m_marsh t = None -> impl m_marsh t = None -> under t = TStruct nm fs -> (d < 1000)%nat -> encode C (S n) t fl d (VStruct vs) = EOk out ->
  exists ts, Forall2 (fun f tx => exists ft ffl x, field_by_index (f_index f) t fl (VStruct vs) = Some (ft, ffl, x) /\ encode C n ft ffl (S d) x = EOk tx)
      (filter (emitted t fl (VStruct vs)) (sorted_fields t)) ts /\
    out = "d"%byte :: dtext (map enc_str (map f_key (filter (emitted t fl (VStruct vs)) (sorted_fields t)))) ts ++ ["e"%byte].
Proof.
  intros Np P1 P2 U Hd H. cbn [encode] in H. rewrite P1, P2, U in H. replace (if negb (is_ptr t) && fl_addr fl then @None nat else None) with (@None nat) in H by (destruct (negb (is_ptr t) && fl_addr fl); reflexivity).
  destruct (ptr_depth_limit <? S d)%nat; [discriminate|].
  apply ewrite_ok in H as (b' & H & ->). apply eseq_ok in H as (b1 & b2 & H & H2 & ->). injection H2 as <-.
  apply enc_struct_ok in H as (ts & FT & ->). exists ts. split; [exact FT|reflexivity].
Qed.
Theorem struct_parts t nm fs vs b : uses_marshaler t fl_new = false -> under t = TStruct nm fs -> flat fs -> Forall2 (fun f x => of_kind (snd f) x /\ legal (snd f)) fs vs ->
  marshal C (Some (TPtr t, VPtr (VStruct vs))) = EOk b ->
  (forall i a ft x, nth_error fs i = Some (a, ft) -> nth_error vs i = Some x -> takes_part a -> ~ left_out a x -> exists tx, marshal C (Some (TPtr ft, VPtr x)) = EOk tx) /\
  exists es, dictionary es b /\ forall k tx, In (k, tx) es <-> field_of fs vs k tx.
Proof.
  intros UM U F K H. unfold marshal in H. remember (vdepth (VPtr (VStruct vs))) as n eqn:En.
  assert (Np : is_ptr t = false) by (unfold is_ptr; now rewrite U).
  destruct (uses_marshaler_false t fl_new UM) as (P1 & P2). rewrite Np in P1. cbn [negb andb fl_addr fl_new] in P1.
  assert (P3 : impl m_marsh (TPtr t) = None) by (destruct t; try reflexivity; exact P1).
  rewrite (ptr_step n t fl_root_val 0 (VStruct vs) P3) in H. change (fl_elem fl_root_val) with fl_new in H. change (vdepth (VPtr (VStruct vs))) with (S (vdepth (VStruct vs))) in En.
  subst n. set (n0 := vdepth (VStruct vs)) in H. assert (En0 : n0 = vdepth (VStruct vs)) by reflexivity. clearbody n0.
  apply (struct_step n0 t nm fs fl_new 0 vs b Np P1 P2 U ltac:(lia)) in H as (ts & FT & ->). set (l := filter (emitted t fl_new (VStruct vs)) (sorted_fields t)) in *.
  assert (LT : List.length (map f_key l) = List.length ts) by (rewrite map_length; eapply F2_length; exact FT).
  assert (ONE : forall f tx, In f l -> (exists ft ffl x, field_by_index (f_index f) t fl_new (VStruct vs) = Some (ft, ffl, x) /\ encode C n0 ft ffl 1 x = EOk tx) -> field_of fs vs (f_key f) tx).
  { intros f tx I (ft & ffl & x & G & E). unfold l in I. apply filter_In in I as (I & Em). destruct (flat_fields t nm fs f U F I) as (i & a & ft' & N & T & Ei & Ek & Eo).
    destruct (nth_error vs i) as [x'|] eqn:V.
    2:{ apply nth_error_None in V. assert (i < List.length fs)%nat by (apply nth_error_Some; congruence). pose proof (F2_length _ _ _ K). lia. }
    rewrite Ei, (flat_get t nm fs fl_new vs i a ft' x' U N V) in G. injection G as <- <- <-.
    pose proof (nth_error_Forall2 _ _ _ i K) as Kx. rewrite N, V in Kx. destruct Kx as (Kx & Lg). cbn [snd] in Kx, Lg.
    exists i, a, ft', x'. split; [exact N|]. split; [exact V|]. split; [exact T|]. split; [exact Ek|]. split; [apply (emitted_spec t nm fs fl_new vs f i a ft' x' U Ei Eo N V Kx); exact Em|].
    assert (Fl : fl_field fl_new a = fl_new) by (unfold fl_field, fl_new; cbn; now rewrite (proj1 T)). rewrite Fl in E.
    apply (part_ptr n0 ft' 1 x' tx Lg E). subst n0. cbn [vdepth]. apply Nat.lt_succ_r. apply (BencFieldsProofs.fold_max_in vdepth). eapply nth_error_In; exact V. }
  assert (ALL : forall i a ft x, nth_error fs i = Some (a, ft) -> nth_error vs i = Some x -> takes_part a -> ~ left_out a x ->
    exists f tx, In (f, tx) (combine l ts) /\ f_key f = field_key a /\ marshal C (Some (TPtr ft, VPtr x)) = EOk tx).
  { intros i a ft x N V T NL. destruct (flat_fields_back t nm fs i a ft U F N T) as (f & I & Ei).
    destruct (flat_fields t nm fs f U F I) as (i' & a' & ft' & N' & T' & Ei' & Ek & Eo). rewrite Ei in Ei'. injection Ei' as <-. rewrite N in N'. injection N' as <- <-.
    pose proof (nth_error_Forall2 _ _ _ i K) as Kx. rewrite N, V in Kx. destruct Kx as (Kx & Lg). cbn [snd] in Kx, Lg.
    assert (I' : In f l). { unfold l. apply filter_In. split; [exact I|]. apply (emitted_spec t nm fs fl_new vs f i a ft x U Ei Eo N V Kx). exact NL. }
    destruct (Forall2_in_l _ _ _ _ FT I') as (tx' & I2 & R). exists f, tx'. split; [exact I2|]. split; [exact Ek|].
    destruct (ONE f tx' I' R) as (j & a2 & ft2 & x2 & N2 & V2 & T2 & K2 & _ & M2). assert (j = i) by (eapply (proj2 F); [exact N2|exact N|exact T2|exact T|congruence]). subst j.
    rewrite N in N2. injection N2 as <- <-. rewrite V in V2. injection V2 as <-. exact M2. }
  split. { intros i a ft x N V T NL. destruct (ALL i a ft x N V T NL) as (f & tx & _ & _ & M). eauto. }
  exists (combine (map f_key l) ts). split.
  - split; [rewrite map_fst_combine by exact LT; apply ascending_filter, sorted_fields_ascending|]. eexists. split; [apply text_of; exact LT|]. reflexivity.
  - intros k tx. rewrite in_combine_map. split.
    + intros (f & I & ->). destruct (Forall2_in_c _ _ _ _ _ FT I) as (R & I'). apply ONE; assumption.
    + intros (i & a & ft & x & N & V & T & -> & NL & M). destruct (ALL i a ft x N V T NL) as (f & tx' & I & E & M'). rewrite M in M'. injection M' as <-. eauto.
Qed.
Theorem map_parts t kt et m b : uses_marshaler t fl_root_val = false -> under t = TMap kt et -> NoDup (map fst m) -> marshal C (Some (t, VMap m)) = EOk b ->
  (forall k x, In (k, x) m -> exists tx, marshal C (Some (et, x)) = EOk tx) /\
  exists es, dictionary es b /\ forall k tx, In (k, tx) es <-> exists x, In (k, x) m /\ marshal C (Some (et, x)) = EOk tx.
Proof.
  intros UM U ND H. unfold marshal in H. set (n := vdepth (VMap m)) in H. assert (En : forall k x, In (k, x) m -> (vdepth x < n)%nat).
  { intros k x I. unfold n. cbn [vdepth]. apply Nat.lt_succ_r. pose proof (BencFieldsProofs.fold_max_in (fun p => vdepth (snd p)) (k, x) m I). cbn [snd] in H0. exact H0. }
  clearbody n. destruct (uses_marshaler_false t fl_root_val UM) as (P1 & P2). cbn [encode] in H. rewrite P1, P2, U in H.
  destruct (negb (kind_string kt)); [discriminate|].  destruct (ptr_depth_limit <? 1)%nat; [discriminate|].
  apply ewrite_ok in H as (b' & H & ->). apply eseq_ok in H as (b1 & b2 & H & H2 & ->). injection H2 as <-.
  apply enc_map_ok in H as (ts & FT & ->). change (fl_noaddr fl_root_val) with fl_root_val in FT.
  assert (PM : Permutation (sort_map m) m) by apply sort_by_perm.
  assert (LT : List.length (map fst (sort_map m)) = List.length ts) by (rewrite map_length; eapply F2_length; exact FT).
  split. { intros k x I. pose proof (Permutation_in _ (Permutation_sym PM) I) as I'. destruct (Forall2_in_l _ _ _ _ FT I') as (tx' & I2 & R). exists tx'. eapply part_val; [exact R|eapply En; exact I]. }
  exists (combine (map fst (sort_map m)) ts). split.
  - split; [rewrite map_fst_combine by exact LT; now apply sort_by_ascending|]. eexists. split; [apply text_of; exact LT|reflexivity].
  - intros k tx. rewrite in_combine_map. split.
    + intros ([k' x] & I & ->). destruct (Forall2_in_c _ _ _ _ _ FT I) as (R & I'). cbn [fst snd] in *. apply (Permutation_in _ PM) in I'. exists x. split; [exact I'|]. eapply part_val; [exact R|eapply En; exact I'].
    + intros (x & I & M). pose proof (Permutation_in _ (Permutation_sym PM) I) as I'. destruct (Forall2_in_l _ _ _ _ FT I') as (tx' & I2 & R). exists (k, x). split; [|reflexivity].
      cbn [snd] in R. apply part_val in R; [|eapply En; exact I]. rewrite M in R. injection R as <-. exact I2.
Qed.
Theorem slice_parts t et l b : uses_marshaler t fl_root_val = false -> under t = TSlice et -> kind_uint8 et = false -> legal et -> marshal C (Some (t, VSlice l)) = EOk b ->
  exists ts, Forall2 (fun x tx => marshal C (Some (TPtr et, VPtr x)) = EOk tx) l ts /\ b = "l"%byte :: concat ts ++ ["e"%byte].
Proof.
  intros UM U K8 Lg H. unfold marshal in H. set (n := vdepth (VSlice l)) in H. assert (En : forall x, In x l -> (vdepth x < n)%nat).
  { intros x I. unfold n. cbn [vdepth]. apply Nat.lt_succ_r. exact (BencFieldsProofs.fold_max_in vdepth x l I). }
  clearbody n. destruct (uses_marshaler_false t fl_root_val UM) as (P1 & P2). cbn [encode] in H. rewrite P1, P2, U, K8 in H.
  destruct (ptr_depth_limit <? 1)%nat; [discriminate|].
  apply ewrite_ok in H as (b' & H & ->). apply eseq_ok in H as (b1 & b2 & H & H2 & ->). injection H2 as <-. apply enc_list_ok in H as (ts & FT & ->). exists ts. split; [|reflexivity].
  induction FT as [|x tx l ts E FT IH]; constructor.
  - eapply part_ptr; [exact Lg|exact E|apply En; now left].
  - apply IH. intros y I. apply En. now right.
Qed.
End Parts.
