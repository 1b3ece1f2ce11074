(** Facts about the encoder. *)
From Verif Require Import GoBase GoBaseProofs Strconv StrconvProofs BencTypes BencFields BencEncode BencSpec BencEncSpec BencFieldSpec
  BencSpecProofs BencDecode BencFieldsProofs.
From Coq Require Import ZifyBool ZifyNat ZifyN Permutation.

Lemma Forall2_impl {A B} (R R' : A -> B -> Prop) l l' : (forall x y, R x y -> R' x y) -> Forall2 R l l' -> Forall2 R' l l'.
Proof. intros H. induction 1; constructor; auto. Qed.
Lemma enc_int_bep3 z : bep3 (BInt z) (enc_int z).
Proof. unfold enc_int. constructor. apply dec_text_format. reflexivity. Qed.
Lemma enc_str_text s : str_text s (enc_str s).
Proof.
  exists (format_N (N.of_nat (List.length s))). split; [|reflexivity].
  apply dec_text_format. rewrite format_Z_nonneg by apply zlen_nonneg. f_equal. unfold zlen. lia.
Qed.
Lemma str_text_enc s t : str_text s t -> t = enc_str s.
Proof.
  intros (n & D & ->). apply dec_text_format in D. rewrite D. rewrite format_Z_nonneg by apply zlen_nonneg.
  unfold enc_str. do 2 f_equal. unfold zlen. lia.
Qed.
Lemma dec_text_enc z n : dec_text z n -> "i"%byte :: n ++ ["e"%byte] = enc_int z.
Proof. intros D. apply dec_text_format in D. subst. reflexivity. Qed.
Lemma enc_str_bep3 s : bep3 (BStr s) (enc_str s).
Proof. constructor. apply enc_str_text. Qed.

Lemma ewrite_ok b r out : ewrite b r = EOk out <-> exists b', r = EOk b' /\ out = b ++ b'.
Proof. destruct r; cbn; split; try (intros (? & H & _); discriminate H); try discriminate; [intros [= <-]; eauto|intros (? & [= ->] & ->); reflexivity]. Qed.
Lemma eseq_ok r1 r2 out : eseq r1 r2 = EOk out <-> exists b1 b2, r1 = EOk b1 /\ r2 = EOk b2 /\ out = b1 ++ b2.
Proof.
  destruct r1; cbn; [rewrite ewrite_ok| | |]; split; try discriminate; try (intros (? & ? & H & _); discriminate H).
  - intros (b' & -> & ->). eauto.
  - intros (b1 & b2 & [= ->] & -> & ->). eauto.
Qed.

(** The dispatch on marshalers, and the plain encoder. *)
Lemma uses_marshaler_false t fl : uses_marshaler t fl = false ->
  (if negb (is_ptr t) && fl_addr fl then ptr_impl m_marsh t else None) = None /\ impl m_marsh t = None.
Proof.
  destruct t as [| | | | | | | | | | |t'|i ms u]; cbn [uses_marshaler ptr_impl impl]; intros H;
    try (destruct (negb _ && fl_addr fl); split; reflexivity).
  - split; [destruct (negb _ && fl_addr fl); reflexivity|].
    destruct t' as [| | | | | | | | | | |t''|i ms u]; auto. destruct (m_marsh ms); auto; discriminate.
  - destruct (m_marsh ms) as [[]|]; try discriminate.
    + split; [|reflexivity]. rewrite andb_comm. rewrite H. reflexivity.
    + destruct (_ && _); split; reflexivity.
Qed.
Lemma uses_marshaler_true t fl : uses_marshaler t fl = true ->
  (if negb (is_ptr t) && fl_addr fl then ptr_impl m_marsh t else None) <> None \/ impl m_marsh t <> None.
Proof.
  destruct t as [| | | | | | | | | | |t'|i ms u]; cbn [uses_marshaler ptr_impl impl]; try discriminate.
  - destruct t' as [| | | | | | | | | | |t''|i ms u]; try discriminate. destruct (m_marsh ms); try discriminate. right. discriminate.
  - destruct (m_marsh ms) as [[]|]; try discriminate; [right; discriminate|]. intros H. left. rewrite andb_comm. rewrite H. discriminate.
Qed.

(** *** Walking index paths in values *)
Lemma is_nil_nil t v : is_nil t v = true -> v = VNil.
Proof. unfold is_nil. destruct (under t), v; congruence. Qed.
Lemma nth_error_fold_and {A} (P : A -> Prop) l i x : fold_right (fun x a => P x /\ a) True l -> nth_error l i = Some x -> P x.
Proof. intros H E. apply fold_and_Forall in H. rewrite Forall_forall in H. apply H. eapply nth_error_In; eauto. Qed.

Lemma field_by_index_no_nil p : forall t fl v ft ffl x, v = VNil \/ no_nil v ->
  field_by_index p t fl v = Some (ft, ffl, x) -> x = VNil \/ no_nil x.
Proof.
  induction p as [|i p IH]; intros t fl v ft ffl x Hv H; cbn [field_by_index] in H.
  - injection H as <- <- <-. exact Hv.
  - destruct (is_nil t v) eqn:N; [injection H as <- <- <-; exact Hv|].
    assert (exists t1 fl1 v1, (v1 = VNil \/ no_nil v1) /\
       match v1 with VStruct l => match nth_error (struct_fields t1) i, nth_error l i with
            | Some (a, ft), Some x => field_by_index p ft (fl_field fl1 a) x | _, _ => None end | _ => None end = Some (ft, ffl, x)) as (t1 & fl1 & v1 & Hv1 & H1).
    { destruct (under t) eqn:U; try (exists t, fl, v; split; [exact Hv|exact H]).
      destruct v; try (exists t, fl; eexists; split; [exact Hv|exact H]).
      exists g, (fl_elem fl), v. split; [|exact H]. destruct Hv as [Hv|Hv]; [discriminate|]. right. exact Hv. }
    destruct v1; try discriminate. destruct (nth_error (struct_fields t1) i) as [[a gt]|]; [|discriminate].
    destruct (nth_error l i) as [y|] eqn:Ny; [|discriminate]. destruct Hv1 as [Hv1|Hv1]; [discriminate|].
    eapply IH; [|exact H1]. cbn in Hv1. apply (nth_error_fold_and (fun x => x = VNil \/ no_nil x) l i y Hv1 Ny).
Qed.

Lemma field_by_index_distinct p : forall t fl v ft ffl x, maps_distinct v ->
  field_by_index p t fl v = Some (ft, ffl, x) -> maps_distinct x.
Proof.
  induction p as [|i p IH]; intros t fl v ft ffl x Hv H; cbn [field_by_index] in H.
  - injection H as <- <- <-. exact Hv.
  - destruct (is_nil t v) eqn:N; [injection H as <- <- <-; exact Hv|].
    assert (exists t1 fl1 v1, maps_distinct v1 /\
       match v1 with VStruct l => match nth_error (struct_fields t1) i, nth_error l i with
            | Some (a, ft), Some x => field_by_index p ft (fl_field fl1 a) x | _, _ => None end | _ => None end = Some (ft, ffl, x)) as (t1 & fl1 & v1 & Hv1 & H1).
    { destruct (under t) eqn:U; try (exists t, fl, v; split; [exact Hv|exact H]).
      destruct v; try (exists t, fl; eexists; split; [exact Hv|exact H]).
      exists g, (fl_elem fl), v. split; [|exact H]. exact Hv. }
    destruct v1; try discriminate. destruct (nth_error (struct_fields t1) i) as [[a gt]|]; [|discriminate].
    destruct (nth_error l i) as [y|] eqn:Ny; [|discriminate].
    eapply IH; [|exact H1]. cbn in Hv1. apply (nth_error_fold_and maps_distinct l i y Hv1 Ny).
Qed.

Lemma field_by_index_depth p : forall t fl v ft ffl x,
  field_by_index p t fl v = Some (ft, ffl, x) -> (vdepth x <= vdepth v)%nat /\ (p <> [] -> forall l, v = VStruct l -> is_nil t v = false -> (vdepth x < vdepth v)%nat).
Proof.
  induction p as [|i p IH]; intros t fl v ft ffl x H; cbn [field_by_index] in H.
  - injection H as <- <- <-. split; [lia|congruence].
  - destruct (is_nil t v) eqn:N; [injection H as <- <- <-; split; [lia|congruence]|].
    assert (exists t1 fl1 v1, (vdepth v1 <= vdepth v)%nat /\ (forall l, v = VStruct l -> v1 = v) /\
       match v1 with VStruct l => match nth_error (struct_fields t1) i, nth_error l i with
            | Some (a, ft), Some x => field_by_index p ft (fl_field fl1 a) x | _, _ => None end | _ => None end = Some (ft, ffl, x)) as (t1 & fl1 & v1 & Hv1 & Hs & H1).
    { destruct (under t) eqn:U; try (exists t, fl, v; split; [lia|split; [reflexivity|exact H]]).
      destruct v; try (exists t, fl; eexists; split; [apply le_n|split; [reflexivity|exact H]]).
      exists g, (fl_elem fl), v. split; [cbn; lia|split; [intros; discriminate|exact H]]. }
    destruct v1; try discriminate. destruct (nth_error (struct_fields t1) i) as [[a gt]|]; [|discriminate].
    destruct (nth_error l i) as [y|] eqn:Ny; [|discriminate].
    apply IH in H1 as [H1 _]. pose proof (fold_max_in vdepth y l (nth_error_In _ _ Ny)). cbn [vdepth] in Hv1. split; [lia|]. intros _ l0 E _. lia.
Qed.

(** *** Lists of encodings *)
Lemma enc_list_ok {A} (f : A -> eres) l out : fold_right (fun x k => eseq (f x) k) (EOk []) l = EOk out ->
  exists ts, Forall2 (fun x t => f x = EOk t) l ts /\ out = concat ts.
Proof.
  revert out; induction l as [|x l IH]; cbn; intros out H.
  - injection H as <-. exists []. split; [constructor|reflexivity].
  - apply eseq_ok in H as (b1 & b2 & H1 & H2 & ->). apply IH in H2 as (ts & F & ->). exists (b1 :: ts). split; [constructor; auto|reflexivity].
Qed.
Lemma enc_list_ok' {A} (f : A -> eres) l ts : Forall2 (fun x t => f x = EOk t) l ts ->
  fold_right (fun x k => eseq (f x) k) (EOk []) l = EOk (concat ts).
Proof. induction 1 as [|x t l ts H F IH]; cbn; [reflexivity|]. rewrite H, IH. reflexivity. Qed.

(** Dictionaries: a list of optional entries, keys ascending. *)
Lemma enc_dict_ok {A} (key : A -> bytes) (f : A -> option eres) l out :
  fold_right (fun x k => match f x with None => k | Some r => ewrite (enc_str (key x)) (eseq r k) end) (EOk []) l = EOk out ->
  exists l' ts, (exists P, l' = filter P l) /\ Forall2 (fun x t => f x = Some (EOk t)) l' ts /\
    out = concat (map (fun kt => fst kt ++ snd kt) (combine (map enc_str (map key l')) ts)).
Proof.
  set (P := fun x => match f x with None => false | Some _ => true end).
  intros H. exists (filter P l).
  assert (exists ts, Forall2 (fun x t => f x = Some (EOk t)) (filter P l) ts /\
    out = concat (map (fun kt => fst kt ++ snd kt) (combine (map enc_str (map key (filter P l))) ts))) as (ts & F & E);
    [|exists ts; split; [exists P; reflexivity|auto]].
  revert out H. induction l as [|x l IH]; cbn [fold_right filter]; intros out H.
  - injection H as <-. exists []. split; [constructor|reflexivity].
  - assert (P x = match f x with None => false | Some _ => true end) as EP by reflexivity. rewrite EP.
    destruct (f x) as [r|] eqn:E.
    + apply ewrite_ok in H as (b' & H & ->). apply eseq_ok in H as (b1 & b2 & -> & H2 & ->).
      apply IH in H2 as (ts & F & ->). exists (b1 :: ts).
      split; [constructor; auto|]. cbn [map combine concat fst snd]. rewrite <- app_assoc. reflexivity.
    + apply IH in H as (ts & F & ->). exists ts. split; [exact F|reflexivity].
Qed.
Lemma ascending_filter {A} (key : A -> bytes) P l : ascending (map key l) -> ascending (map key (filter P l)).
Proof.
  unfold ascending. induction l as [|x l IH]; cbn; intros H; [constructor|]. inversion H as [|? ? H1 H2]; subst.
  destruct (P x); cbn; [|auto]. constructor; [auto|]. rewrite Forall_forall in *. intros k Hk.
  apply H2. apply in_map_iff in Hk as (y & <- & Hy). apply filter_In in Hy as [Hy _]. apply in_map. exact Hy.
Qed.
Lemma bep3_dict_intro ks bvs ts : ascending ks -> List.length ks = List.length bvs -> Forall2 bep3 bvs ts ->
  bep3 (BDict (combine ks bvs)) ("d"%byte :: concat (map (fun kt => fst kt ++ snd kt) (combine (map enc_str ks) ts)) ++ ["e"%byte]).
Proof.
  intros A L F.
  assert (map fst (combine ks bvs) = ks /\ map snd (combine ks bvs) = bvs) as [E1 E2].
  { clear - L. revert bvs L. induction ks as [|k ks IH]; intros [|b bvs] L; try discriminate; cbn; [auto|].
    destruct (IH bvs) as [-> ->]; [cbn in L; lia|auto]. }
  constructor.
  - rewrite E1. exact A.
  - rewrite E1. clear. induction ks; cbn; constructor; auto. apply enc_str_text.
  - rewrite E2. exact F.
Qed.

Section Enc.
Variable C : customs.

Lemma enc_marshaler_ok id r fl d out : enc_marshaler C id r fl d = EOk out -> c_marsh C id r = Ok out.
Proof. unfold enc_marshaler. destruct (fl_ro fl); [discriminate|]. destruct (c_marsh C id r); try discriminate. congruence. Qed.

Lemma Forall2_exists {A B} (R : A -> B -> Prop) l : Forall (fun x => exists y, R x y) l -> exists l', Forall2 R l l'.
Proof. induction 1 as [|x l (y & H) _ (l' & IH)]; [exists []; constructor|exists (y :: l'); constructor; auto]. Qed.

Lemma encode_bep3 fuel : customs_canonical C -> forall t fl d v out,
  no_nil v \/ (v = VNil /\ is_nil t v = false) -> maps_distinct v ->
  encode C fuel t fl d v = EOk out -> exists bv, bep3 bv out.
Proof.
  intros HC. induction fuel as [|n IH]; intros t fl d v out HN HD; [discriminate|]. cbn [encode].
  destruct (if negb (is_ptr t) && fl_addr fl then ptr_impl m_marsh t else None) as [id|].
  { intros H. apply enc_marshaler_ok in H. eapply HC; eauto. }
  destruct (impl m_marsh t) as [id|].
  { destruct t; try (intros H; apply enc_marshaler_ok in H; eapply HC; eauto).
    destruct v; intros H; apply enc_marshaler_ok in H; eapply HC; eauto. }
  destruct (under t) as [|w|w| | |et|k et|kt et|nm fs| | |t'|i ms t'] eqn:U; destruct v; try discriminate;
    try (destruct HN as [[]|[_ HN]]; unfold is_nil in HN; rewrite U in HN; discriminate).
  - intros [= <-]. eexists. apply enc_str_bep3.
  - intros [= <-]. eexists. apply enc_int_bep3.
  - intros [= <-]. eexists. apply enc_int_bep3.
  - destruct (kind_uint8 et); [|discriminate]. intros [= <-]. eexists. apply enc_str_bep3.
  - destruct (kind_uint8 et); [discriminate|]. destruct (ptr_depth_limit <? S d)%nat; [discriminate|]. intros H.
    apply ewrite_ok in H as (b & H & ->). apply eseq_ok in H as (b1 & b2 & H & [= <-] & ->).
    apply enc_list_ok in H as (ts & F & ->).
    destruct HN as [HN|[HN _]]; [|discriminate]. cbn in HN, HD. rewrite fold_and_Forall in HN, HD.
    assert (exists bvs, Forall2 bep3 bvs ts) as (bvs & Fb).
    { clear - F HN HD IH. induction F as [|x s l ts Hx F IHF]; [exists []; constructor|]. inversion HN; subst. inversion HD; subst.
      destruct IHF as (bvs & Hb); auto. apply IH in Hx as (bv & Hbv); auto. exists (bv :: bvs). constructor; auto. }
    exists (BList bvs). change (["l"%byte] ++ concat ts ++ ["e"%byte]) with ("l"%byte :: concat ts ++ ["e"%byte]). constructor. exact Fb.
  - destruct (ptr_depth_limit <? S d)%nat; [discriminate|]. intros H.
    apply ewrite_ok in H as (b & H & ->). apply eseq_ok in H as (b1 & b2 & H & [= <-] & ->).
    apply enc_list_ok in H as (ts & F & ->).
    destruct HN as [HN|[HN _]]; [|discriminate]. cbn in HN, HD. rewrite fold_and_Forall in HN, HD.
    assert (exists bvs, Forall2 bep3 bvs ts) as (bvs & Fb).
    { clear - F HN HD IH. induction F as [|x s l ts Hx F IHF]; [exists []; constructor|]. inversion HN; subst. inversion HD; subst.
      destruct IHF as (bvs & Hb); auto. apply IH in Hx as (bv & Hbv); auto. exists (bv :: bvs). constructor; auto. }
    exists (BList bvs). change (["l"%byte] ++ concat ts ++ ["e"%byte]) with ("l"%byte :: concat ts ++ ["e"%byte]). constructor. exact Fb.
  - destruct (negb (kind_string kt)); [discriminate|]. destruct (ptr_depth_limit <? S d)%nat; [discriminate|]. intros H.
    apply ewrite_ok in H as (b & H & ->). apply eseq_ok in H as (b1 & b2 & H & [= <-] & ->).
    apply (enc_dict_ok fst (fun p => Some (encode C n et (fl_noaddr fl) (S d) (snd p)))) in H as (l' & ts & (P & EP) & F & ->).
    destruct HN as [HN|[HN _]]; [|discriminate]. cbn in HN, HD. destruct HD as [ND HD].
    rewrite (fold_and_Forall (fun p => no_nil (snd p))) in HN. rewrite (fold_and_Forall (fun p => maps_distinct (snd p))) in HD.
    assert (forall p, In p l' -> no_nil (snd p) /\ maps_distinct (snd p)) as HP.
    { intros p Hp. rewrite EP in Hp. apply filter_In in Hp as [Hp _]. apply (Permutation_in _ (sort_by_perm fst m)) in Hp.
      rewrite Forall_forall in HN, HD. auto. }
    assert (exists bvs, Forall2 bep3 bvs ts /\ List.length (map fst l') = List.length bvs) as (bvs & Fb & L).
    { clear EP. clear - F HP IH. induction F as [|x s l ts Hx F IHF]; [exists []; repeat constructor|].
      destruct IHF as (bvs & Hb & L); [intros p Hp; apply HP; right; exact Hp|]. injection Hx as Hx.
      destruct (HP x (or_introl eq_refl)) as [N D]. apply IH in Hx as (bv & Hbv); auto. exists (bv :: bvs). split; [constructor; auto|cbn in *; lia]. }
    eexists. change (["d"%byte] ++ ?x ++ ["e"%byte]) with ("d"%byte :: x ++ ["e"%byte]). apply bep3_dict_intro; [|exact L|exact Fb].
    rewrite EP. apply ascending_filter. apply sort_by_ascending. exact ND.
  - destruct (ptr_depth_limit <? S d)%nat; [discriminate|]. intros H.
    apply ewrite_ok in H as (b & H & ->). apply eseq_ok in H as (b1 & b2 & H & [= <-] & ->).
    set (g := fun f : finfo => match field_by_index (f_index f) t fl (VStruct l) with
           | None => Some (EErr [] d EIll)
           | Some (ft, ffl, fv) => if is_nil ft fv then None else if f_omit f && is_empty_value ft fv then None
                else Some (encode C n ft ffl (S d) fv) end).
    assert (exists l' ts, (exists P, l' = filter P (sorted_fields t)) /\ Forall2 (fun x t => g x = Some (EOk t)) l' ts /\
       b1 = concat (map (fun kt => fst kt ++ snd kt) (combine (map enc_str (map f_key l')) ts))) as (l' & ts & (P & EP) & F & ->).
    { apply (enc_dict_ok f_key g). revert b1 H. induction (sorted_fields t) as [|f fs' IHf]; intros b1 H; [exact H|]. cbn [fold_right] in *.
      unfold g at 1. destruct (field_by_index (f_index f) t fl (VStruct l)) as [[[ft ffl] fv]|]; [|discriminate].
      destruct (is_nil ft fv); [apply IHf; exact H|]. destruct (f_omit f && is_empty_value ft fv); [apply IHf; exact H|].
      apply ewrite_ok in H as (b' & H & ->). apply eseq_ok in H as (c1 & c2 & -> & H2 & ->). rewrite (IHf _ H2). reflexivity. }
    destruct HN as [HN|[HN _]]; [|discriminate].
    assert (exists bvs, Forall2 bep3 bvs ts /\ List.length (map f_key l') = List.length bvs) as (bvs & Fb & L).
    { clear EP. clear - F HN HD IH. induction F as [|x s l' ts Hx F IHF]; [exists []; repeat constructor|].
      destruct IHF as (bvs & Hb & L). unfold g in Hx.
      destruct (field_by_index (f_index x) t fl (VStruct l)) as [[[ft ffl] fv]|] eqn:E; [|discriminate].
      destruct (is_nil ft fv) eqn:Nl; [discriminate|]. destruct (f_omit x && is_empty_value ft fv); [discriminate|]. injection Hx as Hx.
      pose proof (field_by_index_distinct _ _ _ _ _ _ _ HD E).
      pose proof (field_by_index_no_nil _ _ _ _ _ _ _ (or_intror HN) E) as HX.
      apply IH in Hx as (bv & Hbv); auto.
      - exists (bv :: bvs). split; [constructor; auto|cbn in *; lia].
      - destruct HX as [->|HX]; auto. }
    eexists. change (["d"%byte] ++ ?x ++ ["e"%byte]) with ("d"%byte :: x ++ ["e"%byte]). apply bep3_dict_intro; [|exact L|exact Fb].
    rewrite EP. apply ascending_filter. apply sorted_fields_ascending.
  - destruct HN as [HN|[HN _]]; [|discriminate]. apply IH; auto.
  - destruct HN as [HN|[HN _]]; [|discriminate]. apply IH; auto.
  - destruct HN as [HN|[HN _]]; [|discriminate]. apply IH; auto.
Qed.

(** *** Map order independence *)
Lemma same_data_ind' (P : gval -> gval -> Prop) :
  (forall v, P v v) ->
  (forall l l', Forall2 (fun x y => same_data x y /\ P x y) l l' -> P (VSlice l) (VSlice l')) ->
  (forall l l', Forall2 (fun x y => same_data x y /\ P x y) l l' -> P (VStruct l) (VStruct l')) ->
  (forall t v v', same_data v v' -> P v v' -> P (VIface t v) (VIface t v')) ->
  (forall v v', same_data v v' -> P v v' -> P (VPtr v) (VPtr v')) ->
  (forall m m1 m', NoDup (map fst m) -> Permutation m m1 ->
     Forall2 (fun p q => fst p = fst q /\ same_data (snd p) (snd q) /\ P (snd p) (snd q)) m1 m' -> P (VMap m) (VMap m')) ->
  forall v v', same_data v v' -> P v v'.
Proof.
  intros H1 H2 H3 H4 H5 H6. fix IH 3. intros v v' H. destruct H as [v|l l' F|l l' F|t v v' H|v v' H|m m1 m' N Pm F].
  - apply H1.
  - apply H2. induction F; constructor; auto.
  - apply H3. induction F; constructor; auto.
  - apply H4; auto.
  - apply H5; auto.
  - apply (H6 m m1 m' N Pm). clear N Pm. induction F as [|p q l l' [E S] F IHF]; constructor; auto.
Qed.

Lemma sort_by_Forall2 {A B} (ka : A -> bytes) (kb : B -> bytes) (R : A -> B -> Prop) l l' :
  (forall x y, R x y -> ka x = kb y) -> Forall2 R l l' -> Forall2 R (sort_by ka l) (sort_by kb l').
Proof.
  intros HR. induction 1 as [|x y l l' H F IH]; cbn; [constructor|].
  assert (forall s s', Forall2 R s s' -> Forall2 R (insert_by ka x s) (insert_by kb y s')) as HI; [|apply HI; exact IH].
  intros s s' FS. induction FS as [|a b s s' Hab FS IHS]; cbn; [constructor; auto|].
  rewrite (HR _ _ H), (HR _ _ Hab). destruct (bytes_ltb (kb b) (kb y)); constructor; auto.
Qed.
Lemma sort_by_perm_eq {A} (key : A -> bytes) l l' : NoDup (map key l) -> Permutation l l' -> sort_by key l = sort_by key l'.
Proof.
  intros N P. apply ascending_unique with (key := key).
  - apply sort_by_ascending, N.
  - apply sort_by_ascending. eapply Permutation_NoDup; [apply Permutation_map; exact P|exact N].
  - rewrite !sort_by_perm. exact P.
Qed.

Lemma same_is_nil t v v' : same_data v v' -> is_nil t v = is_nil t v'.
Proof. intros H. destruct H; reflexivity. Qed.
Lemma same_is_empty t v v' : same_data v v' -> is_empty_value t v = is_empty_value t v'.
Proof.
  intros H. destruct H as [v|l l' F|l l' F|t0 v v' H|v v' H|m m1 m' N Pm F]; auto; unfold is_empty_value; destruct (under t); auto.
  - destruct F; reflexivity.
  - destruct F.
    + apply Permutation_sym, Permutation_nil in Pm. subst. reflexivity.
    + destruct m; [apply Permutation_nil in Pm; discriminate|reflexivity].
Qed.
Definition rel3 (r r' : option (gty * flags * gval)) : Prop :=
  match r, r' with
  | None, None => True
  | Some (t, f, x), Some (t', f', x') => t = t' /\ f = f' /\ same_data x x'
  | _, _ => False
  end.
Lemma nth_error_Forall2 {A B} (R : A -> B -> Prop) l l' i : Forall2 R l l' ->
  match nth_error l i, nth_error l' i with Some x, Some y => R x y | None, None => True | _, _ => False end.
Proof. intros F. revert i. induction F as [|x y l l' H F IH]; intros [|i]; cbn; auto. apply IH. Qed.
Lemma Forall2_refl {A} (R : A -> A -> Prop) l : (forall x, R x x) -> Forall2 R l l.
Proof. intros H. induction l; constructor; auto. Qed.
Lemma rel3_refl r : rel3 r r.
Proof. destruct r as [[[? ?] ?]|]; cbn; [repeat split; constructor|exact I]. Qed.

Lemma same_field_by_index p : forall t fl v v', same_data v v' -> rel3 (field_by_index p t fl v) (field_by_index p t fl v').
Proof.
  induction p as [|i p IH]; intros t fl v v' H; cbn [field_by_index].
  - cbn. auto.
  - rewrite <- (same_is_nil t v v' H). destruct (is_nil t v); [cbn; auto|].
    assert (forall t1 fl1 w w', same_data w w' -> rel3
      match w with VStruct l => match nth_error (struct_fields t1) i, nth_error l i with
            | Some (a, ft), Some x => field_by_index p ft (fl_field fl1 a) x | _, _ => None end | _ => None end
      match w' with VStruct l => match nth_error (struct_fields t1) i, nth_error l i with
            | Some (a, ft), Some x => field_by_index p ft (fl_field fl1 a) x | _, _ => None end | _ => None end) as K.
    { intros t1 fl1 w w' S. inversion S as [v0|l l' F|l l' F|t0 v0 v0' H0|v0 v0' H0|m m1 m' N0 Pm F]; subst; try exact I; [apply rel3_refl|].
      destruct (nth_error (struct_fields t1) i) as [[a ft]|]; [|exact I].
      pose proof (nth_error_Forall2 same_data l l' i F) as Hn.
      destruct (nth_error l i), (nth_error l' i); try contradiction; [|exact I]. apply IH. exact Hn. }
    destruct (under t) eqn:U; try (apply (K t fl); exact H).
    inversion H as [v0|l l' F|l l' F|t0 v0 v0' H0|v0 v0' H0|m m1 m' N0 Pm F]; subst.
    + apply rel3_refl.
    + exact (K t fl _ _ H).
    + exact (K t fl _ _ H).
    + exact (K t fl _ _ H).
    + exact (K g (fl_elem fl) _ _ H0).
    + exact (K t fl _ _ H).
Qed.

Lemma fold_eseq_ext {A B} (f : A -> eres) (g : B -> eres) z l l' : Forall2 (fun x y => f x = g y) l l' ->
  fold_right (fun x k => eseq (f x) k) z l = fold_right (fun x k => eseq (g x) k) z l'.
Proof. induction 1 as [|x y l l' H F IH]; cbn; [reflexivity|]. rewrite H, IH. reflexivity. Qed.

Lemma encode_same fuel : customs_order_free C -> forall t fl d v v', same_data v v' ->
  encode C fuel t fl d v = encode C fuel t fl d v'.
Proof.
  intros HC. induction fuel as [|n IH]; intros t fl d v v' H; [reflexivity|]. cbn [encode].
  destruct (if negb (is_ptr t) && fl_addr fl then ptr_impl m_marsh t else None) as [id|].
  { unfold enc_marshaler. rewrite (HC id v v' H). reflexivity. }
  destruct (impl m_marsh t) as [id|].
  { assert (enc_marshaler C id (Some v) fl d = enc_marshaler C id (Some v') fl d) as E by (unfold enc_marshaler; rewrite (HC id v v' H); reflexivity).
    destruct t; try exact E. inversion H; subst; auto. unfold enc_marshaler. rewrite (HC id v0 v'0 H0). reflexivity. }
  inversion H as [v0|l l' F|l l' F|t0 v0 v0' H0|v0 v0' H0|m m1 m' N0 Pm F]; subst.
  - reflexivity.
  - destruct (under t) as [|w|w| | |et|k et|kt et|nm fs| | |t'|i ms t'] eqn:U; auto.
    + destruct (kind_uint8 et); [reflexivity|]. destruct (_ <? _)%nat; [reflexivity|]. do 2 f_equal.
      apply fold_eseq_ext. eapply Forall2_impl; [|exact F]. intros; apply IH; auto.
    + destruct (_ <? _)%nat; [reflexivity|]. do 2 f_equal.
      apply fold_eseq_ext. eapply Forall2_impl; [|exact F]. intros; apply IH; auto.
  - destruct (under t) as [|w|w| | |et|k et|kt et|nm fs| | |t'|i ms t'] eqn:U; auto.
    destruct (_ <? _)%nat; [reflexivity|]. do 2 f_equal.
    induction (sorted_fields t) as [|f fl' IHf]; [reflexivity|]. cbn [fold_right]. rewrite IHf.
    pose proof (same_field_by_index (f_index f) t fl _ _ H) as R. unfold rel3 in R.
    destruct (field_by_index (f_index f) t fl (VStruct l)) as [[[a b] c]|], (field_by_index (f_index f) t fl (VStruct l')) as [[[a' b'] c']|]; try contradiction; [|reflexivity].
    destruct R as (<- & <- & S). rewrite <- (same_is_nil a c c' S), <- (same_is_empty a c c' S).
    destruct (is_nil a c); [reflexivity|]. destruct (_ && _); [reflexivity|]. rewrite (IH a b (Datatypes.S d) c c' S). reflexivity.
  - destruct (under t) as [|w|w| | |et|k et|kt et|nm fs| | |t'|i ms t'] eqn:U; auto.
  - destruct (under t) as [|w|w| | |et|k et|kt et|nm fs| | |t'|i ms t'] eqn:U; auto.
  - destruct (under t) as [|w|w| | |et|k et|kt et|nm fs| | |t'|i ms t'] eqn:U; auto.
    destruct (negb (kind_string kt)); [reflexivity|]. destruct (_ <? _)%nat; [reflexivity|]. do 2 f_equal.
    unfold sort_map. rewrite (sort_by_perm_eq fst m m1 N0 Pm).
    assert (Forall2 (fun p q => fst p = fst q /\ same_data (snd p) (snd q)) (sort_by fst m1) (sort_by fst m')) as FS.
    { apply sort_by_Forall2; [intros ? ? [E _]; exact E|exact F]. }
    clear - FS IH. induction FS as [|p q s s' [E S] FS IHS]; cbn [fold_right]; [reflexivity|].
    rewrite E, IHS, (IH et (fl_noaddr fl) (Datatypes.S d) _ _ S). reflexivity.
Qed.

Lemma perm_fold_max {A} (f : A -> nat) l l' : Permutation l l' ->
  fold_right (fun x a => Nat.max (f x) a) O l = fold_right (fun x a => Nat.max (f x) a) O l'.
Proof. induction 1; cbn; lia. Qed.
Lemma same_vdepth v v' : same_data v v' -> vdepth v = vdepth v'.
Proof.
  induction 1 as [v|l l' F|l l' F|t v v' _ IH|v v' _ IH|m m1 m' N P F] using same_data_ind'; cbn [vdepth].
  - reflexivity.
  - f_equal. induction F as [|x y l l' [_ E] F IHF]; cbn; [reflexivity|]. lia.
  - f_equal. induction F as [|x y l l' [_ E] F IHF]; cbn; [reflexivity|]. lia.
  - lia.
  - lia.
  - f_equal. rewrite (perm_fold_max (fun p => vdepth (snd p)) m m1 P). clear N P.
    induction F as [|x y l l' [_ [_ E]] F IHF]; cbn; [reflexivity|]. lia.
Qed.

(** *** Fuel *)
Lemma ewrite_fuel b r : r <> EFuel -> ewrite b r <> EFuel.
Proof. destruct r; cbn; congruence. Qed.
Lemma eseq_fuel r1 r2 : r1 <> EFuel -> r2 <> EFuel -> eseq r1 r2 <> EFuel.
Proof. destruct r1; cbn; try congruence. intros _. apply ewrite_fuel. Qed.
Lemma enc_marshaler_fuel id r fl d : enc_marshaler C id r fl d <> EFuel.
Proof. unfold enc_marshaler. destruct (fl_ro fl); [discriminate|]. destruct (c_marsh C id r); discriminate. Qed.
Lemma fold_eseq_fuel {A} (f : A -> eres) l : (forall x, In x l -> f x <> EFuel) -> fold_right (fun x k => eseq (f x) k) (EOk []) l <> EFuel.
Proof.
  induction l as [|x l IH]; cbn; intros H; [discriminate|]. apply eseq_fuel; [apply H; left; reflexivity|].
  apply IH. intros y Hy. apply H. right. exact Hy.
Qed.
Lemma finfo_index_nonnil t f : In f (sorted_fields t) -> f_index f <> [].
Proof.
  intros H. apply sorted_fields_in in H as [H _]. apply ktf_assoc in H as (_ & a & ft & L & _). intros E. rewrite E in L. discriminate.
Qed.

Lemma encode_no_fuel fuel : forall t fl d v, (vdepth v < fuel)%nat -> encode C fuel t fl d v <> EFuel.
Proof.
  induction fuel as [|n IH]; intros t fl d v Hn; [lia|]. cbn [encode].
  destruct (if negb (is_ptr t) && fl_addr fl then ptr_impl m_marsh t else None) as [id|]; [apply enc_marshaler_fuel|].
  destruct (impl m_marsh t) as [id|].
  { destruct t; try apply enc_marshaler_fuel. destruct v; apply enc_marshaler_fuel. }
  destruct (under t) as [|w|w| | |et|k et|kt et|nm fs| | |t'|i ms t'] eqn:U; destruct v; try discriminate.
  - destruct (kind_uint8 et); discriminate.
  - destruct (kind_uint8 et); discriminate.
  - destruct (kind_uint8 et); [discriminate|]. destruct (_ <? _)%nat; [discriminate|]. apply ewrite_fuel, eseq_fuel; [|discriminate].
    apply fold_eseq_fuel. intros x Hx. apply IH. pose proof (fold_max_in vdepth x l Hx). cbn [vdepth] in Hn. lia.
  - destruct (_ <? _)%nat; [discriminate|]. apply ewrite_fuel, eseq_fuel; [|discriminate].
    apply fold_eseq_fuel. intros x Hx. apply IH. pose proof (fold_max_in vdepth x l Hx). cbn [vdepth] in Hn. lia.
  - destruct (negb (kind_string kt)); [discriminate|]. destruct (_ <? _)%nat; [discriminate|]. apply ewrite_fuel, eseq_fuel; [|discriminate].
    assert (forall p, In p (sort_map m) -> (vdepth (snd p) < n)%nat) as HP.
    { intros p Hp. apply (Permutation_in _ (sort_by_perm fst m)) in Hp. pose proof (fold_max_in (fun p : bytes * gval => vdepth (snd p)) p m Hp). cbn [vdepth] in Hn. cbn beta in *. lia. }
    induction (sort_map m) as [|p s IHs]; cbn [fold_right]; [discriminate|]. apply ewrite_fuel, eseq_fuel.
    + apply IH. apply HP. left. reflexivity.
    + apply IHs. intros q Hq. apply HP. right. exact Hq.
  - destruct (_ <? _)%nat; [discriminate|]. apply ewrite_fuel, eseq_fuel; [|discriminate].
    pose proof (finfo_index_nonnil t) as HF.
    induction (sorted_fields t) as [|f s IHs]; cbn [fold_right]; [discriminate|].
    assert (forall g, In g s -> f_index g <> []) as HF' by (intros g Hg; apply HF; right; exact Hg). specialize (IHs HF').
    destruct (field_by_index (f_index f) t fl (VStruct l)) as [[[ft ffl] fv]|] eqn:E; [|discriminate].
    destruct (is_nil ft fv); [exact IHs|]. destruct (_ && _); [exact IHs|]. apply ewrite_fuel, eseq_fuel; [|exact IHs].
    apply IH. apply field_by_index_depth in E as [_ E]. specialize (E (HF f (or_introl eq_refl)) l eq_refl).
    assert (is_nil t (VStruct l) = false) by (unfold is_nil; rewrite U; reflexivity). specialize (E H). lia.
  - apply IH. cbn [vdepth] in Hn. lia.
  - apply IH. cbn [vdepth] in Hn. lia.
  - apply IH. cbn [vdepth] in Hn. lia.
Qed.
End Enc.
