(** When Marshal succeeds on every part of a struct, a map or a slice, it succeeds on the whole, unless that is nested too deep. *)
From Verif Require Import GoBase GoBaseProofs BencTypes BencFields BencFieldSpec BencFieldsProofs BencResolveProofs BencEncode BencSpec BencEncSpec BencEncodeProofs BencDepthProofs BencConsumeProofs BencRoundSpec BencRoundProofs BencRoundTrip BencApiProofs BencPartsSpec BencPartsProofs.
From Coq Require Import Sorting.Sorted Permutation.

Section Whole.
Variable C : customs.
Definition fine (r : eres) : Prop := (exists o, r = EOk o) \/ depth_err r.
Lemma fold_fine {A} (f g : A -> eres) l out : (forall x o, In x l -> f x = EOk o -> fine (g x)) -> fold_right (fun x k => eseq (f x) k) (EOk []) l = EOk out ->
  fine (fold_right (fun x k => eseq (g x) k) (EOk []) l).
Proof. intros H E. apply fold_total. intros x I. apply enc_list_ok in E as (ts & F & _). destruct (Forall2_in_l _ _ _ _ F I) as (o & _ & R). eapply H; eassumption. Qed.
Lemma deeper fuel : forall t fl d d' v out, encode C fuel t fl d v = EOk out -> fine (encode C fuel t fl d' v).
Proof.
  induction fuel as [|n IH]; intros t fl d d' v out H; [discriminate|]. cbn [encode] in *.
  destruct (if negb (is_ptr t) && fl_addr fl then ptr_impl m_marsh t else None). { left. eexists. eapply marshaler_d; exact H. }
  destruct (impl m_marsh t). { left. destruct t; try (eexists; eapply marshaler_d; exact H). destruct v; eexists; eapply marshaler_d; exact H. }
  destruct (under t), v; try discriminate; try (left; eexists; exact H).
  all: repeat match type of H with (if ?c then _ else _) = _ => destruct c eqn:?; try discriminate end; try (left; eexists; exact H).
  all: try (eapply IH; eassumption).
  all: try (destruct (ptr_depth_limit <? S d')%nat; [right; unfold depth_err; eauto|]).
  all: apply ewrite_ok in H as (b' & H & ->); apply eseq_ok in H as (b1 & b2 & H1 & H2 & ->); apply ewrite_total, eseq_total; [|apply ok_e].
  - eapply fold_fine; [|exact H1]. intros x o _ E. cbn in E. eapply IH; exact E.
  - eapply fold_fine; [|exact H1]. intros x o _ E. cbn in E. eapply IH; exact E.
  - revert b1 H1. induction (sort_map m) as [|p l IHl]; intros b1 H1; [left; eexists; exact H1|]. cbn [fold_right] in *. apply ewrite_ok in H1 as (b' & H1 & ->).
    apply eseq_ok in H1 as (c1 & c2 & H1 & H3 & ->). apply ewrite_total, eseq_total; [eapply IH; exact H1|eapply IHl; exact H3].
  - revert b1 H1. induction (sorted_fields t) as [|p l0 IHl]; intros b1 H1; [left; eexists; exact H1|]. cbn [fold_right] in *. destruct (field_by_index (f_index p) t fl (VStruct l)) as [[[ft ffl] fv]|]; [|discriminate].
    destruct (is_nil ft fv); [eapply IHl; exact H1|]. destruct (f_omit p && is_empty_value ft fv); [eapply IHl; exact H1|].
    apply ewrite_ok in H1 as (b' & H1 & ->). apply eseq_ok in H1 as (c1 & c2 & H1 & H3 & ->). apply ewrite_total, eseq_total; [eapply IH; exact H1|eapply IHl; exact H3].
Qed.
(** What a pointer to a part and the part inside the whole have in common. *)
Lemma ptr_part n ft d x tx : legal ft -> marshal C (Some (TPtr ft, VPtr x)) = EOk tx -> (vdepth x < n)%nat -> fine (encode C n ft fl_new d x).
Proof.
  intros Lg H V. unfold marshal in H. change (vdepth (VPtr x)) with (S (vdepth x)) in H. set (k := vdepth x) in H. assert (Ek : k = vdepth x) by reflexivity. clearbody k.
  assert (E : encode C (S k) ft fl_new 0 x = EOk tx).
  { remember (S k) as k1 eqn:E1. cbn [encode is_ptr under negb andb] in H.
    destruct ft as [| | | | | | | | | | | |id ms u]; try exact H. cbn [impl ptr_impl] in H. destruct (m_marsh ms) as [r|] eqn:M; [|exact H].
    assert (P : is_ptr (TNamed id ms u) = false) by (unfold is_ptr; cbn [under]; destruct u; try reflexivity; cbn in Lg; congruence).
    subst k1. cbn [encode]. rewrite P. cbn [negb andb fl_addr fl_new ptr_impl]. rewrite M. unfold enc_marshaler in *. cbn [fl_ro fl_new fl_root_val] in *. exact H. }
  rewrite (encode_fuel_eq C (S k) n) in E by lia. eapply deeper. exact E.
Qed.
Lemma val_part n ft d x tx : marshal C (Some (ft, x)) = EOk tx -> (vdepth x < n)%nat -> fine (encode C n ft fl_root_val d x).
Proof. intros H V. unfold marshal in H. rewrite (encode_fuel_eq C _ n) in H by lia. eapply deeper. exact H. Qed.

Lemma fine_nest t v : fine (marshal C (Some (t, v))) -> ~ nest 1001 t fl_root_val v -> exists b, marshal C (Some (t, v)) = EOk b.
Proof. intros [H|H] N; [exact H|]. exfalso. apply N. exact (proj2 (proj2 (depth_exact C t v)) H). Qed.

Lemma struct_fine n t nm fs fl d vs : is_ptr t = false -> ptr_impl m_marsh t = None -> impl m_marsh t = None -> under t = TStruct nm fs ->
  (forall f, In f (sorted_fields t) -> exists ft ffl x, field_by_index (f_index f) t fl (VStruct vs) = Some (ft, ffl, x) /\ (emitted t fl (VStruct vs) f = true -> fine (encode C n ft ffl (S d) x))) ->
  fine (encode C (S n) t fl d (VStruct vs)).
Proof.
  intros Np P1 P2 U H. cbn [encode]. rewrite P1, P2, U. replace (if negb (is_ptr t) && fl_addr fl then @None nat else None) with (@None nat) by (destruct (negb (is_ptr t) && fl_addr fl); reflexivity).
  destruct (ptr_depth_limit <? S d)%nat; [right; unfold depth_err; eauto|]. apply ewrite_total, eseq_total; [|apply ok_e].
  induction (sorted_fields t) as [|f l IH]; [left; eexists; reflexivity|]. cbn [fold_right]. destruct (H f (or_introl eq_refl)) as (ft & ffl & x & G & E). unfold emitted in E. rewrite G in *.
  specialize (IH (fun g I => H g (or_intror I))). destruct (is_nil ft x); [exact IH|]. destruct (f_omit f && is_empty_value ft x); [exact IH|]. apply ewrite_total, eseq_total; [apply E; reflexivity|exact IH].
Qed.
Theorem struct_whole t nm fs vs : uses_marshaler t fl_new = false -> under t = TStruct nm fs -> flat fs -> Forall2 (fun f x => of_kind (snd f) x /\ legal (snd f)) fs vs ->
  ~ nest 1001 (TPtr t) fl_root_val (VPtr (VStruct vs)) ->
  (forall i a ft x, nth_error fs i = Some (a, ft) -> nth_error vs i = Some x -> takes_part a -> ~ left_out a x -> exists tx, marshal C (Some (TPtr ft, VPtr x)) = EOk tx) ->
  exists b, marshal C (Some (TPtr t, VPtr (VStruct vs))) = EOk b.
Proof.
  intros UM U F K Nn H. apply fine_nest; [|exact Nn]. unfold marshal. change (vdepth (VPtr (VStruct vs))) with (S (vdepth (VStruct vs))).
  set (n := vdepth (VStruct vs)). assert (En : forall x, In x vs -> (vdepth x < n)%nat).
  { intros x I. unfold n. cbn [vdepth]. apply Nat.lt_succ_r. exact (BencFieldsProofs.fold_max_in vdepth x vs I). }
  clearbody n. assert (Np : is_ptr t = false) by (unfold is_ptr; now rewrite U).
  destruct (uses_marshaler_false t fl_new UM) as (P1 & P2). rewrite Np in P1. cbn [negb andb fl_addr fl_new] in P1.
  assert (P3 : impl m_marsh (TPtr t) = None) by (destruct t; try reflexivity; exact P1).
  rewrite (ptr_step C (S n) t fl_root_val 0 (VStruct vs) P3). change (fl_elem fl_root_val) with fl_new.
  apply (struct_fine n t nm fs fl_new 0 vs Np P1 P2 U). intros f I. destruct (flat_fields t nm fs f U F I) as (i & a & ft & N & T & Ei & Ek & Eo).
  destruct (nth_error vs i) as [x|] eqn:V.
  2:{ apply nth_error_None in V. assert (i < List.length fs)%nat by (apply nth_error_Some; congruence). pose proof (F2_length _ _ _ K). lia. }
  pose proof (nth_error_Forall2 _ _ _ i K) as Kx. rewrite N, V in Kx. destruct Kx as (Kx & Lg). cbn [snd] in Kx, Lg.
  exists ft, (fl_field fl_new a), x. split; [rewrite Ei; exact (flat_get t nm fs fl_new vs i a ft x U N V)|]. intros Em.
  apply (emitted_spec t nm fs fl_new vs f i a ft x U Ei Eo N V Kx) in Em. destruct (H i a ft x N V T Em) as (tx & M).
  assert (Fl : fl_field fl_new a = fl_new) by (unfold fl_field, fl_new; cbn; now rewrite (proj1 T)). rewrite Fl. eapply ptr_part; [exact Lg|exact M|]. apply En. eapply nth_error_In; exact V.
Qed.
Theorem map_whole t kt et m : uses_marshaler t fl_root_val = false -> under t = TMap kt et -> kind_string kt = true -> ~ nest 1001 t fl_root_val (VMap m) ->
  (forall k x, In (k, x) m -> exists tx, marshal C (Some (et, x)) = EOk tx) -> exists b, marshal C (Some (t, VMap m)) = EOk b.
Proof.
  intros UM U Ks Nn H. apply fine_nest; [|exact Nn]. unfold marshal. set (n := vdepth (VMap m)). assert (En : forall k x, In (k, x) m -> (vdepth x < n)%nat).
  { intros k x I. unfold n. cbn [vdepth]. apply Nat.lt_succ_r. pose proof (BencFieldsProofs.fold_max_in (fun p => vdepth (snd p)) (k, x) m I) as H0. cbn [snd] in H0. exact H0. }
  clearbody n. destruct (uses_marshaler_false t fl_root_val UM) as (P1 & P2). cbn [encode]. rewrite P1, P2, U, Ks. cbn [negb].
  destruct (ptr_depth_limit <? 1)%nat; [right; unfold depth_err; eauto|]. apply ewrite_total, eseq_total; [|apply ok_e]. change (fl_noaddr fl_root_val) with fl_root_val.
  assert (P : forall k x, In (k, x) (sort_map m) -> fine (encode C n et fl_root_val 1 x)).
  { intros k x I. apply (Permutation_in _ (sort_by_perm fst m)) in I. destruct (H k x I) as (tx & M). eapply val_part; [exact M|eapply En; exact I]. }
  induction (sort_map m) as [|[k x] l IH]; [left; eexists; reflexivity|]. cbn [fold_right fst snd]. apply ewrite_total, eseq_total; [eapply P; now left|]. apply IH. intros k' x' I. eapply P. right. exact I.
Qed.
Theorem slice_whole t et l : uses_marshaler t fl_root_val = false -> under t = TSlice et -> kind_uint8 et = false -> legal et -> ~ nest 1001 t fl_root_val (VSlice l) ->
  (forall x, In x l -> exists tx, marshal C (Some (TPtr et, VPtr x)) = EOk tx) -> exists b, marshal C (Some (t, VSlice l)) = EOk b.
Proof.
  intros UM U K8 Lg Nn H. apply fine_nest; [|exact Nn]. unfold marshal. set (n := vdepth (VSlice l)). assert (En : forall x, In x l -> (vdepth x < n)%nat).
  { intros x I. unfold n. cbn [vdepth]. apply Nat.lt_succ_r. exact (BencFieldsProofs.fold_max_in vdepth x l I). }
  clearbody n. destruct (uses_marshaler_false t fl_root_val UM) as (P1 & P2). cbn [encode]. rewrite P1, P2, U, K8.
  destruct (ptr_depth_limit <? 1)%nat; [right; unfold depth_err; eauto|]. apply ewrite_total, eseq_total; [|apply ok_e]. change (fl_elem fl_root_val) with fl_new.
  apply fold_total. intros x I. destruct (H x I) as (tx & M). eapply ptr_part; [exact Lg|exact M|apply En; exact I].
Qed.
End Whole.
