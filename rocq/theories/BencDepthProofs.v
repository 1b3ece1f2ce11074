(** The encoder's nesting limit, and re-encoding of decoded data. *)
From Verif Require Import GoBase GoBaseProofs Strconv StrconvProofs BencTypes BencFields BencEncode BencSpec BencEncSpec BencFieldSpec
  BencSpecProofs BencDecode BencFieldsProofs BencEncodeProofs BencDecodeProofs.
From Coq Require Import ZifyBool ZifyNat ZifyN Permutation.

Section Depth.
Variable C : customs.

Lemma limit_ok d : (ptr_depth_limit <? S d)%nat = false -> (d < 1000)%nat.
Proof. rewrite Nat.ltb_ge. unfold ptr_depth_limit. lia. Qed.
Lemma limit_hit d : (ptr_depth_limit <? S d)%nat = true -> (1000 <= d)%nat.
Proof. rewrite Nat.ltb_lt. unfold ptr_depth_limit. lia. Qed.

Lemma enc_list_in {A} (f : A -> eres) l out x : fold_right (fun x k => eseq (f x) k) (EOk []) l = EOk out -> In x l -> exists o, f x = EOk o.
Proof.
  intros H. apply enc_list_ok in H as (ts & F & _). intros Hx. induction F as [|y t l ts E F IH]; [destruct Hx|].
  destruct Hx as [->|Hx]; eauto.
Qed.

Lemma encode_ok_nest fuel : forall t fl d v out n, encode C fuel t fl d v = EOk out -> (d <= 1000)%nat -> nest n t fl v -> (d + n <= 1000)%nat.
Proof.
  induction fuel as [|m IH]; intros t fl d v out n H Hd Hn; [discriminate|].
  destruct (uses_marshaler t fl) eqn:UM.
  { inversion Hn; subst; try congruence. lia. }
  cbn [encode] in H. destruct (uses_marshaler_false t fl UM) as [-> ->] in H.
  inversion Hn as [? ? ?|n' ? ? et l ? U KU Hx|n' ? ? k et l ? U Hx|n' ? ? kt et mm ? U KS Hx|n' ? ? nm fs l ? U Hx|n' ? ? dt x ? U Hx|n' ? ? t' x ? U Hx]; subst.
  - lia.
  - rewrite U, KU in H. destruct (_ <? _)%nat eqn:L; [discriminate|]. apply limit_ok in L.
    destruct Hx as [->|(x & Hx & Hnx)]; [lia|]. apply ewrite_ok in H as (b & H & _). apply eseq_ok in H as (b1 & b2 & H & _).
    destruct (enc_list_in _ _ _ _ H Hx) as (o & E). pose proof (IH _ _ _ _ _ _ E ltac:(lia) Hnx). lia.
  - rewrite U in H. destruct (_ <? _)%nat eqn:L; [discriminate|]. apply limit_ok in L.
    destruct Hx as [->|(x & Hx & Hnx)]; [lia|]. apply ewrite_ok in H as (b & H & _). apply eseq_ok in H as (b1 & b2 & H & _).
    destruct (enc_list_in _ _ _ _ H Hx) as (o & E). pose proof (IH _ _ _ _ _ _ E ltac:(lia) Hnx). lia.
  - rewrite U, KS in H. cbn [negb] in H. destruct (_ <? _)%nat eqn:L; [discriminate|]. apply limit_ok in L.
    destruct Hx as [->|(k & x & Hx & Hnx)]; [lia|]. apply ewrite_ok in H as (b & H & _). apply eseq_ok in H as (b1 & b2 & H & _).
    assert (In (k, x) (sort_map mm)) as Hin by (eapply Permutation_in; [symmetry; apply sort_by_perm|exact Hx]).
    assert (exists o, encode C m et (fl_noaddr fl) (S d) x = EOk o) as (o & E).
    { revert b1 H Hin. clear. induction (sort_map mm) as [|p s IHs]; intros b1 H Hin; [destruct Hin|]. cbn [fold_right] in H.
      apply ewrite_ok in H as (b & H & _). apply eseq_ok in H as (c1 & c2 & H1 & H2 & _).
      destruct Hin as [->|Hin]; [eauto|]. eapply IHs; eauto. }
    pose proof (IH _ _ _ _ _ _ E ltac:(lia) Hnx). lia.
  - rewrite U in H. destruct (_ <? _)%nat eqn:L; [discriminate|]. apply limit_ok in L.
    destruct Hx as [->|(f & ft & ffl & x & Hf & Hp & N1 & N2 & Hnx)]; [lia|]. apply ewrite_ok in H as (b & H & _). apply eseq_ok in H as (b1 & b2 & H & _).
    assert (exists o, encode C m ft ffl (S d) x = EOk o) as (o & E).
    { revert b1 H Hf. generalize (sorted_fields t). intros s. induction s as [|g s IHs]; intros b1 H Hin; [destruct Hin|]. cbn [fold_right] in H.
      destruct Hin as [->|Hin].
      - rewrite Hp, N1, N2 in H. apply ewrite_ok in H as (b' & H & _). apply eseq_ok in H as (c1 & c2 & H1 & H2 & _). eauto.
      - destruct (field_by_index (f_index g) t fl (VStruct l)) as [[[gt gf] gv]|]; [|discriminate].
        destruct (is_nil gt gv); [eapply IHs; eauto|]. destruct (f_omit g && is_empty_value gt gv); [eapply IHs; eauto|].
        apply ewrite_ok in H as (b' & H & _). apply eseq_ok in H as (c1 & c2 & H1 & H2 & _). eapply IHs; eauto. }
    pose proof (IH _ _ _ _ _ _ E ltac:(lia) Hnx). lia.
  - destruct U as [U|U]; rewrite U in H; eapply IH; eauto.
  - rewrite U in H. eapply IH; eauto.
Qed.

Definition depth_err (r : eres) : Prop := exists b d, r = EErr b d EDepth.
Lemma ewrite_depth b r : depth_err (ewrite b r) -> depth_err r.
Proof. intros (b' & d & H). destruct r; cbn in H; try discriminate. injection H as _ -> ->. eexists; eexists; reflexivity. Qed.
Lemma eseq_depth r1 r2 : depth_err (eseq r1 r2) -> depth_err r1 \/ depth_err r2.
Proof. destruct r1; cbn; intros H; [right; apply ewrite_depth in H; exact H|left; exact H|left; exact H|left; exact H]. Qed.
Lemma enc_list_depth {A} (f : A -> eres) l : depth_err (fold_right (fun x k => eseq (f x) k) (EOk []) l) -> exists x, In x l /\ depth_err (f x).
Proof.
  induction l as [|x l IH]; cbn; intros H; [destruct H as (? & ? & ?); discriminate|].
  apply eseq_depth in H as [H|H]; [exists x; auto|]. destruct (IH H) as (y & ? & ?). exists y. auto.
Qed.
Lemma not_depth_ok b : ~ depth_err (EOk b).
Proof. intros (? & ? & ?). discriminate. Qed.
Lemma enc_marshaler_depth id r fl d : ~ depth_err (enc_marshaler C id r fl d).
Proof. unfold enc_marshaler. intros (b & d' & H). destruct (fl_ro fl); [discriminate|]. destruct (c_marsh C id r); discriminate. Qed.

Lemma encode_depth_nest fuel : forall t fl d v, depth_err (encode C fuel t fl d v) -> (d <= 1000)%nat -> nest (1001 - d) t fl v.
Proof.
  induction fuel as [|m IH]; intros t fl d v H Hd; [destruct H as (? & ? & ?); discriminate|].
  cbn [encode] in H.
  destruct (uses_marshaler t fl) eqn:UM.
  { exfalso. destruct (uses_marshaler_true t fl UM) as [E|E].
    - destruct (if negb (is_ptr t) && fl_addr fl then ptr_impl m_marsh t else None) as [id|]; [|congruence]. eapply enc_marshaler_depth; eauto.
    - destruct (if negb (is_ptr t) && fl_addr fl then ptr_impl m_marsh t else None) as [id|]; [eapply enc_marshaler_depth; eauto|].
      destruct (impl m_marsh t) as [id|]; [|congruence].
      destruct t; try (eapply enc_marshaler_depth; exact H). destruct v; eapply enc_marshaler_depth; exact H. }
  destruct (uses_marshaler_false t fl UM) as [E1 E2]. rewrite E1, E2 in H. clear E1 E2.
  destruct (under t) as [|w|w| | |et|k et|kt et|nm fs| | |t'|i ms t'] eqn:U; destruct v; try (destruct H as (? & ? & ?); discriminate).
  - destruct (kind_uint8 et); destruct H as (? & ? & ?); discriminate.
  - destruct (kind_uint8 et); destruct H as (? & ? & ?); discriminate.
  - destruct (kind_uint8 et) eqn:KU; [destruct H as (? & ? & ?); discriminate|]. destruct (_ <? _)%nat eqn:L.
    + apply limit_hit in L. replace (1001 - d)%nat with 1%nat by lia. eapply nest_slice; eauto.
    + apply limit_ok in L. apply ewrite_depth, eseq_depth in H as [H|H]; [|destruct (not_depth_ok _ H)].
      apply enc_list_depth in H as (x & Hx & H). apply IH in H; [|lia]. replace (1001 - d)%nat with (S (1001 - S d)) by lia.
      eapply nest_slice; eauto.
  - destruct (_ <? _)%nat eqn:L.
    + apply limit_hit in L. replace (1001 - d)%nat with 1%nat by lia. eapply nest_arr; eauto.
    + apply limit_ok in L. apply ewrite_depth, eseq_depth in H as [H|H]; [|destruct (not_depth_ok _ H)].
      apply enc_list_depth in H as (x & Hx & H). apply IH in H; [|lia]. replace (1001 - d)%nat with (S (1001 - S d)) by lia.
      eapply nest_arr; eauto.
  - destruct (kind_string kt) eqn:KS; cbn [negb] in H; [|destruct H as (? & ? & ?); discriminate]. destruct (_ <? _)%nat eqn:L.
    + apply limit_hit in L. replace (1001 - d)%nat with 1%nat by lia. eapply nest_map; eauto.
    + apply limit_ok in L. apply ewrite_depth, eseq_depth in H as [H|H]; [|destruct (not_depth_ok _ H)].
      assert (exists p, In p (sort_map m0) /\ depth_err (encode C m et (fl_noaddr fl) (S d) (snd p))) as ([k x] & Hp & HE).
      { clear - H. induction (sort_map m0) as [|p s IHs]; cbn [fold_right] in H; [destruct (not_depth_ok _ H)|].
        apply ewrite_depth, eseq_depth in H as [H|H]; [exists p; split; [left; reflexivity|exact H]|].
        destruct (IHs H) as (q & ? & ?). exists q. split; [right; assumption|assumption]. }
      apply (Permutation_in _ (sort_by_perm fst m0)) in Hp. cbn in HE. apply IH in HE; [|lia].
      replace (1001 - d)%nat with (S (1001 - S d)) by lia. eapply nest_map; eauto.
  - destruct (_ <? _)%nat eqn:L.
    + apply limit_hit in L. replace (1001 - d)%nat with 1%nat by lia. eapply nest_struct; eauto.
    + apply limit_ok in L. apply ewrite_depth, eseq_depth in H as [H|H]; [|destruct (not_depth_ok _ H)].
      replace (1001 - d)%nat with (S (1001 - S d)) by lia. eapply nest_struct; eauto. right.
      revert H. generalize (sorted_fields t). intros s. induction s as [|f s IHs]; cbn [fold_right]; intros H; [destruct (not_depth_ok _ H)|].
      destruct (field_by_index (f_index f) t fl (VStruct l)) as [[[ft ffl] x]|] eqn:Hp; [|destruct H as (? & ? & ?); discriminate].
      assert (forall (X : Prop), depth_err (fold_right
           (fun (f0 : finfo) (k : eres) => match field_by_index (f_index f0) t fl (VStruct l) with
            | Some (ft0, ffl0, fv) => if is_nil ft0 fv then k else if f_omit f0 && is_empty_value ft0 fv then k
                else ewrite (enc_str (f_key f0)) (eseq (encode C m ft0 ffl0 (S d) fv) k)
            | None => EErr [] d EIll end) (EOk []) s) -> exists f0 ft ffl x, In f0 (f :: s) /\ field_by_index (f_index f0) t fl (VStruct l) = Some (ft, ffl, x) /\
            is_nil ft x = false /\ f_omit f0 && is_empty_value ft x = false /\ nest (1001 - S d) ft ffl x) as Rest.
      { intros _ H'. destruct (IHs H') as (f0 & ft0 & ffl0 & x0 & ? & ? & ? & ? & ?). exists f0, ft0, ffl0, x0. cbn. auto 10. }
      destruct (is_nil ft x) eqn:N1; [apply (Rest True); exact H|]. destruct (f_omit f && is_empty_value ft x) eqn:N2; [apply (Rest True); exact H|].
      apply ewrite_depth, eseq_depth in H as [H|H]; [|apply (Rest True); exact H].
      apply IH in H; [|lia]. exists f, ft, ffl, x. cbn. auto 10.
  - eapply nest_iface; eauto.
  - eapply nest_iface; eauto.
  - eapply nest_ptr; eauto.
Qed.

(** *** Re-encoding decoded data *)
Lemma Forall2_map_l {A B D} (g : A -> D) (R : D -> B -> Prop) l lb : Forall2 R (map g l) lb <-> Forall2 (fun x y => R (g x) y) l lb.
Proof.
  split.
  - revert lb; induction l as [|x l IH]; intros lb H; inversion H; subst; constructor; auto.
  - induction 1; cbn; constructor; auto.
Qed.

Lemma encode_any_of bv : forall t, bep3 bv t -> forall fuel fl d, (vdepth (any_of bv) < fuel)%nat -> (d + bdepth bv <= 1000)%nat ->
  encode C fuel TAny fl d (any_of bv) = EOk t.
Proof.
  induction bv as [z|s|l IH|m IH] using bval_ind'; intros t B fuel fl d HF HB;
    (destruct fuel as [|fuel]; [lia|]); (destruct fuel as [|fuel]; [cbn [any_of vdepth] in HF; lia|]).
  - inversion B; subst. rewrite (dec_text_enc z n H0).
    cbn [any_of encode is_ptr under negb andb ptr_impl impl fl_addr fl_noaddr]. destruct (fl_addr fl); reflexivity.
  - inversion B; subst. rewrite (str_text_enc s t H0).
    cbn [any_of encode is_ptr under negb andb ptr_impl impl fl_addr fl_noaddr]. destruct (fl_addr fl); reflexivity.
  - inversion B as [| |? ts F|]; subst.
    cbn [any_of]. cbn [encode is_ptr under negb andb ptr_impl impl fl_addr fl_noaddr any_slice kind_uint8].
    assert (ptr_depth_limit <? S d = false)%nat as -> by (rewrite Nat.ltb_ge; unfold ptr_depth_limit; cbn [bdepth] in HB; lia).
    rewrite (enc_list_ok' _ (map any_of l) ts).
    { destruct (fl_addr fl); reflexivity. }
    apply Forall2_map_l. cbn [bdepth] in HB. cbn [any_of vdepth] in HF.
    pose proof (fold_max_in bdepth) as M1. pose proof (fold_max_in vdepth) as M2.
    assert (forall x, In x l -> (S d + bdepth x <= 1000)%nat /\ (vdepth (any_of x) < fuel)%nat) as HX.
    { intros x Hx. specialize (M1 _ _ Hx). specialize (M2 _ _ (in_map any_of _ _ Hx)). lia. }
    clear - F IH HX. induction F as [|x s l ts E F IHF]; constructor.
    + inversion IH; subst. destruct (HX x (or_introl eq_refl)). apply H1; auto.
    + inversion IH; subst. apply IHF; auto. intros y Hy. apply HX. right. exact Hy.
  - inversion B as [| | |? ks ts A K F]; subst.
    cbn [any_of]. cbn [encode is_ptr under negb andb ptr_impl impl fl_addr fl_noaddr any_map kind_string].
    assert (ptr_depth_limit <? S d = false)%nat as -> by (rewrite Nat.ltb_ge; unfold ptr_depth_limit; cbn [bdepth] in HB; lia).
    unfold sort_map. rewrite sort_by_ascending_id by (rewrite map_map; exact A).
    cbn [bdepth] in HB. cbn [any_of vdepth] in HF.
    pose proof (fold_max_in (fun p : bytes * bval => bdepth (snd p))) as M1. pose proof (fold_max_in (fun p : bytes * gval => vdepth (snd p))) as M2.
    assert (forall x, In x m -> (S d + bdepth (snd x) <= 1000)%nat /\ (vdepth (any_of (snd x)) < fuel)%nat) as HX.
    { intros x Hx. specialize (M1 _ _ Hx). specialize (M2 _ _ (in_map (fun p => (fst p, any_of (snd p))) _ _ Hx)). cbn [snd] in M2. lia. }
    match goal with |- context [fold_right ?f (EOk []) ?l] => assert (fold_right f (EOk []) l = EOk (concat (map (fun kt => fst kt ++ snd kt) (combine ks ts)))) as E end.
    { clear - K F IH HX. pose proof (proj1 (Forall2_map_l fst _ _ _) K) as K'. pose proof (proj1 (Forall2_map_l snd _ _ _) F) as F'. clear K F. rename K' into K. rename F' into F. revert ts F. induction K as [|p k m ks Ek K IHK]; intros ts F; inversion F as [|? s ? ts' Es F2]; subst; [reflexivity|].
      cbn [map fold_right fst snd combine concat]. inversion IH as [|? ? IH1 IH2]; subst. rewrite (IHK IH2) with (ts := ts'); auto; [|intros y Hy; apply HX; right; exact Hy].
      destruct (HX p (or_introl eq_refl)) as [D1 D2]. rewrite (IH1 _ Es); auto. cbn [eseq ewrite]. rewrite <- app_assoc.
      rewrite (str_text_enc _ _ Ek). reflexivity. }
    rewrite E. destruct (fl_addr fl); reflexivity.
Qed.
End Depth.
