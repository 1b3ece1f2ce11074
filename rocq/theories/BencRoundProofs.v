(** Marshalled values mean what they should, and survive a round trip. *)
From Verif Require Import GoBase Strconv BencTypes BencFields BencEncode BencDecode BencSpec BencEncSpec BencFieldSpec BencRoundSpec GoBaseProofs StrconvProofs BencSpecProofs
  BencConsumeProofs BencDecodeEqs BencDecodeProofs BencFieldsProofs BencResolveProofs BencFuelProofs BencEncodeProofs BencDepthProofs BencFrameProofs BencApiProofs.
From Coq Require Import Permutation.

(** *** Inverting the encoder *)
Lemma enc_dict_ok' {A} (key : A -> bytes) (f : A -> option eres) l out :
  fold_right (fun x k => match f x with None => k | Some r => ewrite (enc_str (key x)) (eseq r k) end) (EOk []) l = EOk out ->
  exists ts, Forall2 (fun x t => f x = Some (EOk t)) (filter (fun x => match f x with None => false | Some _ => true end) l) ts /\
    out = dtext (map enc_str (map key (filter (fun x => match f x with None => false | Some _ => true end) l))) ts.
Proof.
  revert out. induction l as [|x l IH]; intros out H; cbn [fold_right] in H.
  - injection H as <-. exists []. split; [constructor|reflexivity].
  - cbn [filter]. destruct (f x) as [r|] eqn:E; [|apply IH; exact H].
    apply ewrite_ok in H as (b & H & ->). apply eseq_ok in H as (b1 & b2 & -> & H & ->). apply IH in H as (ts & F & ->).
    exists (b1 :: ts). split; [constructor; auto|]. unfold dtext. cbn. rewrite <- !app_assoc. reflexivity.
Qed.

Section Round.
Variable C : customs.

Lemma enc_struct_ok n t fl l d out :
  fold_right (fun f k => match field_by_index (f_index f) t fl (VStruct l) with
                         | None => EErr [] d EIll
                         | Some (ft, ffl, fv) => if is_nil ft fv then k else if f_omit f && is_empty_value ft fv then k
                             else ewrite (enc_str (f_key f)) (eseq (encode C n ft ffl (S d) fv) k) end) (EOk []) (sorted_fields t) = EOk out ->
  exists ts, Forall2 (fun f tx => exists ft ffl x, field_by_index (f_index f) t fl (VStruct l) = Some (ft, ffl, x) /\ encode C n ft ffl (S d) x = EOk tx)
               (filter (emitted t fl (VStruct l)) (sorted_fields t)) ts /\
    out = dtext (map enc_str (map f_key (filter (emitted t fl (VStruct l)) (sorted_fields t)))) ts.
Proof.
  revert out. induction (sorted_fields t) as [|f s IH]; intros out H; cbn [fold_right] in H.
  - injection H as <-. exists []. split; [constructor|reflexivity].
  - cbn [filter]. assert (emitted t fl (VStruct l) f = match field_by_index (f_index f) t fl (VStruct l) with
      | Some (ft, _, x) => negb (is_nil ft x) && negb (f_omit f && is_empty_value ft x) | None => false end) as -> by reflexivity.
    destruct (field_by_index (f_index f) t fl (VStruct l)) as [[[ft ffl] x]|] eqn:E; [|discriminate].
    destruct (is_nil ft x); [apply IH; exact H|]. destruct (f_omit f && is_empty_value ft x); [apply IH; exact H|]. cbn [negb andb].
    apply ewrite_ok in H as (b & H & ->). apply eseq_ok in H as (b1 & b2 & E1 & H & ->). apply IH in H as (ts & F & ->).
    exists (b1 :: ts). split; [constructor; [eauto 8|auto]|]. unfold dtext. cbn. rewrite <- !app_assoc. reflexivity.
Qed.

Lemma filter_all {A} (P : A -> bool) l : (forall x, P x = true) -> filter P l = l.
Proof. intros H. induction l; cbn; [reflexivity|]. rewrite H. f_equal. assumption. Qed.

Lemma enc_map_ok n et fl d m out :
  fold_right (fun p k => ewrite (enc_str (fst p)) (eseq (encode C n et fl d (snd p)) k)) (EOk []) m = EOk out ->
  exists ts, Forall2 (fun p tx => encode C n et fl d (snd p) = EOk tx) m ts /\ out = dtext (map enc_str (map fst m)) ts.
Proof.
  intros H. apply (enc_dict_ok' fst (fun p => Some (encode C n et fl d (snd p)))) in H as (ts & F & ->).
  rewrite filter_all in * by reflexivity. exists ts. split; [|reflexivity]. eapply Forall2_impl; [|exact F]. intros x y [= E]. exact E.
Qed.

Lemma uses_marshaler_call n t fl d v out : uses_marshaler t fl = true -> encode C (S n) t fl d v = EOk out ->
  exists id, marsh_id t = Some id /\ c_marsh C id (marsh_recv t v) = Ok out.
Proof.
  intros UM. cbn [encode]. destruct t as [|w|w| | |et|k et|kt et|nm fs| | |t'|i ms u]; try discriminate; cbn [uses_marshaler] in UM.
  - destruct t'; try discriminate. cbn [is_ptr under negb andb impl]. destruct (m_marsh ms); [|discriminate].
    intros H. exists id. split; [reflexivity|]. destruct v; apply enc_marshaler_ok in H; exact H.
  - intros H. exists i. split; [reflexivity|].
    assert (marsh_recv (TNamed i ms u) v = Some v) as -> by reflexivity. cbn [ptr_impl impl] in H.
    destruct (m_marsh ms) as [[|]|]; [| |discriminate].
    + destruct (negb (is_ptr (TNamed i ms u)) && fl_addr fl); apply enc_marshaler_ok in H; exact H.
    + rewrite andb_comm in UM. rewrite UM in H. apply enc_marshaler_ok in H. exact H.
Qed.

(** *** C02 with meaning *)
Lemma Forall2_combine_dn {A} (R : A -> bval -> Prop) (key : A -> bytes) l ts :
  Forall2 (fun x t => exists bv, R x bv /\ bep3 bv t) l ts ->
  exists bm, map fst bm = map key l /\ Forall2 (fun x q => key x = fst q /\ R x (snd q)) l bm /\ Forall2 bep3 (map snd bm) ts.
Proof.
  induction 1 as [|x t l ts (bv & Hr & Hb) F (bm & E & F1 & F2)]; [exists []; repeat split; constructor|].
  exists ((key x, bv) :: bm). cbn. rewrite E. repeat split; constructor; auto.
Qed.
Lemma bep3_dict_intro' bm ts : ascending (map fst bm) -> Forall2 bep3 (map snd bm) ts ->
  bep3 (BDict bm) ("d"%byte :: dtext (map enc_str (map fst bm)) ts ++ ["e"%byte]).
Proof.
  intros A F. apply bep3_dict; [exact A| |exact F]. clear. induction (map fst bm); cbn; constructor; auto. apply enc_str_text.
Qed.

Lemma encode_denotes fuel : customs_canonical C -> forall t fl d v out,
  no_nil v \/ (v = VNil /\ is_nil t v = false) -> maps_distinct v ->
  encode C fuel t fl d v = EOk out -> exists bv, denotes C t fl v bv /\ bep3 bv out.
Proof.
  intros HC. induction fuel as [|n IH]; intros t fl d v out HN HD; [discriminate|].
  destruct (uses_marshaler t fl) eqn:UM.
  { intros H. apply uses_marshaler_call in H as (id & M & H); [|exact UM]. destruct (HC _ _ _ H) as (bv & B). exists bv. split; [|exact B].
    eapply dn_custom; eauto. }
  cbn [encode]. destruct (uses_marshaler_false t fl UM) as [-> ->].
  destruct (under t) as [|w|w| | |et|k et|kt et|nm fs| | |t'|i ms t'] eqn:U; destruct v; try discriminate;
    try (destruct HN as [[]|[_ HN]]; unfold is_nil in HN; rewrite U in HN; discriminate).
  - intros [= <-]. eexists. split; [apply dn_str; auto|apply enc_str_bep3].
  - intros [= <-]. eexists. split; [eapply dn_int; eauto|apply enc_int_bep3].
  - intros [= <-]. eexists. split; [eapply dn_uint; eauto|apply enc_int_bep3].
  - destruct (kind_uint8 et) eqn:K8; [|discriminate]. intros [= <-]. eexists. split; [eapply dn_bytes; eauto|apply enc_str_bep3].
  - destruct (kind_uint8 et) eqn:K8; [discriminate|]. destruct (ptr_depth_limit <? S d)%nat; [discriminate|]. intros H.
    apply ewrite_ok in H as (b & H & ->). apply eseq_ok in H as (b1 & b2 & H & [= <-] & ->).
    apply enc_list_ok in H as (ts & F & ->).
    destruct HN as [HN|[HN _]]; [|discriminate]. cbn in HN, HD. rewrite fold_and_Forall in HN, HD.
    assert (exists bvs, Forall2 (denotes C et (fl_elem fl)) l bvs /\ Forall2 bep3 bvs ts) as (bvs & Fd & Fb).
    { clear - F HN HD IH. induction F as [|x s l ts Hx F IHF]; [exists []; split; constructor|]. inversion HN; subst. inversion HD; subst.
      destruct IHF as (bvs & Hb1 & Hb2); auto. apply IH in Hx as (bv & Hbv1 & Hbv2); auto. exists (bv :: bvs). split; constructor; auto. }
    exists (BList bvs). split; [eapply dn_slice; eauto|]. change (["l"%byte] ++ concat ts ++ ["e"%byte]) with ("l"%byte :: concat ts ++ ["e"%byte]). constructor. exact Fb.
  - destruct (ptr_depth_limit <? S d)%nat; [discriminate|]. intros H.
    apply ewrite_ok in H as (b & H & ->). apply eseq_ok in H as (b1 & b2 & H & [= <-] & ->).
    apply enc_list_ok in H as (ts & F & ->).
    destruct HN as [HN|[HN _]]; [|discriminate]. cbn in HN, HD. rewrite fold_and_Forall in HN, HD.
    assert (exists bvs, Forall2 (denotes C et fl) l bvs /\ Forall2 bep3 bvs ts) as (bvs & Fd & Fb).
    { clear - F HN HD IH. induction F as [|x s l ts Hx F IHF]; [exists []; split; constructor|]. inversion HN; subst. inversion HD; subst.
      destruct IHF as (bvs & Hb1 & Hb2); auto. apply IH in Hx as (bv & Hbv1 & Hbv2); auto. exists (bv :: bvs). split; constructor; auto. }
    exists (BList bvs). split; [eapply dn_arr; eauto|]. change (["l"%byte] ++ concat ts ++ ["e"%byte]) with ("l"%byte :: concat ts ++ ["e"%byte]). constructor. exact Fb.
  - destruct (negb (kind_string kt)); [discriminate|]. destruct (ptr_depth_limit <? S d)%nat; [discriminate|]. intros H.
    apply ewrite_ok in H as (b & H & ->). apply eseq_ok in H as (b1 & b2 & H & [= <-] & ->).
    apply enc_map_ok in H as (ts & F & ->).
    destruct HN as [HN|[HN _]]; [|discriminate]. cbn in HN, HD. destruct HD as [ND HD].
    rewrite (fold_and_Forall (fun p => no_nil (snd p))) in HN. rewrite (fold_and_Forall (fun p => maps_distinct (snd p))) in HD.
    assert (forall p, In p (sort_map m) -> no_nil (snd p) /\ maps_distinct (snd p)) as HP.
    { intros p Hp. apply (Permutation_in _ (sort_by_perm fst m)) in Hp. rewrite Forall_forall in HN, HD. auto. }
    assert (Forall2 (fun p tx => exists bv, denotes C et (fl_noaddr fl) (snd p) bv /\ bep3 bv tx) (sort_map m) ts) as F'.
    { clear - F HP IH. induction F as [|x s l ts Hx F IHF]; constructor.
      - destruct (HP x (or_introl eq_refl)) as [N D]. apply IH in Hx; auto.
      - apply IHF. intros p Hp; apply HP; right; exact Hp. }
    apply (Forall2_combine_dn _ fst) in F' as (bm & E & F1 & F2).
    assert (ascending (map fst bm)) as AS by (rewrite E; apply sort_by_ascending; exact ND).
    exists (BDict bm). split.
    + eapply (dn_map C t fl kt et m (sort_map m)); [exact UM|exact U|apply Permutation_sym, sort_by_perm|exact AS|exact F1].
    + rewrite <- E. apply bep3_dict_intro'; auto.
  - destruct (ptr_depth_limit <? S d)%nat; [discriminate|]. intros H.
    apply ewrite_ok in H as (b & H & ->). apply eseq_ok in H as (b1 & b2 & H & [= <-] & ->).
    apply enc_struct_ok in H as (ts & F & ->).
    destruct HN as [HN|[HN _]]; [|discriminate].
    set (es := filter (emitted t fl (VStruct l)) (sorted_fields t)) in *.
    assert (Forall2 (fun f tx => exists bv, (exists ft ffl x, field_by_index (f_index f) t fl (VStruct l) = Some (ft, ffl, x) /\ denotes C ft ffl x bv) /\ bep3 bv tx) es ts) as F'.
    { assert (forall f, In f es -> emitted t fl (VStruct l) f = true) as EM by (intros f Hf; apply filter_In in Hf; tauto).
      clearbody es. clear - F EM HN HD IH. induction F as [|f s l' ts (ft & ffl & x & E & Hx) F IHF]; constructor.
      - pose proof (field_by_index_distinct _ _ _ _ _ _ _ HD E).
        pose proof (field_by_index_no_nil _ _ _ _ _ _ _ (or_intror HN) E) as HX.
        specialize (EM f (or_introl eq_refl)). unfold emitted in EM. rewrite E in EM. apply andb_prop in EM as [EM _].
        apply IH in Hx as (bv & Hb1 & Hb2); auto.
        + exists bv. split; [eauto 6|exact Hb2].
        + destruct HX as [->|HX]; auto. right. split; [reflexivity|]. destruct (is_nil ft VNil); [discriminate|reflexivity].
      - apply IHF. intros g Hg. apply EM. right. exact Hg. }
    apply (Forall2_combine_dn _ f_key) in F' as (bm & E & F1 & F2).
    assert (ascending (map fst bm)) as AS by (rewrite E; apply ascending_filter, sorted_fields_ascending).
    exists (BDict bm). split.
    + eapply dn_struct; eauto.
    + rewrite <- E. apply bep3_dict_intro'; auto.
  - destruct HN as [HN|[HN _]]; [|discriminate]. intros H. apply IH in H as (bv & ? & ?); auto. exists bv. split; [eapply dn_iface; eauto|auto].
  - destruct HN as [HN|[HN _]]; [|discriminate]. intros H. apply IH in H as (bv & ? & ?); auto. exists bv. split; [eapply dn_iface; eauto|auto].
  - destruct HN as [HN|[HN _]]; [|discriminate]. intros H. apply IH in H as (bv & ? & ?); auto. exists bv. split; [eapply dn_ptr; eauto|auto].
Qed.

Theorem marshal_denotes t v out : customs_canonical C -> no_nil v -> maps_distinct v ->
  marshal C (Some (t, v)) = EOk out -> exists bv, denotes C t fl_root_val v bv /\ bep3 bv out.
Proof. intros HC N D H. unfold marshal in H. eapply encode_denotes; eauto. Qed.
End Round.
