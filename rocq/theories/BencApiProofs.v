(** Proofs of the statements about Marshal and Unmarshal as the user sees them. *)
From Verif Require Import GoBase Strconv BencTypes BencFields BencEncode BencDecode BencSpec BencEncSpec BencFieldSpec GoBaseProofs StrconvProofs BencSpecProofs
  BencConsumeProofs BencDecodeEqs BencDecodeProofs BencFieldsProofs BencResolveProofs BencFuelProofs BencEncodeProofs BencDepthProofs BencFrameProofs.
From Coq Require Import Permutation.

Lemma digits_val_nonneg s : forallb is_digit s = true -> 0 <= digits_val s.
Proof.
  unfold digits_val. intros D. assert (forall a, 0 <= a -> 0 <= fold_left (fun a c => 10 * a + (b2z c - 48)) s a) as K; [|apply K; lia].
  induction s as [|c s IH]; intros a Ha; cbn [fold_left]; [exact Ha|]. cbn [forallb] in D. apply andb_prop in D as [D1 D2].
  apply IH; [exact D2|]. unfold is_digit in D1. lia.
Qed.

Section Api.
Variable C : customs.

Lemma fold_eseq_eq {A} (f g : A -> eres) z l : (forall x, In x l -> f x = g x) ->
  fold_right (fun x k => eseq (f x) k) z l = fold_right (fun x k => eseq (g x) k) z l.
Proof. induction l as [|x l IH]; cbn; intros H; [reflexivity|]. rewrite (H x), IH by auto. reflexivity. Qed.

Lemma encode_fuel_eq n : forall m t fl d v, (vdepth v < n)%nat -> (vdepth v < m)%nat -> encode C n t fl d v = encode C m t fl d v.
Proof.
  induction n as [|n IH]; intros m t fl d v Hn Hm; [lia|]. destruct m as [|m]; [lia|]. cbn [encode].
  destruct (if negb (is_ptr t) && fl_addr fl then ptr_impl m_marsh t else None) as [id|]; [reflexivity|].
  destruct (impl m_marsh t) as [id|]; [reflexivity|].
  destruct (under t) as [|w|w| | |et|k et|kt et|nm fs| | |t'|i ms t'] eqn:U; destruct v; try reflexivity.
  - destruct (kind_uint8 et); [reflexivity|]. destruct (_ <? _)%nat; [reflexivity|]. do 2 f_equal.
    apply fold_eseq_eq. intros x Hx. pose proof (fold_max_in vdepth x l Hx). cbn [vdepth] in Hn, Hm. apply IH; lia.
  - destruct (_ <? _)%nat; [reflexivity|]. do 2 f_equal.
    apply fold_eseq_eq. intros x Hx. pose proof (fold_max_in vdepth x l Hx). cbn [vdepth] in Hn, Hm. apply IH; lia.
  - destruct (negb (kind_string kt)); [reflexivity|]. destruct (_ <? _)%nat; [reflexivity|]. do 2 f_equal.
    assert (forall p, In p (sort_map m0) -> (vdepth (snd p) < n /\ vdepth (snd p) < m)%nat) as HP.
    { intros p Hp. apply (Permutation_in _ (sort_by_perm fst m0)) in Hp. pose proof (fold_max_in (fun p : bytes * gval => vdepth (snd p)) p m0 Hp). cbn [vdepth] in Hn, Hm. cbn beta in *. lia. }
    induction (sort_map m0) as [|p s IHs]; cbn [fold_right]; [reflexivity|]. rewrite IHs by (intros q Hq; apply HP; right; exact Hq).
    destruct (HP p (or_introl eq_refl)). rewrite (IH m) by lia. reflexivity.
  - destruct (_ <? _)%nat; [reflexivity|]. do 2 f_equal.
    pose proof (finfo_index_nonnil t) as HF.
    induction (sorted_fields t) as [|f s IHs]; cbn [fold_right]; [reflexivity|].
    rewrite IHs by (intros g Hg; apply HF; right; exact Hg).
    destruct (field_by_index (f_index f) t fl (VStruct l)) as [[[ft ffl] fv]|] eqn:E; [|reflexivity].
    destruct (is_nil ft fv); [reflexivity|]. destruct (_ && _); [reflexivity|].
    apply field_by_index_depth in E as [_ E]. specialize (E (HF f (or_introl eq_refl)) l eq_refl).
    assert (is_nil t (VStruct l) = false) by (unfold is_nil; rewrite U; reflexivity). specialize (E H). rewrite (IH m) by lia. reflexivity.
  - cbn [vdepth] in Hn, Hm. apply IH; lia.
  - cbn [vdepth] in Hn, Hm. apply IH; lia.
  - cbn [vdepth] in Hn, Hm. apply IH; lia.
Qed.

Lemma encode_grow n : forall m t fl d v out, (n <= m)%nat -> encode C n t fl d v = EOk out -> encode C m t fl d v = EOk out.
Proof.
  induction n as [|n IH]; intros m t fl d v out Hm; [discriminate|]. destruct m as [|m]; [lia|]. cbn [encode].
  destruct (if negb (is_ptr t) && fl_addr fl then ptr_impl m_marsh t else None) as [id|]; [auto|].
  destruct (impl m_marsh t) as [id|]; [auto|].
  destruct (under t) as [|w|w| | |et|k et|kt et|nm fs| | |t'|i ms t'] eqn:U; destruct v; auto.
  - destruct (kind_uint8 et); [auto|]. destruct (_ <? _)%nat; [auto|]. rewrite !ewrite_ok. intros (b & H & ->). exists b. split; [|reflexivity].
    apply eseq_ok in H as (b1 & b2 & H & H2 & ->). apply eseq_ok. exists b1, b2. split; [|auto]. apply enc_list_ok in H as (ts & F & ->).
    apply enc_list_ok'. eapply Forall2_impl; [|exact F]. cbn beta. intros x y Hx. apply IH; [lia|exact Hx].
  - destruct (_ <? _)%nat; [auto|]. rewrite !ewrite_ok. intros (b & H & ->). exists b. split; [|reflexivity].
    apply eseq_ok in H as (b1 & b2 & H & H2 & ->). apply eseq_ok. exists b1, b2. split; [|auto]. apply enc_list_ok in H as (ts & F & ->).
    apply enc_list_ok'. eapply Forall2_impl; [|exact F]. cbn beta. intros x y Hx. apply IH; [lia|exact Hx].
  - destruct (negb (kind_string kt)); [auto|]. destruct (_ <? _)%nat; [auto|]. rewrite !ewrite_ok. intros (b & H & ->). exists b. split; [|reflexivity].
    apply eseq_ok in H as (b1 & b2 & H & H2 & ->). apply eseq_ok. exists b1, b2. split; [|auto]. clear H2.
    revert b1 H. induction (sort_map m0) as [|p s IHs]; cbn [fold_right]; intros b1 H; [exact H|].
    apply ewrite_ok in H as (c & H & ->). apply ewrite_ok. exists c. split; [|reflexivity].
    apply eseq_ok in H as (c1 & c2 & H & H3 & ->). apply eseq_ok. exists c1, c2. split; [apply IH; [lia|exact H]|]. split; [|reflexivity]. apply IHs, H3.
  - destruct (_ <? _)%nat; [auto|]. rewrite !ewrite_ok. intros (b & H & ->). exists b. split; [|reflexivity].
    apply eseq_ok in H as (b1 & b2 & H & H2 & ->). apply eseq_ok. exists b1, b2. split; [|auto]. clear H2.
    revert b1 H. induction (sorted_fields t) as [|f s IHs]; cbn [fold_right]; intros b1 H; [exact H|].
    destruct (field_by_index (f_index f) t fl (VStruct l)) as [[[ft ffl] fv]|] eqn:E; [|exact H].
    destruct (is_nil ft fv); [auto|]. destruct (_ && _); [auto|].
    apply ewrite_ok in H as (c & H & ->). apply ewrite_ok. exists c. split; [|reflexivity].
    apply eseq_ok in H as (c1 & c2 & H & H3 & ->). apply eseq_ok. exists c1, c2. split; [apply IH; [lia|exact H]|]. split; [|reflexivity]. apply IHs, H3.
  - apply IH. lia.
  - apply IH. lia.
  - apply IH. lia.
Qed.

Lemma marshal_eq n t v r : encode C n t fl_root_val O v = r -> (vdepth v < n)%nat -> marshal C (Some (t, v)) = r.
Proof. intros <- H. cbn [marshal]. apply encode_fuel_eq; lia. Qed.

Lemma unmarshal_run t old inp r : unmarshal C t old inp = r -> exists n, decode C n (TPtr t) fl_root_val (VPtr old) inp 0 = r.
Proof. unfold unmarshal. intros H. eexists. exact H. Qed.

(** *** Successful runs, independent of fuel *)
Lemma unmarshal_ok_frame t old inp v rest off :
  unmarshal C t old inp = DOk v rest off ->
  exists out, inp = out ++ rest /\ off = zlen out /\ (exists bv, lax_typed bv out) /\
    forall rest' off', exists n, decode C n (TPtr t) fl_root_val (VPtr old) (out ++ rest') off' = DOk v rest' (off' + zlen out).
Proof.
  intros H. apply unmarshal_run in H as (n0 & H). pose proof (decode_sound _ _ _ _ _ _ _ _ _ _ H) as (bv & out & L & E & O).
  pose proof (decode_frame _ _ _ _ _ _ _ _ _ _ H) as (out' & E' & F).
  assert (out' = out) as ->. { rewrite E in E'. apply app_inv_tail in E'. auto. }
  exists out. split; [exact E|]. split; [lia|]. split; [eauto|]. intros rest' off'. eexists.
  specialize (F rest'). apply decode_off with (d := off') in F. rewrite Z.add_0_l in F. rewrite F. f_equal. lia.
Qed.

Lemma decode_ptr_form n t fl x inp off v rest off' : decode C n (TPtr t) fl (VPtr x) inp off = DOk v rest off' -> exists y, v = VPtr y.
Proof.
  destruct n as [|n]; [discriminate|]. rewrite decode_S. cbn [is_ptr under negb andb].
  destruct (impl m_unmarsh (TPtr t)) as [id|].
  - unfold dec_unmarshaler. destruct (fl_ro fl); [discriminate|]. destruct (consume n inp off); try discriminate.
    destruct (c_unmarsh C id (Some x) out); try discriminate. intros [= <- <- <-]. eauto.
  - intros H. apply dmap_ok in H as (y & _ & ->). eauto.
Qed.

Theorem unmarshal_offset t old inp v rest off :
  unmarshal C t old inp = DOk v rest off ->
  exists out, inp = out ++ rest /\ off = zlen out /\ forall rest', unmarshal C t old (out ++ rest') = DOk v rest' off.
Proof.
  intros H. destruct (unmarshal_ok_frame _ _ _ _ _ _ H) as (out & E & O & _ & F). exists out. repeat split; auto.
  intros rest'. destruct (F rest' 0) as (n & Hn). rewrite O. change (zlen out) with (0 + zlen out). eapply unmarshal_eq; [exact Hn|discriminate].
Qed.

(** *** C13 *)
Theorem stream_concat items : forall rest off,
  Forall (fun x : (gty * gval) * bytes * gval =>
            let '(t, old, b, v) := x in unmarshal C t old b = DOk (VPtr v) [] (zlen b)) items ->
  decode_stream C (map (fun x => fst (fst x)) items) (concat (map (fun x => snd (fst x)) items) ++ rest) off
  = Some (map snd items, rest, off + zlen (concat (map (fun x => snd (fst x)) items))).
Proof.
  induction items as [|[[[t old] b] v] items IH]; intros rest off F; cbn [map concat fst snd decode_stream].
  - rewrite zlen_nil, Z.add_0_r. reflexivity.
  - inversion F as [|? ? H F']; subst. destruct (unmarshal_ok_frame _ _ _ _ _ _ H) as (out & E & O & _ & Fr).
    rewrite app_nil_r in E. subst out. rewrite <- app_assoc.
    destruct (Fr (concat (map (fun x => snd (fst x)) items) ++ rest) off) as (n & Hn).
    assert (forall m, decode C m (TPtr t) fl_root_val (VPtr old) (b ++ concat (map (fun x => snd (fst x)) items) ++ rest) off <> DFuel ->
       decode C m (TPtr t) fl_root_val (VPtr old) (b ++ concat (map (fun x => snd (fst x)) items) ++ rest) off
         = DOk (VPtr v) (concat (map (fun x => snd (fst x)) items) ++ rest) (off + zlen b)) as K.
    { intros m Hm. destruct (Nat.le_ge_cases n m) as [L|L].
      - eapply decode_mono; [exact L|exact Hn|discriminate].
      - eapply decode_mono in Hm; [|exact L|reflexivity]. congruence. }
    rewrite K by (apply dec_fuel_enough; lia). rewrite IH by exact F'. rewrite zlen_app, Z.add_assoc. reflexivity.
Qed.

(** *** C04 *)
Theorem canonical_any bv b :
  bep3 bv b -> b_all (fun z => - 2 ^ 63 <= z < 2 ^ 63) (fun k => k <> []) bv -> b_small bv -> (bdepth bv <= 1000)%nat ->
  exists dt dv, unmarshal C TAny VNil b = DOk (VPtr (VIface dt dv)) [] (zlen b) /\ marshal C (Some (dt, dv)) = EOk b.
Proof.
  intros B A S D.
  assert (b_all (fun z => is_int64 z = true) (fun k => k <> []) bv) as A'.
  { clear - A. induction bv as [z|s|l IH|m IH] using bval_ind'; cbn in *; auto.
    - unfold is_int64, min_int64, max_int64. lia.
    - rewrite fold_and_Forall in *. rewrite Forall_forall in *. auto.
    - induction IH; cbn in *; auto. destruct A as (? & ? & ?). auto. }
  pose proof (bep3_lax bv b B A' S) as L.
  assert (unmarshal C TAny VNil b = DOk (VPtr (any_of bv)) [] (zlen b)) as U.
  { eapply (unmarshal_eq _ (Datatypes.S (4 * List.length b + 2))); [|discriminate]. rewrite decode_S. cbn [is_ptr under negb andb impl].
    rewrite <- (app_nil_r b) at 2. rewrite (decode_any_complete C bv b L) by (cbn; auto; lia). reflexivity. }
  assert (exists dt dv, any_of bv = VIface dt dv) as (dt & dv & E) by (destruct bv; cbn; eauto).
  rewrite E in U. exists dt, dv. split; [exact U|].
  pose proof (encode_any_of C bv b B (Datatypes.S (Datatypes.S (vdepth (any_of bv)))) fl_root_val O ltac:(lia) ltac:(lia)) as K.
  rewrite E in K.
  assert (forall n, encode C (Datatypes.S n) TAny fl_root_val O (VIface dt dv) = encode C n dt fl_root_val O dv) as Q by reflexivity.
  rewrite Q in K. clear Q.
  eapply marshal_eq; [exact K|]. cbn [vdepth]. lia.
Qed.

(** *** C05 *)
Theorem custom_exact id ms u old out bv rest n fl off :
  m_unmarsh ms <> None -> is_ptr u = false -> settable fl = true -> lax bv out -> (2 * List.length out + 2 <= n)%nat ->
  decode C n (TNamed id ms u) fl old (out ++ rest) off =
    match c_unmarsh C id (Some old) out with
    | UOk v => DOk v rest (off + zlen out)
    | UErr v => DErr v DUser
    | UPanic => DPanic
    end.
Proof.
  intros M P Sf L Hn. destruct n as [|n]; [lia|]. rewrite decode_S. unfold settable in Sf. apply andb_prop in Sf as [Sa Sr].
  assert (is_ptr (TNamed id ms u) = false) as ->. { unfold is_ptr in *. cbn [under]. destruct u; auto. }
  rewrite Sa. cbn [negb andb ptr_impl]. destruct (m_unmarsh ms); [|congruence]. unfold dec_unmarshaler.
  destruct (fl_ro fl); [discriminate|]. rewrite (consume_complete bv out L n rest off) by lia. reflexivity.
Qed.
Theorem custom_only id ms u old inp n fl off v rest off' :
  m_unmarsh ms <> None -> is_ptr u = false -> fl_addr fl = true ->
  decode C n (TNamed id ms u) fl old inp off = DOk v rest off' ->
  exists out, inp = out ++ rest /\ off' = off + zlen out /\ (exists bv, lax bv out) /\ c_unmarsh C id (Some old) out = UOk v.
Proof.
  intros M P Sa H. destruct n as [|n]; [discriminate|]. rewrite decode_S in H.
  assert (is_ptr (TNamed id ms u) = false) as E. { unfold is_ptr in *. cbn [under]. destruct u; auto. }
  rewrite E, Sa in H. cbn [negb andb ptr_impl] in H. destruct (m_unmarsh ms); [|congruence]. unfold dec_unmarshaler in H.
  destruct (fl_ro fl); [discriminate|]. destruct (consume n inp off) as [out r0 o0| | |] eqn:R; try discriminate.
  destruct (c_unmarsh C id (Some old) out) eqn:CU; try discriminate. injection H as <- <- <-.
  apply consume_sound in R as (E1 & E2 & L). exists out. auto.
Qed.

(** *** C06 *)
Theorem skip_iff_decode inp rest off off' :
  (exists n out, consume n inp off = COk out rest off') <->
  (exists n v, decode C n TAny fl_new VNil inp off = DOk v rest off').
Proof.
  split.
  - intros (n & out & H). apply consume_sound in H as (-> & -> & v & L). eexists. exists (any_of v).
    apply decode_any_complete; [exact L|reflexivity|apply le_n].
  - intros (n & v & H). apply (decode_any_sound_mut C n) in H as (_ & bv & out & L & _ & -> & ->). eexists. exists out.
    apply (consume_complete bv); [exact L|apply le_n].
Qed.

Lemma unmarshal_any_iff inp rest off :
  (exists v, unmarshal C TAny VNil inp = DOk v rest off) <-> exists bv out, lax bv out /\ inp = out ++ rest /\ off = zlen out.
Proof.
  split.
  - intros (v & H). apply unmarshal_run in H as (n & H). destruct n as [|n]; [discriminate|].
    rewrite decode_S in H. cbn [is_ptr under negb andb impl] in H. apply dmap_ok in H as (v' & H & _).
    apply (decode_any_sound_mut C n) in H as (_ & bv & out & L & _ & E & O). exists bv, out. repeat split; auto.
  - intros (bv & out & L & -> & ->). exists (VPtr (any_of bv)).
    eapply (unmarshal_eq _ (Datatypes.S (4 * List.length out + 2))); [|discriminate]. rewrite decode_S. cbn [is_ptr under negb andb impl].
    rewrite (decode_any_complete C bv out L) by (cbn; auto; lia). reflexivity.
Qed.

(** *** C11 *)
Theorem unsorted_rejected bv t : any_order bv t -> ~ b_sorted bv -> forall ty old rest v rest' off', unmarshal C ty old (t ++ rest) <> DOk v rest' off'.
Proof.
  intros G NS ty old rest v rest' off' H. destruct (unmarshal_ok_frame _ _ _ _ _ _ H) as (out & E & _ & (bv' & L) & _).
  destruct (gram_unique _ _ _ _ bv t rest bv' out rest' G L E) as (-> & _ & _). apply NS. eapply gram_sorted. exact L.
Qed.

(** *** C12 *)
Theorem int_exact w old inp v rest off :
  unmarshal C (TInt w) old inp = DOk (VPtr (VInt v)) rest off ->
  exists z txt, inp = "i"%byte :: txt ++ "e"%byte :: rest /\ go_int z txt /\ v = wrap_s (iw_bits w) z /\
    (- 2 ^ (iw_bits w - 1) <= z < 2 ^ (iw_bits w - 1) -> v = z).
Proof.
  intros H. apply unmarshal_run in H as (n & H). revert H. destruct n as [|n]; [discriminate|]. rewrite decode_S. destruct n as [|n]; [discriminate|]. cbn [is_ptr under negb andb impl]. rewrite decode_S. cbn [is_ptr under negb andb impl ptr_impl fl_addr fl_elem].
  destruct (read_int parse_int inp 0) as [txt r z o|] eqn:R; [|discriminate]. cbn [settable fl_addr fl_ro fl_elem fl_root_val andb negb dmap].
  intros [= <- <- <-]. apply read_int_ok in R as (E & P & _ & _). exists z, txt. split; [|split; [apply go_int_parse; exact P|]].
  - rewrite E. cbn. rewrite <- app_assoc. reflexivity.
  - split; [reflexivity|]. intros. apply wrap_s_small; [destruct w; cbn; lia|assumption].
Qed.
Theorem uint_exact w old inp v rest off :
  unmarshal C (TUint w) old inp = DOk (VPtr (VUint v)) rest off ->
  exists z txt, inp = "i"%byte :: txt ++ "e"%byte :: rest /\ go_uint z txt /\ v = wrap_u (iw_bits w) z /\
    (0 <= z < 2 ^ iw_bits w -> v = z).
Proof.
  intros H. apply unmarshal_run in H as (n & H). revert H. destruct n as [|n]; [discriminate|]. rewrite decode_S. destruct n as [|n]; [discriminate|]. cbn [is_ptr under negb andb impl]. rewrite decode_S. cbn [is_ptr under negb andb impl ptr_impl fl_addr fl_elem].
  destruct (read_int parse_uint inp 0) as [txt r z o|] eqn:R; [|discriminate]. cbn [settable fl_addr fl_ro fl_elem fl_root_val andb negb dmap].
  intros [= <- <- <-]. apply read_int_ok in R as (E & P & _ & _). exists z, txt. split; [|split; [apply go_uint_parse; exact P|]].
  - rewrite E. cbn. rewrite <- app_assoc. reflexivity.
  - split; [reflexivity|]. intros. apply wrap_u_small; assumption.
Qed.
Theorem int64_exact old inp v rest off w : w = WInt \/ w = W64 ->
  unmarshal C (TInt w) old inp = DOk (VPtr (VInt v)) rest off ->
  exists txt, inp = "i"%byte :: txt ++ "e"%byte :: rest /\ go_int v txt.
Proof.
  intros W H. apply int_exact in H as (z & txt & E & G & _ & X). exists txt. split; [exact E|]. rewrite X; [exact G|].
  destruct G as (? & ? & ? & ? & ? & ? & R). destruct W as [-> | ->]; cbn [iw_bits]; lia.
Qed.
Theorem uint64_exact old inp v rest off w : w = WInt \/ w = W64 ->
  unmarshal C (TUint w) old inp = DOk (VPtr (VUint v)) rest off ->
  exists txt, inp = "i"%byte :: txt ++ "e"%byte :: rest /\ go_uint v txt.
Proof.
  intros W H. apply uint_exact in H as (z & txt & E & G & _ & X). exists txt. split; [exact E|]. rewrite X; [exact G|].
  assert (0 <= z) by (destruct G as (_ & D & -> & _); apply digits_val_nonneg; exact D).
  destruct G as (_ & _ & _ & R). destruct W as [-> | ->]; cbn [iw_bits]; lia.
Qed.

(** *** C09 *)
Theorem depth_exact t v :
  (marshal C (Some (t, v)) <> EFuel) /\
  (forall out, marshal C (Some (t, v)) = EOk out -> ~ nest 1001 t fl_root_val v) /\
  (depth_err (marshal C (Some (t, v))) -> nest 1001 t fl_root_val v).
Proof.
  split; [apply encode_no_fuel; lia|]. split.
  - intros out H N. cbn [marshal] in H. pose proof (encode_ok_nest C _ _ _ _ _ _ _ H ltac:(lia) N). lia.
  - intros H. exact (encode_depth_nest C _ _ _ _ _ H ltac:(lia)).
Qed.

(** *** C02, C03 *)
Theorem marshal_canonical t v out : customs_canonical C -> no_nil v -> maps_distinct v ->
  marshal C (Some (t, v)) = EOk out -> exists bv, bep3 bv out.
Proof. intros HC N D H. eapply encode_bep3; eauto. Qed.
Theorem marshal_order_free t v v' : customs_order_free C -> same_data v v' -> marshal C (Some (t, v)) = marshal C (Some (t, v')).
Proof. intros HC S. cbn [marshal]. rewrite <- (same_vdepth v v' S). apply encode_same; auto. Qed.
End Api.

(** *** RawMessage *)
Theorem raw_round inp out rest bv : inp = out ++ rest -> lax bv out ->
  unmarshal raw_customs raw_message VNil inp = DOk (VPtr (VBytes out)) rest (zlen out) /\
  marshal raw_customs (Some (TPtr raw_message, VPtr (VBytes out))) = EOk out.
Proof.
  intros -> L. split; [|reflexivity]. eapply (unmarshal_eq _ (S (2 * List.length out + 2))); [|discriminate].
  rewrite decode_S. cbn [is_ptr under negb andb impl raw_message m_unmarsh]. unfold dec_unmarshaler. cbn [fl_ro fl_root_val].
  rewrite (consume_complete bv out L _ rest 0) by lia. reflexivity.
Qed.
Theorem raw_iff_any inp rest off :
  (exists v, unmarshal raw_customs raw_message VNil inp = DOk v rest off) <->
  (exists v, unmarshal raw_customs TAny VNil inp = DOk v rest off).
Proof.
  rewrite unmarshal_any_iff. split.
  - intros (v & H). apply unmarshal_run in H as (n & H). destruct n as [|n]; [discriminate|].
    rewrite decode_S in H. cbn [is_ptr under negb andb impl raw_message m_unmarsh] in H. unfold dec_unmarshaler in H. cbn [fl_ro fl_root_val] in H.
    destruct (consume n inp 0) as [out r o| | |] eqn:R; try discriminate. injection H as <- <- <-.
    apply consume_sound in R as (E & O & bv & L). exists bv, out. auto.
  - intros (bv & out & L & E & ->). eexists. eapply raw_round; eauto.
Qed.

Lemma unknown_key_skipped C name fs k kt b rest inp0 : let t := TStruct name fs in
  assoc k (key_to_field t) = None -> k <> [] -> lax_str k kt -> inp0 = "d"%byte :: kt ++ b ++ "e"%byte :: rest ->
  (exists v, unmarshal C TAny VNil b = DOk v [] (zlen b)) ->
  forall old, unmarshal C t old inp0 = DOk (VPtr old) rest (zlen kt + zlen b + 2).
Proof.
  intros t K0 K L -> U old. apply unmarshal_any_iff in U as (bv & out & Lb & E & _). rewrite app_nil_r in E. subst out.
  eapply (unmarshal_eq _ (S (S (S (S (2 * List.length b + 1)))))); [|discriminate].
  rewrite decode_S. cbn [is_ptr under negb andb impl]. rewrite decode_S. cbn [is_ptr t under negb andb impl ptr_impl fl_addr fl_elem beqb].
  change (negb (beqb "d" "d")) with false. cbn iota. rewrite decode_struct_S.
  pose proof (lax_str_nonneg _ _ L) as (c & kt' & -> & Nc). cbn [app].
  replace (beqb c "e") with false by (symmetry; destruct (beqb c "e") eqn:X; [apply beqb_eq in X; subst c; discriminate|reflexivity]).
  destruct (read_str_lax _ _ (b ++ "e"%byte :: rest) (0 + 1) L) as (ls & _ & R). cbn [app] in R. rewrite R.
  replace (bytes_ltb [] k) with true by (destruct k; [congruence|reflexivity]). cbn [negb].
  fold t. rewrite K0. rewrite (consume_complete bv b Lb _ ("e"%byte :: rest)) by lia.
  rewrite decode_struct_S. change (beqb "e" "e") with true. cbn iota. cbn [dmap]. f_equal. lia.
Qed.
Lemma unknown_key_bad C name fs k kt b inp0 : let t := TStruct name fs in
  assoc k (key_to_field t) = None -> k <> [] -> lax_str k kt -> inp0 = "d"%byte :: kt ++ b ->
  (forall v rest off, unmarshal C TAny VNil b <> DOk v rest off) ->
  forall old v rest off, unmarshal C t old inp0 <> DOk v rest off.
Proof.
  intros t K0 K L -> U old v rest off H. apply unmarshal_run in H as (n & H). revert H.
  destruct n as [|n]; [discriminate|]. rewrite decode_S. cbn [is_ptr under negb andb impl].
  destruct n as [|n]; [discriminate|]. rewrite decode_S. cbn [is_ptr t under negb andb impl ptr_impl fl_addr fl_elem beqb].
  change (negb (beqb "d" "d")) with false. cbn iota.
  destruct n as [|n]; [discriminate|]. rewrite decode_struct_S.
  pose proof (lax_str_nonneg _ _ L) as (c & kt' & -> & Nc). cbn [app].
  replace (beqb c "e") with false by (symmetry; destruct (beqb c "e") eqn:X; [apply beqb_eq in X; subst c; discriminate|reflexivity]).
  destruct (read_str_lax _ _ b (0 + 1) L) as (ls & _ & R). cbn [app] in R. rewrite R.
  replace (bytes_ltb [] k) with true by (destruct k; [congruence|reflexivity]). cbn [negb].
  fold t. rewrite K0. destruct (consume n b _) as [out r o| | |] eqn:Cn; try discriminate.
  exfalso. apply consume_sound in Cn as (E & _ & bv & Lb).
  assert (exists v, unmarshal C TAny VNil b = DOk v r (zlen out)) as (v1 & H1) by (apply unmarshal_any_iff; eauto).
  exact (U _ _ _ H1).
Qed.

(** *** Non-canonical text *)
Lemma not_bep3_dangling_key : forall bv, ~ bep3 bv (bs "d1:ae").
Proof.
  intros bv B. remember (bs "d1:ae") as txt eqn:E. destruct B as [z n D|s t (n & D & ->)|l ts F|m ks ts A K V]; try discriminate.
  - assert (canon_nat n = true) as Cn. { destruct D as [(Hz & Cn & _)|(Hz & _)]; [exact Cn|]. unfold zlen in Hz. lia. }
    destruct n as [|c n]; [discriminate|]. cbn in E. injection E as -> _. destruct n; cbn in Cn; discriminate.
  - injection E as E. destruct m as [|[k v] m]; cbn in K, V; inversion K as [|? kt ? ks' Hk K']; subst; inversion V as [|? y ? ts' Hv V']; subst; [discriminate|].
    cbn [combine map concat fst snd] in E. destruct Hk as (n & D & ->).
    rewrite <- !app_assoc in E. cbn [app] in E.
    assert (n = bs "1") as ->.
    { assert (canon_nat n = true) as Cn. { destruct D as [(Hz & Cn & _)|(Hz & _)]; [exact Cn|]. unfold zlen in Hz. lia. }
      destruct n as [|c [|c2 n]]; [discriminate| |].
      - cbn in E. injection E as -> _. reflexivity.
      - cbn in E. injection E as -> -> _. cbn in Cn. discriminate. }
    cbn in E. injection E as E. assert (zlen k = 1) as Lk. { destruct D as [(_ & _ & D)|(Hz & _)]; [cbn in D; lia|unfold zlen in Hz; lia]. }
    destruct k as [|c [|c2 k]]; [cbn in Lk; lia| |rewrite !zlen_cons in Lk; pose proof (zlen_nonneg k); lia].
    cbn in E. injection E as -> E. assert (exists c t', y = c :: t' /\ (t' = [] -> False)) as (c & y' & -> & NE).
    { clear - Hv. inversion Hv; subst; [|destruct H as (n & Dn & ->)| |]; try (eexists; eexists; split; [reflexivity|]; intros Q; apply app_eq_nil in Q as [_ Q]; discriminate).
      destruct n; cbn.
      - exfalso. destruct Dn as [(_ & Q & _)|(Hz & _)]; [discriminate|unfold zlen in Hz; lia].
      - eexists; eexists; split; [reflexivity|]. intros Q; apply app_eq_nil in Q as [_ Q]; discriminate. }
    cbn in E. injection E as -> E. destruct y'; [auto|discriminate].
Qed.

(** *** C10 *)
Lemma resolve_shallow t p k : kind_struct t = true -> has_key t p k ->
  exists f, assoc k (key_to_field t) = Some f /\ has_key t (f_index f) k /\ (List.length (f_index f) <= List.length p)%nat.
Proof. intros K H. destruct (resolve_found t p k K H) as (f & A & L). exists f. split; [exact A|]. split; [eapply resolve_has_key; eauto|exact L]. Qed.
Lemma resolve_unique_emitted t p k : kind_struct t = true -> has_key t p k ->
  (forall q, has_key t q k -> q <> p -> (List.length p < List.length q)%nat) ->
  exists f, In f (sorted_fields t) /\ assoc k (key_to_field t) = Some f /\ f_key f = k /\ f_index f = p.
Proof.
  intros K H U. destruct (resolve_unique t p k K H U) as (f & A & I & Ig). exists f.
  destruct (ktf_assoc t k f A) as [Kf _]. repeat split; auto. apply sorted_fields_in. rewrite Kf. auto.
Qed.
Lemma emitted_candidate t f : In f (sorted_fields t) -> has_key t (f_index f) (f_key f) /\ assoc (f_key f) (key_to_field t) = Some f.
Proof. intros H. apply sorted_fields_in in H as [A _]. split; [eapply resolve_has_key; eauto|exact A]. Qed.

Lemma tagged_refuted t :
  t = TStruct (bs "S")
  [({| fa_name := bs "A"; fa_tag := []; fa_anon := true; fa_exp := true |}, TStruct (bs "A") [({| fa_name := bs "X"; fa_tag := []; fa_anon := false; fa_exp := true |}, TInt WInt)]);
   ({| fa_name := bs "B"; fa_tag := []; fa_anon := true; fa_exp := true |}, TStruct (bs "B") [({| fa_name := bs "X"; fa_tag := bs "x"; fa_anon := false; fa_exp := true |}, TInt WInt)])] ->
  exists t v p q a ft, leaf_at t p = Some (a, ft) /\ field_key a = bs "x" /\ field_tag a = bs "x" /\
    (forall p', has_key t p' (bs "x") -> p' = p \/ p' = q) /\ List.length q = List.length p /\
    (exists a' ft', leaf_at t q = Some (a', ft') /\ field_tag a' = []) /\
    marshal {| c_marsh := fun _ _ => Panic; c_unmarsh := fun _ _ _ => UPanic |} (Some (t, v)) = EOk (bs "de").
Proof.
  intros E. exists t, (VStruct [VStruct [VInt 1]; VStruct [VInt 2]]), [1%nat; 0%nat], [0%nat; 0%nat]. subst t.
  eexists. eexists. split; [reflexivity|]. split; [reflexivity|]. split; [reflexivity|]. split; [|split; [reflexivity|split; [eexists; eexists; split; reflexivity|vm_compute; reflexivity]]].
  intros p (a & ft & L & K). destruct p as [|[|[|i]] p]; cbn in L; try discriminate; [| |destruct i; discriminate].
  - destruct p as [|[|j] p]; cbn in L; try discriminate; [|destruct j; discriminate]. destruct p; [auto|discriminate].
  - destruct p as [|[|j] p]; cbn in L; try discriminate; [|destruct j; discriminate]. destruct p; [auto|discriminate].
Qed.
