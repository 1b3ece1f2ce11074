(** Proofs about metainfo.go: piece lengths, Pieces, info hash, round trip. *)
From Verif Require Import GoBase Strconv BencTypes BencFields BencEncode BencDecode BencSpec BencEncSpec BencFieldSpec BencRoundSpec BencPanicSpec BencReuseSpec
  GoBaseProofs StrconvProofs BencSpecProofs BencConsumeProofs BencDecodeEqs BencDecodeProofs BencFieldsProofs BencResolveProofs BencFuelProofs BencEncodeProofs
  BencDepthProofs BencFrameProofs BencApiProofs BencRoundProofs BencRoundTrip BencPanicProofs BencReuseProofs Metainfo MetainfoSpec.
From Coq Require Import Permutation Sorted.

(** *** C24 *)
Lemma sum_nonneg fs : Forall (fun f => 0 <= f_length f) fs -> 0 <= fold_right Z.add 0 (map f_length fs).
Proof. induction 1; cbn; lia. Qed.
Lemma get_length_fold fs : forall a, Forall (fun f => 0 <= f_length f) fs -> 0 <= a -> a + fold_right Z.add 0 (map f_length fs) < 2 ^ 63 ->
  fold_left (fun sum f => wrap_s 64 (sum + f_length f)) fs a = a + fold_right Z.add 0 (map f_length fs).
Proof.
  induction fs as [|f fs IH]; intros a F Ha Hs; cbn [fold_left map fold_right] in *; [lia|]. inversion F; subst.
  pose proof (sum_nonneg fs H2). rewrite wrap_s_small by lia. rewrite IH by (auto; lia). lia.
Qed.
Theorem get_length_total i : well_formed i -> get_length i = total_size i.
Proof.
  intros (_ & F & T & _). unfold get_length, total_size in *. destruct (i_files i) as [|f fs]; [reflexivity|].
  rewrite get_length_fold; auto; lia.
Qed.
Lemma piece_length_last i k : well_formed i -> k = zlen (i_pieces i) - 1 -> 0 <= k -> get_piece_length i k = total_size i - k * i_piece_length i.
Proof.
  intros W -> Hk. unfold get_piece_length. rewrite Z.eqb_refl, (get_length_total i W). destruct W as (P & _ & T & C).
  set (n := zlen (i_pieces i)) in *. assert (0 <= (n - 1) * i_piece_length i) by nia. rewrite !wrap_s_small; rewrite ?wrap_s_small; lia.
Qed.
Lemma piece_length_other i k : k <> zlen (i_pieces i) - 1 -> get_piece_length i k = i_piece_length i.
Proof. intros H. unfold get_piece_length. destruct (Z.eqb_spec k (zlen (i_pieces i) - 1)); [contradiction|reflexivity]. Qed.
Lemma piece_length_range i k : well_formed i -> 0 <= k < zlen (i_pieces i) ->
  1 <= get_piece_length i k <= i_piece_length i /\ (k < zlen (i_pieces i) - 1 -> get_piece_length i k = i_piece_length i).
Proof.
  intros W Hk. destruct (Z.eq_dec k (zlen (i_pieces i) - 1)) as [E|N].
  - rewrite (piece_length_last i k) by (auto; lia). destruct W as (P & _ & T & C). subst k. nia.
  - rewrite piece_length_other by exact N. destruct W as (P & _). lia.
Qed.
Lemma sum_app l1 l2 : fold_right Z.add 0 (l1 ++ l2) = fold_right Z.add 0 l1 + fold_right Z.add 0 l2.
Proof. induction l1; cbn; lia. Qed.
Theorem piece_lengths_sum i : well_formed i -> fold_right Z.add 0 (piece_lengths i) = total_size i.
Proof.
  intros W. unfold piece_lengths. destruct (List.length (i_pieces i)) as [|n] eqn:L.
  - cbn. destruct W as (P & _ & T & C). unfold zlen in C. rewrite L in C. lia.
  - rewrite seq_S, map_app, sum_app. cbn [map fold_right]. rewrite Nat.add_0_l, (piece_length_last i (Z.of_nat n)); [|exact W|unfold zlen; rewrite L; lia|lia].
    assert (forall m, (m <= n)%nat -> fold_right Z.add 0 (map (fun k => get_piece_length i (Z.of_nat k)) (seq 0 m)) = Z.of_nat m * i_piece_length i) as K.
    { induction m as [|m IH]; intros Hm; [reflexivity|]. rewrite seq_S, map_app, sum_app, IH by lia. cbn [map fold_right].
      rewrite piece_length_other by (unfold zlen; rewrite L; lia). lia. }
    rewrite K by lia. lia.
Qed.
Theorem piece_partition i : well_formed i ->
  get_length i = total_size i /\
  (forall k, 0 <= k < zlen (i_pieces i) -> 1 <= get_piece_length i k <= i_piece_length i) /\
  (forall k, 0 <= k < zlen (i_pieces i) - 1 -> get_piece_length i k = i_piece_length i) /\
  fold_right Z.add 0 (piece_lengths i) = get_length i.
Proof.
  intros W. rewrite (piece_lengths_sum i W), (get_length_total i W). repeat split; auto; intros.
  - apply (piece_length_range i k W); lia.
  - apply (piece_length_range i k W); lia.
  - apply (piece_length_range i k W); lia.
Qed.

(** *** C26 *)
Lemma hash_bytes_val h : hash_bytes (hash_val h) = Some h.
Proof. unfold hash_bytes, hash_val. induction h as [|b h IH]; cbn; [reflexivity|]. cbn in IH. rewrite IH, z2b_b2z. reflexivity. Qed.
Lemma pieces_bytes_val hs : pieces_bytes (pieces_val hs) = Some (concat hs).
Proof.
  assert (pieces_bytes (VSlice (map hash_val hs)) = Some (concat hs)) as K.
  { unfold pieces_bytes. induction hs as [|h hs IH]; [reflexivity|]. cbn [map fold_right concat]. rewrite hash_bytes_val, IH. reflexivity. }
  destruct hs; [reflexivity|exact K].
Qed.
Lemma split20_concat hs : Forall is_hash hs -> split20 (List.length hs) (concat hs) = hs.
Proof.
  induction 1 as [|h hs H F IH]; [reflexivity|]. cbn [List.length concat split20]. unfold is_hash in H.
  rewrite <- H, firstn_app, skipn_app, Nat.sub_diag, firstn_all, skipn_all. cbn [firstn skipn app]. rewrite app_nil_r, IH. reflexivity.
Qed.
Lemma concat_len hs : Forall is_hash hs -> zlen (concat hs) = 20 * zlen hs.
Proof. induction 1 as [|h hs H F IH]; [reflexivity|]. cbn [concat]. rewrite zlen_app, zlen_cons, IH. unfold zlen, is_hash in *. rewrite H. lia. Qed.
Lemma split20_spec n : forall s, zlen s = 20 * Z.of_nat n -> concat (split20 n s) = s /\ Forall is_hash (split20 n s) /\ List.length (split20 n s) = n.
Proof.
  induction n as [|n IH]; intros s H.
  - destruct s; [cbn; auto|rewrite zlen_cons in H; pose proof (zlen_nonneg s); lia].
  - assert (zlen (firstn 20 s) = 20) as L1 by (unfold zlen in *; rewrite firstn_length; lia).
    assert (zlen (skipn 20 s) = 20 * Z.of_nat n) as L2 by (unfold zlen in *; rewrite skipn_length; lia).
    destruct (IH _ L2) as (E1 & E2 & E3). cbn [split20 concat List.length]. rewrite E1, E3, firstn_skipn. repeat split; auto. constructor; [|exact E2].
    unfold is_hash. unfold zlen in L1. lia.
Qed.

Lemma unmarshal_bytes C t rest s : lax_str s t -> unmarshal C (TSlice (TUint W8)) VNil (t ++ rest) = DOk (VPtr (VBytes s)) rest (zlen t).
Proof.
  intros L. apply (unmarshal_eq C 2); [|discriminate].
  rewrite decode_S. cbn [is_ptr under negb andb impl]. rewrite decode_S. cbn [is_ptr under negb andb impl ptr_impl fl_addr fl_elem kind_uint8].
  destruct (read_str_lax s t rest 0 L) as (ls & _ & ->). reflexivity.
Qed.
Lemma unmarshal_bytes_inv C inp v rest off : unmarshal C (TSlice (TUint W8)) VNil inp = DOk (VPtr v) rest off ->
  exists s t, v = VBytes s /\ lax_str s t /\ inp = t ++ rest.
Proof.
  intros H. apply unmarshal_run in H as (n & H). destruct n as [|n]; [discriminate|]. rewrite decode_S in H. cbn [is_ptr under negb andb impl] in H.
  destruct n as [|n]; [discriminate|]. rewrite decode_S in H. cbn [is_ptr under negb andb impl ptr_impl fl_addr fl_elem kind_uint8] in H.
  destruct (read_str inp 0) as [ls body r o|e|] eqn:R; try discriminate. apply read_str_ok in R as (E & L & _).
  cbn in H. injection H as <- <- <-. eauto.
Qed.

Theorem pieces_round hs old : Forall is_hash hs -> len_fits (concat hs) ->
  pieces_marshal (Some (pieces_val hs)) = Ok (enc_str (concat hs)) /\
  pieces_unmarshal (Some old) (enc_str (concat hs)) = UOk (pieces_val hs).
Proof.
  intros F L. unfold pieces_marshal, pieces_unmarshal. rewrite pieces_bytes_val. split; [reflexivity|].
  destruct (lax_str_enc (concat hs) L) as [Ls _]. pose proof (unmarshal_bytes plain_customs _ [] _ Ls) as U. rewrite app_nil_r in U. rewrite U.
  rewrite (concat_len hs F). replace (20 * zlen hs mod 20) with 0 by (rewrite Z.mul_comm, Z.mod_mul; lia). cbn [Z.eqb negb].
  replace (20 * zlen hs / 20) with (zlen hs) by (rewrite Z.mul_comm, Z.div_mul; lia).
  unfold zlen. rewrite Nat2Z.id, split20_concat by exact F. reflexivity.
Qed.
Theorem pieces_accept s t rest old : lax_str s t ->
  (zlen s mod 20 = 0 -> exists hs, concat hs = s /\ Forall is_hash hs /\ pieces_unmarshal (Some old) (t ++ rest) = UOk (pieces_val hs)) /\
  (zlen s mod 20 <> 0 -> pieces_unmarshal (Some old) (t ++ rest) = UErr old).
Proof.
  intros L. unfold pieces_unmarshal. rewrite (unmarshal_bytes plain_customs t rest s L). pose proof (zlen_nonneg s). split; intros H0.
  - rewrite H0. cbn [Z.eqb negb]. destruct (split20_spec (Z.to_nat (zlen s / 20)) s) as (E1 & E2 & _).
    { rewrite Z2Nat.id by (apply Z.div_pos; lia). pose proof (Z.div_mod (zlen s) 20). lia. }
    eexists; split; [exact E1|]. split; [exact E2|reflexivity].
  - destruct (Z.eqb_spec (zlen s mod 20) 0); [contradiction|reflexivity].
Qed.
Theorem pieces_only old data v : pieces_unmarshal (Some old) data = UOk v ->
  exists hs s t rest, data = t ++ rest /\ lax_str s t /\ concat hs = s /\ Forall is_hash hs /\ v = pieces_val hs.
Proof.
  unfold pieces_unmarshal. destruct (unmarshal plain_customs (TSlice (TUint W8)) VNil data) as [v0 rest off|v0 e| |] eqn:U; try discriminate.
  destruct v0 as [| | | | | | | | | | |v1]; try discriminate. apply unmarshal_bytes_inv in U as (s & t & -> & L & ->).
  destruct (Z.eqb_spec (zlen s mod 20) 0) as [E|]; [|discriminate]. cbn [negb]. intros [= <-]. pose proof (zlen_nonneg s).
  destruct (split20_spec (Z.to_nat (zlen s / 20)) s) as (E1 & E2 & _).
  { rewrite Z2Nat.id by (apply Z.div_pos; lia). pose proof (Z.div_mod (zlen s) 20). lia. }
  eexists; exists s, t, rest. split; [reflexivity|]. split; [exact L|]. split; [exact E1|]. split; [exact E2|reflexivity].
Qed.

(** *** C28: the text of an info *)
Definition info_fields : list finfo := Eval vm_compute in sorted_fields info_ty.
Lemma info_fields_eq : sorted_fields info_ty = info_fields.
Proof. vm_compute. reflexivity. Qed.
Lemma info_copy_fields_eq : sorted_fields info_copy_ty = info_fields.
Proof. vm_compute. reflexivity. Qed.

Lemma encode_str C n t fl d s : t = TStr -> encode C (S n) t fl d (VStr s) = EOk (enc_str s).
Proof. intros ->. cbn. destruct (fl_addr fl); reflexivity. Qed.
Lemma encode_int C n w fl d z : encode C (S n) (TInt w) fl d (VInt z) = EOk (enc_int z).
Proof. cbn. destruct (fl_addr fl); reflexivity. Qed.
Lemma encode_pieces C n fl d hs : c_marsh C pieces_id = pieces_marshal -> fl_addr fl = true -> fl_ro fl = false ->
  encode C (S n) pieces_ty fl d (pieces_val hs) = EOk (enc_str (concat hs)).
Proof.
  intros HC Ad Ro. cbn [encode]. unfold pieces_ty at 1 2. cbn [is_ptr under negb andb ptr_impl m_marsh]. rewrite Ad. unfold enc_marshaler. rewrite Ro, HC.
  unfold pieces_marshal. rewrite pieces_bytes_val. reflexivity.
Qed.

Lemma encode_info C n fl d i : c_marsh C pieces_id = pieces_marshal -> fl_addr fl = true -> single_file i -> (d < 1000)%nat ->
  encode C (S (S n)) info_ty fl d (info_val i) = EOk (info_text i).
Proof.
  intros HC Ad Sf Hd. remember (S n) as m eqn:Em. cbn [encode].
  replace (if negb (is_ptr info_ty) && fl_addr fl then ptr_impl m_marsh info_ty else None) with (@None nat) by (destruct (fl_addr fl); reflexivity).
  replace (impl m_marsh info_ty) with (@None nat) by reflexivity.
  replace (under info_ty) with info_struct by reflexivity. unfold info_struct at 1. unfold info_val at 1. cbn iota.
  replace (ptr_depth_limit <? S d)%nat with false by (symmetry; apply Nat.ltb_ge; unfold ptr_depth_limit; lia).
  rewrite info_fields_eq. unfold info_fields. cbn [fold_right f_index f_key f_omit].
  repeat match goal with |- context [field_by_index [?j] info_ty fl (info_val i)] =>
    let r := eval cbn in (field_by_index [j] info_ty fl (info_val i)) in
    change (field_by_index [j] info_ty fl (info_val i)) with r end.
  cbn iota. unfold info_text. unfold single_file in Sf. rewrite Sf. cbn [map slice_val is_nil under andb].
  subst m. rewrite !encode_int, !encode_str by reflexivity.
  rewrite !(encode_pieces C) by auto.
  cbn [is_empty_value under]. cbn [pieces_ty under].
  destruct (i_length i =? 0); destruct (i_md5 i); destruct (i_pieces i) as [|h hs]; destruct (i_private i =? 0); cbn [pieces_val is_nil pieces_ty under ewrite eseq app]; unfold entry; rewrite <- ?app_assoc, ?app_nil_r; rewrite <- ?app_assoc; reflexivity.
Qed.

Lemma encode_info_copy C n fl d i : c_marsh C pieces_id = pieces_marshal -> fl_addr fl = true -> single_file i -> (d < 1000)%nat ->
  encode C (S (S n)) info_copy_ty fl d (info_val i) = EOk (info_text i).
Proof.
  intros HC Ad Sf Hd. remember (S n) as m eqn:Em. cbn [encode].
  replace (if negb (is_ptr info_copy_ty) && fl_addr fl then ptr_impl m_marsh info_copy_ty else None) with (@None nat) by (destruct (fl_addr fl); reflexivity).
  replace (impl m_marsh info_copy_ty) with (@None nat) by reflexivity.
  replace (under info_copy_ty) with info_struct by reflexivity. unfold info_struct at 1. unfold info_val at 1. cbn iota.
  replace (ptr_depth_limit <? S d)%nat with false by (symmetry; apply Nat.ltb_ge; unfold ptr_depth_limit; lia).
  rewrite info_copy_fields_eq. unfold info_fields. cbn [fold_right f_index f_key f_omit].
  repeat match goal with |- context [field_by_index [?j] info_copy_ty fl (info_val i)] =>
    let r := eval cbn in (field_by_index [j] info_copy_ty fl (info_val i)) in
    change (field_by_index [j] info_copy_ty fl (info_val i)) with r end.
  cbn iota. unfold info_text. unfold single_file in Sf. rewrite Sf. cbn [map slice_val is_nil under andb].
  subst m. rewrite !encode_int, !encode_str by reflexivity.
  rewrite !(encode_pieces C) by auto.
  cbn [is_empty_value under]. cbn [pieces_ty under].
  destruct (i_length i =? 0); destruct (i_md5 i); destruct (i_pieces i) as [|h hs]; destruct (i_private i =? 0); cbn [pieces_val is_nil pieces_ty under ewrite eseq app]; unfold entry; rewrite <- ?app_assoc, ?app_nil_r; rewrite <- ?app_assoc; reflexivity.
Qed.

Lemma bep3_dict_app bm ts text : ascending (map fst bm) -> Forall2 bep3 (map snd bm) ts -> text = dtext (map enc_str (map fst bm)) ts ->
  bep3 (BDict bm) ("d"%byte :: text ++ bs "e").
Proof. intros A F ->. apply bep3_dict_intro'; assumption. Qed.
Lemma info_text_lax i : info_fits i -> exists bv, lax bv (info_text i).
Proof.
  intros (Hpl & _ & Hps & Hpr & Hn & Hl & Hm).
  assert (exists bv, bep3 bv (info_text i) /\ b_all (fun z => is_int64 z = true) (fun k => k <> []) bv /\ b_small bv) as (bv & B & A & S).
  { pose (o1 := fun (b : bool) (x : bytes * bval) => if b then [] else [x]).
    pose (o2 := fun (b : bool) (x : bytes) => if b then [] else [x]).
    pose (bm := o1 (i_length i =? 0) (bs "length", BInt (i_length i)) ++ o1 (match i_md5 i with [] => true | _ => false end) (bs "md5sum", BStr (i_md5 i)) ++
       [(bs "name", BStr (i_name i)); (bs "piece length", BInt (i_piece_length i))] ++
       o1 (match i_pieces i with [] => true | _ => false end) (bs "pieces", BStr (concat (i_pieces i))) ++ o1 (i_private i =? 0) (bs "private", BInt (i_private i))).
    pose (ts := o2 (i_length i =? 0) (enc_int (i_length i)) ++ o2 (match i_md5 i with [] => true | _ => false end) (enc_str (i_md5 i)) ++
       [enc_str (i_name i); enc_int (i_piece_length i)] ++
       o2 (match i_pieces i with [] => true | _ => false end) (enc_str (concat (i_pieces i))) ++ o2 (i_private i =? 0) (enc_int (i_private i))).
    exists (BDict bm). unfold info_text. rewrite !app_assoc.
    unfold int_fits in *. cbn [iw_bits] in *. unfold len_fits in *.
    split; [|].
    - apply bep3_dict_app with (ts := ts).
      + unfold bm, o1. destruct (i_length i =? 0), (i_md5 i), (i_pieces i), (i_private i =? 0); cbn [map fst app];
          repeat (apply SSorted_cons || apply SSorted_nil || apply Forall_cons || apply Forall_nil); reflexivity.
      + unfold bm, ts, o1, o2. destruct (i_length i =? 0), (i_md5 i), (i_pieces i), (i_private i =? 0); cbn [map snd app];
          repeat (apply Forall2_cons || apply Forall2_nil || apply enc_int_bep3 || apply enc_str_bep3).
      + unfold bm, ts, o1, o2, entry, dtext. destruct (i_length i =? 0), (i_md5 i), (i_pieces i), (i_private i =? 0);
          cbn [map fst app combine concat]; rewrite <- ?app_assoc, ?app_nil_r; reflexivity.
    - unfold bm, o1. change (64 - 1) with 63 in *.
      assert (is_int64 (i_length i) = true) by (unfold is_int64, min_int64, max_int64; lia).
      assert (is_int64 (i_piece_length i) = true) by (unfold is_int64, min_int64, max_int64; lia).
      assert (is_int64 (i_private i) = true) by (unfold is_int64, min_int64, max_int64; lia).
      destruct (i_length i =? 0), (match i_md5 i with [] => true | _ => false end), (match i_pieces i with [] => true | _ => false end), (i_private i =? 0);
        cbn [b_all b_small fold_right fst snd app];
        repeat match goal with |- _ /\ _ => split end; first [assumption|discriminate|exact I|cbv; discriminate]. }
  exists bv. apply bep3_lax; assumption.
Qed.

(** *** Decoding the text of an info *)
Definition no_hash : bytes := repeat "000"%byte 20.
Ltac fields_ok := let a := fresh in let ft := fresh in let H := fresh in intros a ft H; cbn in H;
  repeat (destruct H as [[= <- <-]|H]; [split; [reflexivity|split; [cbv; discriminate|cbv; discriminate]]|]); destruct H.
Ltac the_field := match goal with |- exists f, In f ?s /\ f_index f = ?p /\ _ =>
   let s' := eval vm_compute in s in
   let rec pick l := match l with ?f :: ?l' => first [exists f; split; [vm_compute; tauto|split; [reflexivity|]] | pick l'] end in pick s' end.
Lemma info_copy_emitted i f j : In f (sorted_fields info_copy_ty) -> f_index f = [j] ->
  emitted info_copy_ty fl_new (info_val i) f =
    match nth_error (struct_fields info_copy_ty) j, nth_error (match info_val i with VStruct l => l | _ => [] end) j with
    | Some (_, ft), Some x => negb (is_nil ft x) && negb (f_omit f && is_empty_value ft x)
    | _, _ => false end.
Proof.
  intros H E. unfold emitted. rewrite E. cbn [field_by_index is_nil info_copy_ty under info_struct info_val].
  destruct (nth_error (struct_fields _) j) as [[a ft]|]; [|reflexivity]. destruct (nth_error _ j); reflexivity.
Qed.
Lemma hash_zero : hash_val no_hash = zero hash_ty.
Proof. reflexivity. Qed.

Lemma survives_pieces C fl hs : c_marsh C pieces_id = pieces_marshal -> c_unmarsh C pieces_id = pieces_unmarshal -> fl_addr fl = true -> fl_ro fl = false ->
  Forall is_hash hs -> len_fits (concat hs) -> survives C pieces_ty fl (pieces_val hs).
Proof.
  intros HC HU Ad Ro F L. apply sv_custom; auto. { cbn. rewrite Ad. reflexivity. }
  exists (enc_str (concat hs)), (pieces_val hs). rewrite HC, HU. destruct (pieces_round hs (zero (TSlice hash_ty)) F L) as [E1 E2].
  split; [exact E1|]. split; [|split; [exact E2|constructor]]. destruct (lax_str_enc _ L) as [L1 L2].
  exists (BStr (concat hs)). split; [apply gram_string; auto|apply enc_str_bep3].
Qed.

Lemma survives_info i : info_fits i -> single_file i -> i_sha1 i = no_hash -> survives leaf_customs info_copy_ty fl_new (info_val i).
Proof.
  intros (Hpl & Hh & Hps & Hpr & Hn & Hl & Hm) Sf Sh.
  pose proof (info_copy_emitted i) as EM.
  eapply sv_struct; try reflexivity; [fields_ok|]. intros j a ft x H1 H2. fold (info_val i).
  assert (forall f, In f (sorted_fields info_copy_ty) -> f_index f = [j] -> emitted info_copy_ty fl_new (info_val i) f = negb (is_nil ft x) && negb (f_omit f && is_empty_value ft x)) as EM'.
  { intros f Hf Ef. rewrite (EM f j Hf Ef). cbn [info_val]. change (struct_fields info_copy_ty) with (struct_fields info_struct). unfold struct_fields. cbn [under info_struct]. rewrite H1, H2. reflexivity. }
  clear EM.
  assert (forall P : Prop, ((forall f, In f (sorted_fields info_copy_ty) -> f_index f = [j] -> emitted info_copy_ty fl_new (info_val i) f = negb (is_nil ft x) && negb (f_omit f && is_empty_value ft x)) -> P) -> P) as K by auto.
  clear EM'.
  destruct j as [|[|[|[|[|[|[|[|j]]]]]]]]; cbn in H1, H2; try (injection H1 as <- <-; injection H2 as <-); [| | | | | | | |destruct j; discriminate]; apply K; intros EM; clear K.
  - left. rewrite Sh. split; [reflexivity|]. intros f Hf Hi. vm_compute in Hf. repeat (destruct Hf as [<-|Hf]; [discriminate Hi|]). destruct Hf.
  - right. split; [reflexivity|]. split; [the_field; rewrite EM; [reflexivity|vm_compute; tauto|reflexivity]|]. left. split; [reflexivity|]. eapply sv_int; try reflexivity. exact Hpl.
  - destruct (i_pieces i) as [|h hs] eqn:Ep; [left|right].
    + split; [reflexivity|]. intros f Hf Hi. rewrite (EM f Hf Hi). reflexivity.
    + split; [reflexivity|]. split; [the_field; rewrite EM; [reflexivity|vm_compute; tauto|reflexivity]|]. left. split; [reflexivity|]. rewrite <- Ep in *. apply survives_pieces; auto.
  - destruct (Z.eqb_spec (i_private i) 0) as [E|E]; [left|right].
    + rewrite E. split; [reflexivity|]. rewrite E in EM. intros f Hf Hi. rewrite (EM f Hf Hi). vm_compute in Hf. repeat (destruct Hf as [<-|Hf]; [try discriminate Hi; vm_compute; reflexivity|]). destruct Hf.
    + split; [reflexivity|]. split; [the_field; rewrite EM; [|vm_compute; tauto|reflexivity]|].
      { cbn. destruct (Z.eqb_spec (i_private i) 0); [contradiction|reflexivity]. }
      left. split; [reflexivity|]. eapply sv_int; try reflexivity. exact Hpr.
  - right. split; [reflexivity|]. split; [the_field; rewrite EM; [reflexivity|vm_compute; tauto|reflexivity]|]. left. split; [reflexivity|]. eapply sv_str; try reflexivity. exact Hn.
  - destruct (Z.eqb_spec (i_length i) 0) as [E|E]; [left|right].
    + rewrite E. split; [reflexivity|]. rewrite E in EM. intros f Hf Hi. rewrite (EM f Hf Hi). vm_compute in Hf. repeat (destruct Hf as [<-|Hf]; [try discriminate Hi; vm_compute; reflexivity|]). destruct Hf.
    + split; [reflexivity|]. split; [the_field; rewrite EM; [|vm_compute; tauto|reflexivity]|].
      { cbn. destruct (Z.eqb_spec (i_length i) 0); [contradiction|reflexivity]. }
      left. split; [reflexivity|]. eapply sv_int; try reflexivity. exact Hl.
  - destruct (i_md5 i) as [|c s] eqn:E; [left|right].
    + split; [reflexivity|]. intros f Hf Hi. rewrite (EM f Hf Hi). vm_compute in Hf. repeat (destruct Hf as [<-|Hf]; [try discriminate Hi; vm_compute; reflexivity|]). destruct Hf.
    + split; [reflexivity|]. split; [the_field; rewrite EM; [reflexivity|vm_compute; tauto|reflexivity]|].
      left. split; [reflexivity|]. eapply sv_str; try reflexivity. exact Hm.
  - left. unfold single_file in Sf. rewrite Sf in *. split; [reflexivity|]. intros f Hf Hi. rewrite (EM f Hf Hi). reflexivity.
Qed.

(** Values without maps come back equal. *)
Fixpoint no_maps (v : gval) : Prop :=
  match v with
  | VSlice l | VStruct l => fold_right (fun x a => no_maps x /\ a) True l
  | VMap _ => False
  | VIface _ v' | VPtr v' => no_maps v'
  | _ => True
  end.
Lemma same_no_maps v v' : same_data v v' -> no_maps v -> v' = v.
Proof.
  intros H. induction H as [v|l l' H|l l' H|t v v' H IH|v v' H IH|m m1 m' N P H] using same_data_ind'; intros NM; cbn [no_maps] in *; try contradiction; [reflexivity| | | |].
  - f_equal. induction H as [|x y l l' [_ H] _ IH]; [reflexivity|]. destruct NM. f_equal; auto.
  - f_equal. induction H as [|x y l l' [_ H] _ IH]; [reflexivity|]. destruct NM. f_equal; auto.
  - f_equal. auto.
  - f_equal. auto.
Qed.
Lemma no_maps_all l : (forall x, In x l -> no_maps x) -> fold_right (fun x a => no_maps x /\ a) True l.
Proof. induction l as [|x l IH]; cbn; intros H; auto. Qed.
Lemma no_maps_pieces hs : no_maps (pieces_val hs).
Proof.
  destruct hs as [|h hs]; [exact I|]. cbn [pieces_val no_maps]. apply no_maps_all. intros x Hx. apply in_map_iff in Hx as (b & <- & _).
  cbn [hash_val no_maps]. apply no_maps_all. intros y Hy. apply in_map_iff in Hy as (c & <- & _). exact I.
Qed.
Lemma no_maps_info i : single_file i -> no_maps (info_val i).
Proof.
  intros Sf. unfold info_val. rewrite Sf. cbn [no_maps fold_right map slice_val]. repeat split; try exact I.
  - apply no_maps_all. intros y Hy. apply in_map_iff in Hy as (c & <- & _). exact I.
  - apply no_maps_pieces.
Qed.

Section Round.
Variable sha1 : bytes -> bytes.

Lemma info_unmarshal_text i old : info_fits i -> single_file i ->
  info_unmarshal sha1 (Some old) (info_text i) = UOk (info_val (with_sha1 (sha1 (info_text i)) i)).
Proof.
  intros Fi Sf. set (i0 := with_sha1 no_hash i).
  assert (info_fits i0) as F0 by exact Fi. assert (single_file i0) as S0 by exact Sf.
  pose proof (survives_info i0 F0 S0 eq_refl) as Sv.
  pose proof (encode_info_copy leaf_customs 0 fl_new 0 i0 eq_refl eq_refl S0 ltac:(lia)) as E.
  destruct (encode_decs _ _ _ _ _ _ _ Sv E fl_new eq_refl) as (v' & D & Sd).
  apply same_no_maps in Sd; [|apply no_maps_info; exact S0]. subst v'.
  apply decs_unmarshal in D; [|reflexivity]. unfold info_unmarshal. change (info_text i) with (info_text i0). rewrite D. reflexivity.
Qed.

Lemma vdepth_pos_info i : (1 <= vdepth (info_val i))%nat.
Proof. cbn [info_val vdepth]. lia. Qed.
Lemma encode_info_deep C n fl d i : (1000 <= d)%nat -> encode C (S n) info_ty fl d (info_val i) = EErr [] (S d) EDepth.
Proof.
  intros Hd. cbn [encode].
  replace (if negb (is_ptr info_ty) && fl_addr fl then ptr_impl m_marsh info_ty else None) with (@None nat) by (destruct (fl_addr fl); reflexivity).
  replace (impl m_marsh info_ty) with (@None nat) by reflexivity.
  replace (under info_ty) with info_struct by reflexivity. unfold info_struct at 1. unfold info_val at 1. cbn iota.
  replace (ptr_depth_limit <? S d)%nat with true by (symmetry; apply Nat.ltb_lt; unfold ptr_depth_limit; lia). reflexivity.
Qed.
Lemma survives_info_ptr i fl : fl_addr fl = true -> fl_ro fl = false -> info_fits i -> single_file i -> i_sha1 i = sha1 (info_text i) ->
  survives (meta_customs sha1) info_ty fl (info_val i).
Proof.
  intros Ad Ro Fi Sf Sh. apply sv_unmarshaler; auto. intros n d Hn. pose proof (vdepth_pos_info i). destruct n as [|[|n]]; [lia|lia|].
  destruct (Nat.lt_ge_cases d 1000) as [Hd|Hd]; [right|left].
  - destruct (info_text_lax i Fi) as (bv & L). exists (info_text i), bv, (info_val i).
    split; [apply encode_info; auto|]. split; [exact L|]. split; [|constructor].
    change (c_unmarsh (meta_customs sha1) info_id) with (info_unmarshal sha1). rewrite info_unmarshal_text by assumption. rewrite <- Sh.
    destruct i; reflexivity.
  - exists [], (S d). apply encode_info_deep; assumption.
Qed.

Lemma wrap_back s : int_fits W64 s -> wrap_s 64 (wrap_s 64 (s - unix_to_internal) + unix_to_internal) = s.
Proof.
  intros H. unfold int_fits, wrap_s, unix_to_internal in *. cbn [iw_bits] in H. change (64 - 1) with 63 in *.
  replace ((s - 62135596800 + 2 ^ 63) mod 2 ^ 64 - 2 ^ 63 + 62135596800 + 2 ^ 63) with ((s - 62135596800 + 2 ^ 63) mod 2 ^ 64 + 62135596800) by lia.
  rewrite Zplus_mod_idemp_l. replace (s - 62135596800 + 2 ^ 63 + 62135596800) with (s + 2 ^ 63) by lia. rewrite Z.mod_small by lia. lia.
Qed.
Lemma unmarshal_int64 C z : int_fits W64 z -> unmarshal C (TInt W64) (VInt 0) (enc_int z) = DOk (VPtr (VInt z)) [] (zlen (enc_int z)).
Proof.
  intros L. assert (survives C (TInt W64) fl_root_val (VInt z)) as Sv by (eapply sv_int; try reflexivity; exact L).
  destruct (round_trip_value C _ _ (enc_int z) Sv eq_refl) as (v' & U & Sd). inversion Sd; subst. exact U.
Qed.
Lemma time_round s old : int_fits W64 s -> exists b, time_marshal (Some (VStruct [VInt s])) = Ok b /\ b = enc_int (wrap_s 64 (s - unix_to_internal)) /\
  time_unmarshal (Some old) b = UOk (VStruct [VInt s]).
Proof.
  intros H. exists (enc_int (wrap_s 64 (s - unix_to_internal))). split; [reflexivity|]. split; [reflexivity|].
  assert (int_fits W64 (wrap_s 64 (s - unix_to_internal))) as F by (apply (wrap_s_range 64); lia).
  unfold time_unmarshal. rewrite (unmarshal_int64 plain_customs _ F). unfold time_unix. rewrite wrap_back by exact H. reflexivity.
Qed.
Lemma survives_time s fl : fl_addr fl = true -> fl_ro fl = false -> int_fits W64 s -> survives (meta_customs sha1) time_ty fl (VStruct [VInt s]).
Proof.
  intros Ad Ro H. apply sv_custom; auto. { cbn. rewrite Ad. reflexivity. }
  destruct (time_round s (zero (under time_ty)) H) as (b & E1 & E2 & E3). exists b, (VStruct [VInt s]). split; [exact E1|]. split; [|split; [exact E3|constructor]].
  subst b. assert (int_fits W64 (wrap_s 64 (s - unix_to_internal))) as F by (apply (wrap_s_range 64); lia).
  exists (BInt (wrap_s 64 (s - unix_to_internal))). split; [|apply enc_int_bep3]. apply bep3_lax; [apply enc_int_bep3| |exact I].
  cbn [b_all]. unfold int_fits in F. cbn [iw_bits] in F. unfold is_int64, min_int64, max_int64. change (64 - 1) with 63 in F. lia.
Qed.
Lemma survives_strings C fl l : Forall len_fits l -> survives C (TSlice TStr) fl (strings_val l).
Proof.
  intros H. eapply sv_slice; try reflexivity. rewrite Forall_forall in *. intros x Hx. apply in_map_iff in Hx as (s & <- & Hs). eapply sv_str; try reflexivity. auto.
Qed.

Lemma meta_emitted m f j : In f (sorted_fields metainfo_ty) -> f_index f = [j] ->
  emitted metainfo_ty fl_new (metainfo_val m) f =
    match nth_error (struct_fields metainfo_ty) j, nth_error (match metainfo_val m with VStruct l => l | _ => [] end) j with
    | Some (_, ft), Some x => negb (is_nil ft x) && negb (f_omit f && is_empty_value ft x)
    | _, _ => false end.
Proof.
  intros H E. unfold emitted. rewrite E. cbn [field_by_index is_nil metainfo_ty under metainfo_val].
  destruct (nth_error (struct_fields _) j) as [[a ft]|]; [|reflexivity]. destruct (nth_error _ j); reflexivity.
Qed.
Lemma survives_metainfo m : metainfo_fits m -> single_file (m_info m) -> i_sha1 (m_info m) = sha1 (info_text (m_info m)) ->
  survives (meta_customs sha1) metainfo_ty fl_new (metainfo_val m).
Proof.
  intros (Hi & Ha & Hal & Hcd & Hc & Hcb & He) Sf Sh.
  eapply sv_struct; try reflexivity; [fields_ok|]. intros j a ft x H1 H2. fold (metainfo_val m).
  assert (forall f, In f (sorted_fields metainfo_ty) -> f_index f = [j] -> emitted metainfo_ty fl_new (metainfo_val m) f = negb (is_nil ft x) && negb (f_omit f && is_empty_value ft x)) as EM'.
  { intros f Hf Ef. rewrite (meta_emitted m f j Hf Ef). cbn [metainfo_val]. unfold struct_fields. cbn [under metainfo_ty]. rewrite H1, H2. reflexivity. }
  assert (forall P : Prop, ((forall f, In f (sorted_fields metainfo_ty) -> f_index f = [j] -> emitted metainfo_ty fl_new (metainfo_val m) f = negb (is_nil ft x) && negb (f_omit f && is_empty_value ft x)) -> P) -> P) as K by auto.
  clear EM'.
  destruct j as [|[|[|[|[|[|[|j]]]]]]]; cbn in H1, H2; try (injection H1 as <- <-; injection H2 as <-); [| | | | | | |destruct j; discriminate]; apply K; intros EM; clear K.
  - right. split; [reflexivity|]. split; [the_field; rewrite EM; [reflexivity|vm_compute; tauto|reflexivity]|]. right. eexists _, _. split; [reflexivity|]. split; [reflexivity|].
    apply survives_info_ptr; auto.
  - right. split; [reflexivity|]. split; [the_field; rewrite EM; [reflexivity|vm_compute; tauto|reflexivity]|]. left. split; [reflexivity|]. eapply sv_str; try reflexivity. exact Ha.
  - destruct (m_announce_list m) as [|l ls] eqn:E; [left|right].
    + split; [reflexivity|]. intros f Hf Hi'. rewrite (EM f Hf Hi'). reflexivity.
    + split; [reflexivity|]. split; [the_field; rewrite EM; [reflexivity|vm_compute; tauto|reflexivity]|]. left. split; [reflexivity|].
      rewrite <- E in *. replace (slice_val (map strings_val (m_announce_list m))) with (VSlice (map strings_val (m_announce_list m))) by (rewrite E; reflexivity).
      eapply sv_slice; try reflexivity. rewrite Forall_forall in *. intros y Hy. apply in_map_iff in Hy as (q & <- & Hq). apply survives_strings. auto.
  - destruct (m_creation m) as [s|] eqn:E; [right|left].
    + split; [reflexivity|]. split; [the_field; rewrite EM; [reflexivity|vm_compute; tauto|reflexivity]|]. right. eexists _, _. split; [reflexivity|]. split; [reflexivity|].
      apply survives_time; auto.
    + split; [reflexivity|]. intros f Hf Hi'. rewrite (EM f Hf Hi'). reflexivity.
  - destruct (m_comment m) as [|c s] eqn:E; [left|right].
    + split; [reflexivity|]. intros f Hf Hi'. rewrite (EM f Hf Hi'). vm_compute in Hf. repeat (destruct Hf as [<-|Hf]; [try discriminate Hi'; vm_compute; reflexivity|]). destruct Hf.
    + split; [reflexivity|]. split; [the_field; rewrite EM; [reflexivity|vm_compute; tauto|reflexivity]|]. left. split; [reflexivity|]. eapply sv_str; try reflexivity. exact Hc.
  - destruct (m_created_by m) as [|c s] eqn:E; [left|right].
    + split; [reflexivity|]. intros f Hf Hi'. rewrite (EM f Hf Hi'). vm_compute in Hf. repeat (destruct Hf as [<-|Hf]; [try discriminate Hi'; vm_compute; reflexivity|]). destruct Hf.
    + split; [reflexivity|]. split; [the_field; rewrite EM; [reflexivity|vm_compute; tauto|reflexivity]|]. left. split; [reflexivity|]. eapply sv_str; try reflexivity. exact Hcb.
  - destruct (m_encoding m) as [|c s] eqn:E; [left|right].
    + split; [reflexivity|]. intros f Hf Hi'. rewrite (EM f Hf Hi'). vm_compute in Hf. repeat (destruct Hf as [<-|Hf]; [try discriminate Hi'; vm_compute; reflexivity|]). destruct Hf.
    + split; [reflexivity|]. split; [the_field; rewrite EM; [reflexivity|vm_compute; tauto|reflexivity]|]. left. split; [reflexivity|]. eapply sv_str; try reflexivity. exact He.
Qed.
End Round.

(** *** C28 *)
Lemma nest_vdepth k : forall n t fl v, (vdepth v <= k)%nat -> nest n t fl v -> (n <= vdepth v)%nat.
Proof.
  induction k as [|k IH]; intros n t fl v Hk H.
  { destruct v; cbn [vdepth] in Hk; lia. }
  destruct H as [t fl v|n t fl et l UM U K D|n t fl k0 et l UM U D|n t fl kt et m UM U K D|n t fl nm fs l UM U D|n t fl dt x UM U H|n t fl t' x UM U H];
    cbn [vdepth] in *; try lia.
  - destruct D as [->|(x & Hx & N)]; [lia|]. pose proof (fold_max_in vdepth x l Hx). apply IH in N; lia.
  - destruct D as [->|(x & Hx & N)]; [lia|]. pose proof (fold_max_in vdepth x l Hx). apply IH in N; lia.
  - destruct D as [->|(q & x & Hx & N)]; [lia|]. pose proof (fold_max_in (fun p : bytes * gval => vdepth (snd p)) (q, x) m Hx) as Q. cbn beta in Q. cbn [snd] in Q. apply IH in N; lia.
  - destruct D as [->|(f & ft & ffl & x & Hf & Fb & _ & _ & N)]; [lia|].
    pose proof (field_by_index_depth _ _ _ _ _ _ _ Fb) as [_ Q]. specialize (Q (finfo_index_nonnil t f Hf) l eq_refl).
    assert (is_nil t (VStruct l) = false) as X by (unfold is_nil; rewrite U; reflexivity). specialize (Q X). cbn [vdepth] in Q. apply IH in N; lia.
  - apply IH in H; lia.
  - apply IH in H; lia.
Qed.
Lemma encode_struct_ext C n t fl d l l' : uses_marshaler t fl = false ->
  (forall f, In f (sorted_fields t) -> exists ft ffl x x', field_by_index (f_index f) t fl (VStruct l) = Some (ft, ffl, x) /\
     field_by_index (f_index f) t fl (VStruct l') = Some (ft, ffl, x') /\ is_nil ft x = is_nil ft x' /\ is_empty_value ft x = is_empty_value ft x' /\
     encode C n ft ffl (S d) x = encode C n ft ffl (S d) x') ->
  kind_struct t = true -> encode C (S n) t fl d (VStruct l) = encode C (S n) t fl d (VStruct l').
Proof.
  intros UM H K. cbn [encode]. destruct (uses_marshaler_false t fl UM) as [E1 E2]. rewrite E1, E2. unfold kind_struct in K.
  destruct (under t); try discriminate. destruct (_ <? _)%nat; [reflexivity|]. do 2 f_equal.
  induction (sorted_fields t) as [|f s IH]; cbn [fold_right]; [reflexivity|].
  destruct (H f (or_introl eq_refl)) as (ft & ffl & x & x' & -> & -> & -> & -> & ->). rewrite IH by (intros g Hg; apply H; right; exact Hg). reflexivity.
Qed.
Lemma encode_meta_sha C n fl d m h : c_marsh C pieces_id = pieces_marshal -> single_file (m_info m) -> (d < 900)%nat ->
  encode C (S (S (S (S n)))) metainfo_ty fl d (metainfo_val m) = encode C (S (S (S (S n)))) metainfo_ty fl d (metainfo_val (with_info (with_sha1 h (m_info m)) m)).
Proof.
  intros HC Sf Hd. assert (forall i, single_file i -> forall fl', encode C (S (S (S n))) (TPtr info_ty) fl' (S d) (VPtr (info_val i)) = EOk (info_text i)) as E.
  { intros i Si fl'. change (encode C (S (S n)) info_ty (fl_elem fl') (S d) (info_val i) = EOk (info_text i)). apply encode_info; auto. lia. }
  apply encode_struct_ext; [reflexivity| |reflexivity]. intros f Hf. vm_compute in Hf.
  repeat (destruct Hf as [<-|Hf]; [cbn [f_index]; eexists _, _, _, _; split; [reflexivity|]; split; [reflexivity|]; split; [reflexivity|]; split; [reflexivity|]; first [reflexivity|cbn [metainfo_val with_info m_info]; rewrite E by exact Sf; rewrite E by exact Sf; reflexivity]|]).
  destruct Hf.
Qed.
Lemma fold_max_le {A} (f : A -> nat) l b : (forall x, In x l -> (f x <= b)%nat) -> (fold_right (fun x a => Nat.max (f x) a) O l <= b)%nat.
Proof. induction l as [|x l IH]; cbn; intros H; [lia|]. pose proof (H x (or_introl eq_refl)). assert (fold_right (fun x a => Nat.max (f x) a) O l <= b)%nat by auto. lia. Qed.
Lemma vdepth_info i : single_file i -> (vdepth (info_val i) <= 4)%nat.
Proof.
  intros Sf. unfold info_val. rewrite Sf. cbn [map slice_val]. cbn [vdepth]. apply le_n_S. apply fold_max_le. intros x Hx. cbn in Hx.
  assert (forall h, vdepth (hash_val h) <= 2)%nat as Hh.
  { intros h. cbn [hash_val vdepth]. apply le_n_S, fold_max_le. intros y Hy. apply in_map_iff in Hy as (b & <- & _). cbn. lia. }
  repeat (destruct Hx as [<-|Hx]; [try (cbn; lia)|]); [| |destruct Hx].
  - pose proof (Hh (i_sha1 i)). lia.
  - destruct (i_pieces i) as [|h hs]; [cbn; lia|]. cbn [pieces_val vdepth]. apply le_n_S. apply fold_max_le. intros y Hy. apply in_map_iff in Hy as (b & <- & _). apply Hh.
Qed.
Lemma vdepth_meta m : single_file (m_info m) -> (vdepth (metainfo_val m) <= 6)%nat.
Proof.
  intros Sf. unfold metainfo_val. cbn [vdepth]. apply le_n_S, fold_max_le. intros x Hx. cbn in Hx.
  repeat (destruct Hx as [<-|Hx]; [try (cbn; lia)|]); [| | |destruct Hx].
  - cbn [vdepth]. pose proof (vdepth_info _ Sf). lia.
  - destruct (m_announce_list m) as [|l ls]; [cbn; lia|]. cbn [slice_val map]. change (VSlice (strings_val l :: map strings_val ls)) with (VSlice (map strings_val (l :: ls))).
    cbn [vdepth]. apply le_n_S. apply Nat.le_trans with 2%nat; [|lia]. apply fold_max_le. intros y Hy. apply in_map_iff in Hy as (q & <- & _).
    cbn [strings_val vdepth]. apply le_n_S, fold_max_le. intros z Hz. apply in_map_iff in Hz as (b & <- & _). cbn. lia.
  - destruct (m_creation m); cbn; lia.
Qed.
Lemma no_maps_meta m : single_file (m_info m) -> no_maps (metainfo_val m).
Proof.
  intros Sf. pose proof (no_maps_info _ Sf) as NI. unfold metainfo_val. remember (info_val (m_info m)) as iv eqn:Ei. clear Ei.
  cbn [no_maps fold_right]. split; [exact NI|]. repeat split; try exact I.
  - destruct (m_announce_list m) as [|l ls]; [exact I|]. cbn [slice_val map]. change (VSlice (strings_val l :: map strings_val ls)) with (VSlice (map strings_val (l :: ls))).
    cbn [no_maps]. apply no_maps_all. intros y Hy. apply in_map_iff in Hy as (q & <- & _). cbn [strings_val no_maps]. apply no_maps_all. intros z Hz. apply in_map_iff in Hz as (b & <- & _). exact I.
  - destruct (m_creation m); cbn; auto.
Qed.
Theorem info_marshal_text C i : c_marsh C pieces_id = pieces_marshal -> single_file i -> marshal C (Some (TPtr info_ty, VPtr (info_val i))) = EOk (info_text i).
Proof.
  intros HC Sf. apply (marshal_eq C 6); [|cbn [vdepth]; pose proof (vdepth_info i Sf); lia].
  change (encode C 5 info_ty (fl_elem fl_root_val) 0 (info_val i) = EOk (info_text i)). apply encode_info; auto. lia.
Qed.
Lemma encode_meta_ptr C n fl d v : encode C (S n) (TPtr metainfo_ty) fl d (VPtr v) = encode C n metainfo_ty (fl_elem fl) d v.
Proof. reflexivity. Qed.
Section Final.
Variable sha1 : bytes -> bytes.
Theorem metainfo_round m : metainfo_fits m -> single_file (m_info m) ->
  exists b ib, marshal (meta_customs sha1) (Some (TPtr metainfo_ty, VPtr (metainfo_val m))) = EOk b /\
    marshal (meta_customs sha1) (Some (TPtr info_ty, VPtr (info_val (m_info m)))) = EOk ib /\
    unmarshal (meta_customs sha1) metainfo_ty (zero metainfo_ty) b =
      DOk (VPtr (metainfo_val (with_info (with_sha1 (sha1 ib) (m_info m)) m))) [] (zlen b).
Proof.
  intros F Sf. set (ib := info_text (m_info m)). set (m' := with_info (with_sha1 (sha1 ib) (m_info m)) m).
  assert (metainfo_fits m') as F' by exact F. assert (single_file (m_info m')) as S' by exact Sf.
  assert (i_sha1 (m_info m') = sha1 (info_text (m_info m'))) as Sh by reflexivity.
  pose proof (survives_metainfo sha1 m' F' S' Sh) as Sv.
  destruct (round_trip_pointer_total _ _ _ Sv) as (b & Hb).
  { intros N. apply (nest_vdepth _ _ _ _ _ (Nat.le_refl _)) in N. pose proof (vdepth_meta m' S'). lia. }
  exists b, ib. split; [|split].
  - apply (marshal_eq _ 8); [|cbn [vdepth]; pose proof (vdepth_meta m Sf); lia].
    rewrite encode_meta_ptr. rewrite (encode_meta_sha _ 3 _ _ _ (sha1 ib)); [|reflexivity|exact Sf|lia]. fold m'. rewrite <- encode_meta_ptr.
    rewrite <- Hb. symmetry. apply (marshal_eq _ 8); [|cbn [vdepth]; pose proof (vdepth_meta m' S'); lia]. exact (eq_refl _).
  - apply info_marshal_text; auto.
  - destruct (round_trip_pointer _ _ _ _ Sv Hb) as (v' & U & Sd). apply same_no_maps in Sd; [|apply no_maps_meta; exact S']. subst v'. exact U.
Qed.
End Final.

(** *** C25 *)
Lemma ready_metainfo : ready metainfo_ty (zero metainfo_ty).
Proof.
  eapply rd_struct; try reflexivity. intros j a ft x H1 H2. right.
  destruct j as [|[|[|[|[|[|[|j]]]]]]]; cbn in H1, H2; try (injection H1 as <- <-; injection H2 as <-); [| | | | | | |destruct j; discriminate].
  all: split; [left; reflexivity|]; split; [cbn; discriminate|].
  1: right; right; eexists; repeat split; apply rd_method; reflexivity.
  1,4-6: left; split; [reflexivity|]; apply rd_str; reflexivity.
  - left. split; [reflexivity|]. eapply rd_slice_nil; [reflexivity|]. eapply rd_slice_nil; [reflexivity|]. apply rd_str. reflexivity.
  - right; right; eexists; repeat split; apply rd_method; reflexivity.
Qed.
Lemma stands_for_info : stands_for metainfo_ty [0%nat] (bs "info") (TPtr info_ty).
Proof.
  split; [eexists; split; reflexivity|]. intros q (a & ft & L & K) N. destruct q as [|j [|j' q]]; [discriminate| |cbn; lia].
  exfalso. destruct j as [|[|[|[|[|[|[|j]]]]]]]; [congruence|..]; try (cbn in L; injection L as <- <-; discriminate K).
  cbn in L. destruct j; discriminate.
Qed.
Section Hash.
Variable sha1 : bytes -> bytes.
Lemma meta_unmarsh_info r b : c_unmarsh (meta_customs sha1) info_id r b = info_unmarshal sha1 r b.
Proof. reflexivity. Qed.
Lemma info_unmarshal_ok r b x : info_unmarshal sha1 r b = UOk x -> exists fields rest off f0,
  x = VStruct (hash_val (sha1 b) :: fields) /\ unmarshal leaf_customs info_copy_ty (zero info_copy_ty) b = DOk (VPtr (VStruct (f0 :: fields))) rest off.
Proof.
  unfold info_unmarshal. destruct r as [old|]; [|discriminate]. generalize (unmarshal leaf_customs info_copy_ty (zero info_copy_ty) b). intros d H.
  destruct d as [v0 r1 o1|v0 e| |]; try discriminate. destruct v0 as [| | | | | | | | | | |v1]; try discriminate.
  destruct v1 as [| | | | | | | | |fs| |]; try discriminate. destruct fs as [|f0 fs]; try discriminate. injection H as <-. eauto 8.
Qed.
Lemma ptr_custom_ok C n id ms u r v inp off y rest off' : m_unmarsh ms <> None -> r = VPtr v ->
  decode C n (TPtr (TNamed id ms u)) fl_root_val r inp off = DOk (VPtr y) rest off' ->
  exists out, inp = out ++ rest /\ c_unmarsh C id (Some v) out = UOk y.
Proof.
  intros M -> H. destruct n as [|n]; [discriminate|]. rewrite decode_S in H. cbn [is_ptr under negb andb impl] in H.
  destruct (m_unmarsh ms); [|congruence]. unfold dec_unmarshaler in H. cbn [fl_ro fl_root_val] in H.
  destruct (consume n inp off) as [out r0 o0| | |] eqn:R; try discriminate. apply consume_sound in R as (E & _ & _).
  destruct (c_unmarsh C id (Some v) out) eqn:Cu; try discriminate. injection H as <- <- <-. exists out. auto.
Qed.
Lemma info_decoded old ib x rest off : unmarshal (meta_customs sha1) info_ty old ib = DOk (VPtr x) rest off ->
  exists tx, ib = tx ++ rest /\ info_unmarshal sha1 (Some old) tx = UOk x.
Proof.
  intros H. apply unmarshal_run in H as (n & H). apply (ptr_custom_ok _ _ _ _ _ _ old) in H as (out & E & H); [|discriminate|reflexivity].
  exists out. split; [exact E|]. rewrite <- meta_unmarsh_info. exact H.
Qed.
Theorem info_hash b v rest off : unmarshal (meta_customs sha1) metainfo_ty (zero metainfo_ty) b = DOk (VPtr v) rest off ->
  exists ks kts ts iv others, ascending ks /\ Forall2 lax_str ks kts /\ List.length ts = List.length ks /\ Forall value_text ts /\
    b = "d"%byte :: concat (map (fun kt => fst kt ++ snd kt) (combine kts ts)) ++ "e"%byte :: rest /\
    v = VStruct (iv :: others) /\
    (~ In (bs "info") ks -> iv = VNil) /\
    (forall ib, In (bs "info", ib) (combine ks ts) -> exists fields, iv = VPtr (VStruct (hash_val (sha1 ib) :: fields))).
Proof.
  intros H. destruct (struct_reuse (meta_customs sha1) metainfo_ty (zero metainfo_ty) b v rest off eq_refl eq_refl ready_metainfo H)
    as (ks & kts & ts & A & Lk & Ll & Vt & E & Un & In').
  destruct (in_dec bytes_eq_dec (bs "info") ks) as [I|N].
  - assert (exists ib, In (bs "info", ib) (combine ks ts)) as (ib & Hib).
    { clear - I Ll. revert ts Ll. induction ks as [|k ks IH]; intros ts L; [destruct I|]. destruct ts as [|t ts]; [discriminate|].
      destruct I as [->|I]; [exists t; left; reflexivity|]. destruct (IH I ts) as (ib & ?); [cbn in L; lia|]. exists ib. right. assumption. }
    assert (forall ib, In (bs "info", ib) (combine ks ts) -> exists fields, field_at metainfo_ty [0%nat] v = Some (VPtr (VStruct (hash_val (sha1 ib) :: fields)))) as K.
    { intros ib' Hib'. destruct (In' _ _ _ _ stands_for_info eq_refl Hib') as (x' & U & F). cbn [deref_ty under] in U.
      apply info_decoded in U as (tx & Et & U). rewrite app_nil_r in Et. subst tx. apply info_unmarshal_ok in U as (fields & _ & _ & _ & -> & _). exists fields. exact F. }
    destruct (K ib Hib) as (fields & F). destruct v; try discriminate. cbn [field_at nth_error] in *. destruct l as [|iv others]; [discriminate|].
    exists ks, kts, ts, iv, others. repeat (split; [assumption|]). split; [reflexivity|]. split; [contradiction|].
    intros ib' H'. destruct (K ib' H') as (f' & F'). exists f'. congruence.
  - pose proof (Un _ _ _ stands_for_info N) as U. cbn [field_at] in U. change (zero metainfo_ty) with (VStruct [VNil; VStr []; VNil; VNil; VStr []; VStr []; VStr []]) in U.
    cbn [nth_error] in U. destruct U as [U|[U _]]; [|discriminate]. destruct v; try discriminate. destruct l as [|iv others]; [discriminate|]. cbn in U. injection U as ->.
    exists ks, kts, ts, VNil, others. repeat (split; [assumption|]). split; [reflexivity|]. split; [reflexivity|].
    intros ib Hib. exfalso. apply N. apply (in_combine_l _ _ _ _ Hib).
Qed.
End Hash.

(** *** C27 *)
Lemma files_slice C n fl old inp off v rest off' : old = VNil \/ old = VSlice [] ->
  decode C n (TSlice (TPtr file_ty)) fl old inp off = DOk v rest off' -> v = VSlice [].
Proof.
  intros Ho H. destruct n as [|n]; [discriminate|]. rewrite decode_S in H. cbn [is_ptr under negb andb impl ptr_impl kind_uint8] in H.
  assert (forall inp' o', decode_slice C n (TPtr file_ty) fl [] [] inp' o' = DOk v rest off' -> v = VSlice []) as K.
  { intros inp' o' K. destruct n as [|n]; [discriminate|]. rewrite decode_slice_S in K. destruct inp' as [|c inp']; [discriminate|].
    destruct (beqb c "e"); [injection K as <- _ _; reflexivity|]. destruct (settable fl); [|discriminate]. destruct n as [|n]; [discriminate|].
    rewrite decode_S in K. cbn [zero is_ptr under negb andb impl file_ty] in K. discriminate. }
  replace (if fl_addr fl then None else None) with (@None nat) in H by (destruct (fl_addr fl); reflexivity).
  destruct inp as [|c inp]; [discriminate|]. destruct (negb (beqb c "l")); [discriminate|].
  destruct Ho as [->| ->]; [destruct (settable fl); [|discriminate]|]; eapply K; exact H.
Qed.
Definition no_files (v : gval) : Prop := exists l, v = VStruct l /\ List.length l = 8%nat /\ (nth_error l 7 = Some VNil \/ nth_error l 7 = Some (VSlice [])).
Lemma ktf_info_copy k f : assoc k (key_to_field info_copy_ty) = Some f -> exists j, f_index f = [j].
Proof.
  intros H. assert (In f (map snd (key_to_field info_copy_ty))) as I.
  { revert H. generalize (key_to_field info_copy_ty). intros m. induction m as [|[k' f'] m IH]; cbn; [discriminate|].
    destruct (bytes_eqb k k'); [intros [= ->]; auto|auto]. }
  vm_compute in I. repeat (destruct I as [<-|I]; [eexists; reflexivity|]). destruct I.
Qed.
Lemma info_no_files C n : forall fl v lk inp off v' rest off', no_files v ->
  decode_struct C n info_copy_ty fl v lk inp off = DOk v' rest off' -> no_files v'.
Proof.
  induction n as [|n IH]; intros fl v lk inp off v' rest off' I H; [discriminate|]. rewrite decode_struct_S in H.
  destruct inp as [|c inp]; [discriminate|]. destruct (beqb c "e"); [injection H as <- _ _; exact I|].
  destruct (read_str (c :: inp) off) as [ls key r o|e|]; try discriminate. destruct (negb (bytes_ltb lk key)); [discriminate|].
  destruct (assoc key (key_to_field info_copy_ty)) as [f|] eqn:A.
  - destruct (path_get (f_index f) info_copy_ty fl v) as [[[ft ffl] x]|] eqn:PG; [|discriminate].
    destruct (decode C n ft ffl x r o) as [x' r' o'| | |] eqn:D; try discriminate. eapply IH; [|exact H].
    apply ktf_info_copy in A as (j & Ej). rewrite Ej in *. destruct I as (l & -> & L & N7).
    destruct (nth_error (struct_fields info_copy_ty) j) as [[a fty]|] eqn:Nf; [|cbn [path_get] in PG; rewrite Nf in PG; discriminate].
    destruct (nth_error l j) as [x0|] eqn:Nx; [|cbn [path_get] in PG; rewrite Nf, Nx in PG; discriminate].
    rewrite (path_get_one _ _ _ _ _ _ _ Nf Nx) in PG. rewrite (path_set_one _ _ _ _ _ _ _ Nf Nx).
    eexists. split; [reflexivity|]. split; [rewrite list_set_length; exact L|].
    destruct (Nat.eq_dec j 7) as [->|Nj]; [|rewrite list_set_nth_neq by exact Nj; exact N7].
    rewrite list_set_nth_eq by lia. cbn in Nf. injection Nf as <- <-. cbn [under] in *. injection PG as <- <- <-.
    right. apply files_slice in D; [subst; reflexivity|]. rewrite Nx in N7. destruct N7 as [[= ->]|[= ->]]; auto.
  - destruct (consume n r o) as [out r' o'| | |]; try discriminate. eapply IH; eauto.
Qed.
Lemma info_copy_no_files C inp v rest off : unmarshal C info_copy_ty (zero info_copy_ty) inp = DOk (VPtr v) rest off -> no_files v.
Proof.
  intros H. apply unmarshal_run in H as (n & H). destruct n as [|n]; [discriminate|]. rewrite decode_S in H.
  cbn [is_ptr under negb andb impl info_copy_ty m_unmarsh] in H. apply dmap_ok in H as (v1 & H & [= ->]).
  destruct n as [|n]; [discriminate|]. rewrite decode_S in H. cbn [is_ptr under negb andb impl ptr_impl m_unmarsh] in H.
  cbn [fl_addr fl_elem info_struct] in H. destruct inp as [|c inp]; [discriminate|]. destruct (negb (beqb c "d")); [discriminate|].
  eapply info_no_files; [|exact H]. eexists. split; [reflexivity|]. split; [reflexivity|]. left. reflexivity.
Qed.
Theorem files_never_decoded sha1 b v rest off : unmarshal (meta_customs sha1) info_ty (zero info_ty) b = DOk (VPtr v) rest off -> no_files v.
Proof.
  intros H. apply info_decoded in H as (tx & _ & H). apply info_unmarshal_ok in H as (fields & r & o & f0 & -> & H).
  apply info_copy_no_files in H as (l & [= <-] & L & N). exists (hash_val (sha1 tx) :: fields). split; [reflexivity|]. split; [exact L|exact N].
Qed.
