(** C01, C02, C07, C14: round trips, panics and decoding into used targets. *)
From Verif Require Import GoBase Strconv BencTypes BencFields BencEncode BencDecode BencSpec BencEncSpec BencFieldSpec
  BencRoundSpec BencPanicSpec BencReuseSpec GoBaseProofs BencSpecProofs BencFieldsProofs BencResolveProofs BencRoundProofs BencRoundTrip
  BencPanicProofs BencReuseProofs PropBencode.
From Coq Require Import Permutation.

(** ** C01 *)
Theorem C01_round_trip_value :
  forall C t v b, survives C t fl_root_val v -> marshal C (Some (t, v)) = EOk b ->
  exists v', unmarshal C t (zero t) b = DOk (VPtr v') [] (zlen b) /\ same_data v v'.
Proof. exact round_trip_value. Qed.
Print Assumptions C01_round_trip_value.
Theorem C01_round_trip_pointer :
  forall C t v b, survives C t fl_new v -> marshal C (Some (TPtr t, VPtr v)) = EOk b ->
  exists v', unmarshal C t (zero t) b = DOk (VPtr v') [] (zlen b) /\ same_data v v'.
Proof. exact round_trip_pointer. Qed.
Print Assumptions C01_round_trip_pointer.
(** Marshal does succeed on these values, unless they contain 1001 nested containers
    (see C09 for that limit). *)
Theorem C01_marshal_succeeds :
  forall C t v, survives C t fl_root_val v -> ~ nest 1001 t fl_root_val v -> exists b, marshal C (Some (t, v)) = EOk b.
Proof. exact round_trip_total. Qed.
Print Assumptions C01_marshal_succeeds.
Theorem C01_marshal_pointer_succeeds :
  forall C t v, survives C t fl_new v -> ~ nest 1001 t fl_new v -> exists b, marshal C (Some (TPtr t, VPtr v)) = EOk b.
Proof. exact round_trip_pointer_total. Qed.
Print Assumptions C01_marshal_pointer_succeeds.

(** struct { N int8; S string `bencode:"s,omitempty"`; M map[string][]string; P, Q *struct{B []byte}; Any any } *)
Definition rt_inner : gty := TStruct (bs "I") [(ex_field (bs "B") [], TSlice (TUint W8))].
Definition rt_ty : gty := TStruct (bs "T")
  [(ex_field (bs "N") [], TInt W8); (ex_field (bs "S") (bs "s,omitempty"), TStr);
   (ex_field (bs "M") [], TMap TStr (TSlice TStr));
   (ex_field (bs "P") [], TPtr rt_inner); (ex_field (bs "Q") [], TPtr rt_inner);
   (ex_field (bs "Any") (bs "any"), TAny)].
Definition rt_val : gval := VStruct
  [VInt (-128); VStr []; VMap [(bs "y", VSlice [VStr []; VStr (bs "z")]); (bs "x", VSlice [])];
   VNil; VPtr (VStruct [VBytes (bs "ab")]); VIface any_slice (VSlice [VIface (TInt WInt) (VInt 5)])].
Ltac sv_field := match goal with |- exists f, In f ?s /\ f_index f = ?p /\ _ =>
   let s' := eval vm_compute in s in
   let rec pick l := match l with ?f :: ?l' => first [exists f; split; [vm_compute; tauto|split; [reflexivity|vm_compute; reflexivity]] | pick l'] end in pick s' end.
Example C01_case : survives no_customs rt_ty fl_root_val rt_val /\
  marshal no_customs (Some (rt_ty, rt_val)) = EOk (bs "d3:anyli5ee1:md1:xle1:yl0:1:zee1:ni-128e1:qd1:b2:abee").
Proof.
  split; [|vm_compute; reflexivity].
  eapply sv_struct; try reflexivity.
  - intros a ft H. cbn in H. repeat (destruct H as [[= <- <-]|H]; [split; [reflexivity|split; [cbv; discriminate|cbv; discriminate]]|]). destruct H.
  - intros i a ft x H1 H2. destruct i as [|[|[|[|[|[|i]]]]]]; cbn in H1, H2; try (injection H1 as <- <-; injection H2 as <-); [| | | | | |destruct i; discriminate].
    + right. split; [reflexivity|]. split; [sv_field|]. left. split; [reflexivity|]. eapply sv_int; try reflexivity. cbv; intuition discriminate.
    + left. split; [reflexivity|]. intros f Hf Hi. vm_compute in Hf. repeat (destruct Hf as [<-|Hf]; [try discriminate Hi; vm_compute; reflexivity|]). destruct Hf.
    + right. split; [reflexivity|]. split; [sv_field|]. left. split; [reflexivity|]. eapply sv_map; try reflexivity.
      * repeat constructor; cbn; intuition discriminate.
      * repeat constructor; try discriminate; try (cbv; discriminate); eapply sv_slice; try reflexivity; repeat constructor; cbv; discriminate.
    + left. split; [reflexivity|]. intros f Hf Hi. vm_compute in Hf. repeat (destruct Hf as [<-|Hf]; [try discriminate Hi; vm_compute; reflexivity|]). destruct Hf.
    + right. split; [reflexivity|]. split; [sv_field|]. right. exists rt_inner. eexists. split; [reflexivity|]. split; [reflexivity|].
      eapply sv_struct; try reflexivity.
      * intros a ft H. cbn in H. repeat (destruct H as [[= <- <-]|H]; [split; [reflexivity|split; [cbv; discriminate|cbv; discriminate]]|]). destruct H.
      * intros i a ft x H1 H2. destruct i as [|i]; cbn in H1, H2; [injection H1 as <- <-; injection H2 as <-|destruct i; discriminate].
        right. split; [reflexivity|]. split; [sv_field|]. left. split; [reflexivity|]. eapply sv_bytes; try reflexivity. cbv; discriminate.
    + right. split; [reflexivity|]. split; [sv_field|]. left. split; [reflexivity|]. eapply sv_any; try reflexivity.
      eapply sv_slice; try reflexivity. constructor; [|constructor]. eapply sv_any; try reflexivity. eapply sv_int; try reflexivity. cbv; intuition discriminate.
Qed.
(** The conditions are needed: a map with an empty key, a pointer inside a slice and a
    slice holding a nil []byte do not come back. *)
Theorem C01_empty_key_refuted : exists t v b, marshal no_customs (Some (t, v)) = EOk b /\
  forall r rest off, unmarshal no_customs t (zero t) b <> DOk r rest off.
Proof.
  exists (TMap TStr (TInt WInt)), (VMap [([], VInt 1)]), (bs "d0:i1ee"). split; [vm_compute; reflexivity|].
  intros r rest off H. vm_compute in H. discriminate.
Qed.
Print Assumptions C01_empty_key_refuted.
Theorem C01_pointer_in_slice_refuted : exists t v b, marshal no_customs (Some (t, v)) = EOk b /\
  unmarshal no_customs t (zero t) b = DPanic.
Proof. exists (TSlice (TPtr (TInt WInt))), (VSlice [VPtr (VInt 1)]), (bs "li1ee"). split; vm_compute; reflexivity. Qed.
Print Assumptions C01_pointer_in_slice_refuted.

(** ** C02, in full: the output is the canonical text of the data the value stands for. *)
Theorem C02_marshal_denotes :
  forall C t v out, customs_canonical C -> no_nil v -> maps_distinct v -> marshal C (Some (t, v)) = EOk out ->
  exists bv, denotes C t fl_root_val v bv /\ bep3 bv out.
Proof. exact marshal_denotes. Qed.
Print Assumptions C02_marshal_denotes.
Example C02_denotes_case : denotes no_customs (TSlice TStr) fl_root_val (VSlice [VStr (bs "a"); VStr []]) (BList [BStr (bs "a"); BStr []])
  /\ marshal no_customs (Some (TSlice TStr, VSlice [VStr (bs "a"); VStr []])) = EOk (bs "l1:a0:e").
Proof. split; [|vm_compute; reflexivity]. eapply dn_slice; try reflexivity. repeat constructor. Qed.

(** ** C07 *)
(** Unmarshal panics only if the input contains a negative or impossible length. *)
Theorem C07_no_panic_partial :
  forall C t old inp, customs_no_panic C -> ready t old -> unmarshal C t old inp = DPanic -> bad_length inp.
Proof. intros C t old inp HC. exact (unmarshal_panic C HC t old inp). Qed.
Print Assumptions C07_no_panic_partial.
(** Such an input exists, even for the simplest target. *)
Theorem C07_negative_length_refuted : unmarshal no_customs TStr (VStr []) (bs "-1:") = DPanic.
Proof. vm_compute. reflexivity. Qed.
Print Assumptions C07_negative_length_refuted.
(** Targets that are not [ready]: a nil pointer appears in a fresh slice of pointers. *)
Theorem C07_pointer_slice_refuted :
  unmarshal no_customs (TSlice (TPtr ex_ty)) VNil (bs "ldee") = DPanic.
Proof. vm_compute. reflexivity. Qed.
Print Assumptions C07_pointer_slice_refuted.
Definition err_customs : customs := {| c_marsh := fun _ _ => Panic; c_unmarsh := fun _ r _ => match r with Some v => UErr v | None => UPanic end |}.
Definition rt_used : gval := VStruct
  [VInt 1; VStr (bs "s"); VMap [(bs "y", VSlice [VStr []; VStr (bs "z")])];
   VNil; VPtr (VStruct [VBytes (bs "ab")]); VIface (TPtr rt_inner) (VPtr (VStruct [VNil]))].
Example C07_case : customs_no_panic err_customs /\ ready rt_ty (zero rt_ty) /\ ready rt_ty rt_used.
Proof.
  split; [intros ? ? ? H; discriminate|].
  assert (Ri : forall x, ready rt_inner (VStruct [x])).
  { intros x. eapply rd_struct; try reflexivity. intros i a ft y H1 H2. destruct i as [|i]; cbn in H1, H2; [injection H1 as <- <-; injection H2 as <-|destruct i; discriminate].
    right. split; [left; reflexivity|]. split; [discriminate|]. left. split; [reflexivity|]. eapply rd_bytes; reflexivity. }
  assert (A : forall n s m p q y, (p = VNil \/ exists x, p = VPtr (VStruct [x])) -> (q = VNil \/ exists x, q = VPtr (VStruct [x])) -> ready TAny y ->
      ready rt_ty (VStruct [n; s; m; p; q; y])).
  { intros n s m p q y Hp Hq Hy. eapply rd_struct; try reflexivity.
    intros i a ft x H1 H2. destruct i as [|[|[|[|[|[|i]]]]]]; cbn in H1, H2; try (injection H1 as <- <-; injection H2 as <-); [| | | | | |destruct i; discriminate];
    right; (split; [left; reflexivity|]); (split; [discriminate|]).
    - left. split; [reflexivity|]. eapply rd_int. reflexivity.
    - left. split; [reflexivity|]. apply rd_str. reflexivity.
    - left. split; [reflexivity|]. eapply rd_map; [reflexivity|]. eapply rd_slice_nil; [reflexivity|]. apply rd_str. reflexivity.
    - right. destruct Hp as [->|[x ->]]; [right; exists rt_inner|left; exists rt_inner, (VStruct [x])]; auto.
      split; [reflexivity|]. split; [reflexivity|]. apply Ri.
    - right. destruct Hq as [->|[x ->]]; [right; exists rt_inner|left; exists rt_inner, (VStruct [x])]; auto.
      split; [reflexivity|]. split; [reflexivity|]. apply Ri.
    - left. split; [reflexivity|]. exact Hy. }
  split.
  - apply A; auto. apply rd_any_nil. reflexivity.
  - apply A; eauto. apply rd_iface; [left; reflexivity|apply Ri].
Qed.

(** ** C14 *)
(** Structs: every absent key leaves its field alone; every present key decodes its
    value, over the old content, into its field. *)
Theorem C14_struct_partial :
  forall C t old inp v' rest off, kind_struct t = true -> has_unmarshaler t = false -> ready t old ->
  unmarshal C t old inp = DOk (VPtr v') rest off ->
  exists ks kts ts, ascending ks /\ Forall2 lax_str ks kts /\ List.length ts = List.length ks /\ Forall value_text ts /\
    inp = "d"%byte :: concat (map (fun kt => fst kt ++ snd kt) (combine kts ts)) ++ "e"%byte :: rest /\
    (forall p k ft, stands_for t p k ft -> ~ In k ks -> untouched ft (field_at t p old) (field_at t p v')) /\
    (forall p k ft tx, stands_for t p k ft -> is_ptr (deref_ty ft) = false -> In (k, tx) (combine ks ts) ->
        exists x', unmarshal C (deref_ty ft) (content ft (field_at t p old)) tx = DOk (VPtr x') [] (zlen tx) /\
          field_at t p v' = Some (stored ft x')).
Proof. exact struct_reuse. Qed.
Print Assumptions C14_struct_partial.
Example C14_struct_case : kind_struct rt_ty = true /\ has_unmarshaler rt_ty = false /\
  unmarshal err_customs rt_ty rt_used (bs "d1:ni7e1:pd1:b1:xee") = DOk (VPtr (VStruct
    [VInt 7; VStr (bs "s"); VMap [(bs "y", VSlice [VStr []; VStr (bs "z")])];
     VPtr (VStruct [VBytes (bs "x")]); VPtr (VStruct [VBytes (bs "ab")]); VIface (TPtr rt_inner) (VPtr (VStruct [VNil]))])) [] 19.
Proof. repeat split; vm_compute; reflexivity. Qed.

(** Slices: the first elements are decoded (over the old ones), the others stay. *)
Theorem C14_slice_partial :
  forall C et old l inp v' rest off, is_ptr et = false -> kind_uint8 et = false ->
  (old = VSlice l \/ old = VNil /\ l = []) ->
  unmarshal C (TSlice et) old inp = DOk (VPtr v') rest off ->
  exists ts l', inp = "l"%byte :: concat ts ++ "e"%byte :: rest /\ List.length l' = List.length ts /\
    v' = VSlice (l' ++ skipn (List.length ts) l) /\
    forall i tx x, nth_error ts i = Some tx -> nth_error l' i = Some x ->
      unmarshal C et (nth i l (zero et)) tx = DOk (VPtr x) [] (zlen tx).
Proof. exact slice_reuse. Qed.
Print Assumptions C14_slice_partial.
Example C14_slice_case : unmarshal no_customs (TSlice TStr) (VSlice [VStr (bs "q")]) (bs "l1:a1:be") = DOk (VPtr (VSlice [VStr (bs "a"); VStr (bs "b")])) [] 8.
Proof. vm_compute. reflexivity. Qed.
(** So a longer old slice is not cut: the result has elements the input has not. *)
Theorem C14_slice_refuted :
  unmarshal no_customs (TSlice (TInt WInt)) (VSlice [VInt 5; VInt 6; VInt 7]) (bs "li1ee") = DOk (VPtr (VSlice [VInt 1; VInt 6; VInt 7])) [] 5.
Proof. vm_compute. reflexivity. Qed.
Print Assumptions C14_slice_refuted.

(** Maps: keys of the input get freshly decoded values, other entries stay. *)
Theorem C14_map :
  forall C kt et old m inp v' rest off, kind_string kt = true -> (old = VMap m \/ old = VNil /\ m = []) ->
  unmarshal C (TMap kt et) old inp = DOk (VPtr v') rest off ->
  exists ks kts ts m', ascending ks /\ Forall2 lax_str ks kts /\ List.length ts = List.length ks /\
    inp = "d"%byte :: concat (map (fun kt => fst kt ++ snd kt) (combine kts ts)) ++ "e"%byte :: rest /\
    v' = VMap m' /\ (forall k, ~ In k ks -> assoc k m' = assoc k m) /\
    (forall k tx, In (k, tx) (combine ks ts) -> exists x, unmarshal C et (zero et) tx = DOk (VPtr x) [] (zlen tx) /\ assoc k m' = Some x).
Proof. exact map_reuse. Qed.
Print Assumptions C14_map.
Example C14_map_case : unmarshal no_customs (TMap TStr (TInt WInt)) (VMap [(bs "a", VInt 1); (bs "z", VInt 2)]) (bs "d1:ai9e1:bi3ee")
  = DOk (VPtr (VMap [(bs "a", VInt 9); (bs "z", VInt 2); (bs "b", VInt 3)])) [] 14.
Proof. vm_compute. reflexivity. Qed.
