(** C02-C06, C08-C13: the bencode package as its users see it. *)
From Verif Require Import GoBase Strconv BencTypes BencFields BencEncode BencDecode BencSpec BencEncSpec BencFieldSpec GoBaseProofs
  BencSpecProofs BencFieldsProofs BencResolveProofs BencFuelProofs BencDepthProofs BencApiProofs.
From Coq Require Import Permutation.

(** *** Example types and values *)
Definition ex_field (name tag : bytes) : fattr := {| fa_name := name; fa_tag := tag; fa_anon := false; fa_exp := true |}.
Definition ex_embed (name : bytes) : fattr := {| fa_name := name; fa_tag := []; fa_anon := true; fa_exp := true |}.
(** struct { Zed int; Name string `bencode:"a,omitempty"`; Tags map[string]int; Raw RawMessage } *)
Definition ex_ty : gty := TStruct (bs "T")
  [(ex_field (bs "Zed") [], TInt WInt); (ex_field (bs "Name") (bs "a,omitempty"), TStr);
   (ex_field (bs "Tags") [], TMap TStr (TInt WInt)); (ex_field (bs "List") [], TSlice TStr)].
Definition ex_val : gval := VStruct
  [VInt (-7); VStr []; VMap [(bs "y", VInt 2); (bs "x", VInt 1)]; VSlice [VStr (bs "p"); VStr (bs "")]].
Definition ex_val' : gval := VStruct
  [VInt (-7); VStr []; VMap [(bs "x", VInt 1); (bs "y", VInt 2)]; VSlice [VStr (bs "p"); VStr (bs "")]].
Definition ex_out : bytes := bs "d4:listl1:p0:e4:tagsd1:xi1e1:yi2ee3:zedi-7ee".

(** ** C02 *)
Theorem C02_marshal_canonical :
  forall C t v out, customs_canonical C -> no_nil v -> maps_distinct v ->
  marshal C (Some (t, v)) = EOk out -> exists bv, bep3 bv out.
Proof. exact marshal_canonical. Qed.
Print Assumptions C02_marshal_canonical.
Definition no_customs : customs := {| c_marsh := fun _ _ => Panic; c_unmarsh := fun _ _ _ => UPanic |}.
Example C02_case : customs_canonical no_customs /\ no_nil ex_val /\ maps_distinct ex_val /\
  marshal no_customs (Some (ex_ty, ex_val)) = EOk ex_out.
Proof.
  split; [intros ? ? ? H; discriminate|]. split; [cbn; tauto|]. split; [|vm_compute; reflexivity].
  cbn. repeat split; auto. repeat constructor; cbn; intuition discriminate.
Qed.
(** The side condition on nil elements is needed: Marshal(map[string]any{"a": nil})
    succeeds with text that is not bencoding. *)
Theorem C02_nil_element_refuted :
  exists t v out, maps_distinct v /\ marshal no_customs (Some (t, v)) = EOk out /\ forall bv, ~ bep3 bv out.
Proof.
  exists any_map, (VMap [(bs "a", VNil)]), (bs "d1:ae"). split; [repeat constructor; cbn; tauto|]. split; [vm_compute; reflexivity|].
  exact not_bep3_dangling_key.
Qed.
Print Assumptions C02_nil_element_refuted.

(** ** C03 *)
Theorem C03_map_order_irrelevant :
  forall C t v v', customs_order_free C -> same_data v v' -> marshal C (Some (t, v)) = marshal C (Some (t, v')).
Proof. exact marshal_order_free. Qed.
Print Assumptions C03_map_order_irrelevant.
Example C03_case : customs_order_free no_customs /\ same_data ex_val ex_val' /\ ex_val <> ex_val'.
Proof.
  split; [intros ? ? ? ?; reflexivity|]. split; [|discriminate].
  unfold ex_val, ex_val'. apply sd_struct. constructor; [apply sd_refl|]. constructor; [apply sd_refl|]. constructor; [|constructor; [apply sd_refl|constructor]].
  eapply sd_map with (m1 := [(bs "x", VInt 1); (bs "y", VInt 2)]).
  - repeat constructor; cbn; intuition discriminate.
  - apply perm_swap.
  - repeat constructor.
Qed.

(** ** C04 *)
Theorem C04_canonical_decodes_and_reencodes :
  forall C bv b, bep3 bv b -> b_all (fun z => - 2 ^ 63 <= z < 2 ^ 63) (fun k => k <> []) bv -> b_small bv -> (bdepth bv <= 1000)%nat ->
  exists dt dv, unmarshal C TAny VNil b = DOk (VPtr (VIface dt dv)) [] (zlen b) /\ marshal C (Some (dt, dv)) = EOk b.
Proof. exact canonical_any. Qed.
Print Assumptions C04_canonical_decodes_and_reencodes.
Example C04_case : exists bv, bep3 bv (bs "d1:ali-3e0:e2:bbdee") /\
  b_all (fun z => - 2 ^ 63 <= z < 2 ^ 63) (fun k => k <> []) bv /\ b_small bv /\ (bdepth bv <= 1000)%nat.
Proof.
  assert (marshal no_customs (Some (any_map, VMap [(bs "a", VIface any_slice (VSlice [VIface (TInt WInt) (VInt (-3)); VIface TStr (VStr [])])); (bs "bb", VIface any_map (VMap []))]))
     = EOk (bs "d1:ali-3e0:e2:bbdee")) as E by (vm_compute; reflexivity).
  exists (BDict [(bs "a", BList [BInt (-3); BStr []]); (bs "bb", BDict [])]). split; [|cbn; repeat split; try lia; try discriminate].
  change (bs "d1:ali-3e0:e2:bbdee") with ("d"%byte :: concat (map (fun kt => fst kt ++ snd kt)
     (combine [bs "1:a"; bs "2:bb"] [bs "li-3e0:e"; bs "de"])) ++ ["e"%byte]).
  apply bep3_dict.
  - repeat constructor.
  - repeat constructor; [exists (bs "1")|exists (bs "2")]; (split; [left; cbn; repeat split; lia|reflexivity]).
  - constructor; [|constructor; [|constructor]].
    + change (bs "li-3e0:e") with ("l"%byte :: concat [bs "i-3e"; bs "0:"] ++ ["e"%byte]). apply bep3_list. constructor; [|constructor; [|constructor]].
      * apply (bep3_int (-3) (bs "-3")). right. split; [lia|]. exists (bs "3"). repeat split.
      * apply bep3_str. exists (bs "0"). split; [left; cbn; repeat split; lia|reflexivity].
    + change (bs "de") with ("d"%byte :: concat (map (fun kt => fst kt ++ snd kt) (combine (@nil bytes) (@nil bytes))) ++ ["e"%byte]).
      apply bep3_dict; repeat constructor.
Qed.
(** Without the side condition on keys it is false: the dictionary with the empty key
    is canonical BEP-3 (and Marshal produces it) but is rejected. *)
Theorem C04_empty_key_refuted :
  exists bv b e v, bep3 bv b /\ marshal no_customs (Some (any_map, VMap [([], VIface (TInt WInt) (VInt 1))])) = EOk b /\
    unmarshal no_customs TAny VNil b = DErr v e.
Proof.
  exists (BDict [([], BInt 1)]), (bs "d0:i1ee"), DUnsorted, (VPtr VNil). split; [|split; vm_compute; reflexivity].
  change (bs "d0:i1ee") with ("d"%byte :: concat (map (fun kt => fst kt ++ snd kt) (combine [bs "0:"] [bs "i1e"])) ++ ["e"%byte]).
  apply bep3_dict; [repeat constructor| |].
  - constructor; [|constructor]. exists (bs "0"). split; [left; cbn; repeat split; lia|reflexivity].
  - constructor; [|constructor]. apply (bep3_int 1 (bs "1")). left. cbn. repeat split; lia.
Qed.
Print Assumptions C04_empty_key_refuted.

(** ** C05 *)
(** At any position reached by the decoder, a defined type with an
    UnmarshalBencoding method gets exactly the bytes of the next item, and decoding
    goes on directly behind them. *)
Theorem C05_method_gets_exact_bytes :
  forall C id ms u old out bv rest n fl off,
  m_unmarsh ms <> None -> is_ptr u = false -> settable fl = true -> lax bv out -> (2 * List.length out + 2 <= n)%nat ->
  decode C n (TNamed id ms u) fl old (out ++ rest) off =
    match c_unmarsh C id (Some old) out with
    | UOk v => DOk v rest (off + zlen out)
    | UErr v => DErr v DUser
    | UPanic => DPanic
    end.
Proof. exact custom_exact. Qed.
Print Assumptions C05_method_gets_exact_bytes.
(** ... and it is never called with anything else. *)
Theorem C05_method_gets_only_items :
  forall C id ms u old inp n fl off v rest off',
  m_unmarsh ms <> None -> is_ptr u = false -> fl_addr fl = true ->
  decode C n (TNamed id ms u) fl old inp off = DOk v rest off' ->
  exists out, inp = out ++ rest /\ off' = off + zlen out /\ (exists bv, lax bv out) /\ c_unmarsh C id (Some old) out = UOk v.
Proof. exact custom_only. Qed.
Print Assumptions C05_method_gets_only_items.
(** RawMessage: Unmarshal stores the item's bytes, Marshal of its address writes them back. *)
Theorem C05_raw_message :
  forall inp out rest bv, inp = out ++ rest -> lax bv out ->
  unmarshal raw_customs raw_message VNil inp = DOk (VPtr (VBytes out)) rest (zlen out) /\
  marshal raw_customs (Some (TPtr raw_message, VPtr (VBytes out))) = EOk out.
Proof. exact raw_round. Qed.
Print Assumptions C05_raw_message.
(** struct { A RawMessage; B int }: the message captures a non-canonical item. *)
Definition ex_raw_ty : gty := TStruct (bs "R") [(ex_field (bs "A") [], raw_message); (ex_field (bs "B") [], TInt WInt)].
Example C05_case :
  unmarshal raw_customs ex_raw_ty (zero ex_raw_ty) (bs "d1:ad03:xyzi+5ee1:bi4eeTAIL")
  = DOk (VPtr (VStruct [VBytes (bs "d03:xyzi+5ee"); VInt 4])) (bs "TAIL") 23
  /\ exists bv, lax bv (bs "d03:xyzi+5ee").
Proof.
  split; [vm_compute; reflexivity|]. exists (BDict [(bs "xyz", BInt 5)]).
  change (bs "d03:xyzi+5ee") with ("d"%byte :: concat (map (fun kt => fst kt ++ snd kt) (combine [bs "03:xyz"] [bs "i+5e"])) ++ ["e"%byte]).
  apply gram_dict.
  - repeat constructor.
  - constructor; [|constructor]. exists (bs "03"). repeat split; [|cbn; lia]. exists [], (bs "03"). cbn. intuition (try lia; try discriminate).
  - constructor; [|constructor]. apply (gram_int _ _ 5 (bs "+5")).
    + left. exists (bs "+"), (bs "5"). cbn. intuition (try lia; try discriminate).
    + intros [(c & n' & H)|(n' & H)]; discriminate.
Qed.

(** ** C06 *)
(** [consume] is what skips unknown keys, surplus array elements and the input of
    UnmarshalBencoding methods (decode.go:91,389,485). *)
Theorem C06_skip_iff_decode :
  forall C inp rest off off',
  (exists n out, consume n inp off = COk out rest off') <->
  (exists n v, decode C n TAny fl_new VNil inp off = DOk v rest off').
Proof. exact skip_iff_decode. Qed.
Print Assumptions C06_skip_iff_decode.
(** The same through the API: an unknown key's value is skipped if and only if it
    could be decoded into [any], and the rest of the dictionary follows at the same
    place; RawMessage observes the skipped bytes. *)
Theorem C06_raw_iff_any :
  forall inp rest off,
  (exists v, unmarshal raw_customs raw_message VNil inp = DOk v rest off) <->
  (exists v, unmarshal raw_customs TAny VNil inp = DOk v rest off).
Proof. exact raw_iff_any. Qed.
Print Assumptions C06_raw_iff_any.
Theorem C06_unknown_key :
  forall C name fs k kt b rest inp0, let t := TStruct name fs in
  assoc k (key_to_field t) = None -> k <> [] -> lax_str k kt -> inp0 = "d"%byte :: kt ++ b ++ "e"%byte :: rest ->
  (exists v, unmarshal C TAny VNil b = DOk v [] (zlen b)) ->
  forall old, unmarshal C t old inp0 = DOk (VPtr old) rest (zlen kt + zlen b + 2).
Proof. exact unknown_key_skipped. Qed.
Print Assumptions C06_unknown_key.
Theorem C06_unknown_key_bad_value :
  forall C name fs k kt b inp0, let t := TStruct name fs in
  assoc k (key_to_field t) = None -> k <> [] -> lax_str k kt -> inp0 = "d"%byte :: kt ++ b ->
  (forall v rest off, unmarshal C TAny VNil b <> DOk v rest off) ->
  forall old v rest off, unmarshal C t old inp0 <> DOk v rest off.
Proof. exact unknown_key_bad. Qed.
Print Assumptions C06_unknown_key_bad_value.
Example C06_case :
  assoc (bs "q") (key_to_field ex_ty) = None /\ lax_str (bs "q") (bs "1:q") /\
  (exists v, unmarshal no_customs TAny VNil (bs "li1ed1:a0:ee") = DOk v [] 12) /\
  (forall v rest off, unmarshal no_customs TAny VNil (bs "li01ee") <> DOk v rest off).
Proof.
  split; [vm_compute; reflexivity|]. split.
  { exists (bs "1"). repeat split; [|cbn; lia]. exists [], (bs "1"). cbn. intuition (try lia; try discriminate). }
  split; [eexists; vm_compute; reflexivity|]. intros v rest off H. vm_compute in H. discriminate.
Qed.

(** ** C08 *)
Theorem C08_terminates :
  forall C t old inp, unmarshal C t old inp <> DFuel.
Proof. exact unmarshal_no_fuel. Qed.
Print Assumptions C08_terminates.
(** More fuel never changes the answer, so [unmarshal]'s choice of fuel is immaterial. *)
Theorem C08_fuel_immaterial :
  forall C n t old inp r, decode C n (TPtr t) fl_root_val (VPtr old) inp 0 = r -> r <> DFuel -> unmarshal C t old inp = r.
Proof. exact unmarshal_eq. Qed.
Print Assumptions C08_fuel_immaterial.
(** On success the offset is the number of bytes consumed, and the outcome does not
    depend on anything behind them. *)
Theorem C08_offset_and_no_overread :
  forall C t old inp v rest off, unmarshal C t old inp = DOk v rest off ->
  exists out, inp = out ++ rest /\ off = zlen out /\ forall rest', unmarshal C t old (out ++ rest') = DOk v rest' off.
Proof. exact unmarshal_offset. Qed.
Print Assumptions C08_offset_and_no_overread.
Example C08_case : exists v, unmarshal no_customs ex_ty (zero ex_ty) (ex_out ++ bs "junk") = DOk v (bs "junk") 44.
Proof. eexists. vm_compute. reflexivity. Qed.

(** ** C09 *)
Theorem C09_depth_limit_exact :
  forall C t v,
  (marshal C (Some (t, v)) <> EFuel) /\
  (forall out, marshal C (Some (t, v)) = EOk out -> ~ nest 1001 t fl_root_val v) /\
  (depth_err (marshal C (Some (t, v))) -> nest 1001 t fl_root_val v).
Proof. exact depth_exact. Qed.
Print Assumptions C09_depth_limit_exact.
(** [nested n]: n+1 slices around an integer, all of type []any. *)
Fixpoint nested (n : nat) : gval :=
  match n with
  | O => VIface (TInt WInt) (VInt 0)
  | S n' => VIface any_slice (VSlice [nested n'])
  end.
Example C09_case :
  depth_err (marshal no_customs (Some (TAny, nested 1001))) /\
  exists out, marshal no_customs (Some (TAny, nested 1000)) = EOk out.
Proof. split; [eexists; eexists; vm_compute; reflexivity|eexists; vm_compute; reflexivity]. Qed.

(** ** C10 *)
(** [has_key t p k]: field path [p] is a candidate for key [k] (BencFieldSpec.v).
    [sorted_fields t] are the fields Marshal emits, [key_to_field t] the table
    Unmarshal looks keys up in. *)
Theorem C10_keys_ascend_without_duplicates :
  forall t, ascending (map f_key (sorted_fields t)).
Proof. exact sorted_fields_ascending. Qed.
Print Assumptions C10_keys_ascend_without_duplicates.
Theorem C10_shallowest_wins :
  forall t p k, kind_struct t = true -> has_key t p k ->
  exists f, assoc k (key_to_field t) = Some f /\ has_key t (f_index f) k /\ (List.length (f_index f) <= List.length p)%nat.
Proof. exact resolve_shallow. Qed.
Print Assumptions C10_shallowest_wins.
Theorem C10_unique_shallowest_is_emitted_and_decoded :
  forall t p k, kind_struct t = true -> has_key t p k ->
  (forall q, has_key t q k -> q <> p -> (List.length p < List.length q)%nat) ->
  exists f, In f (sorted_fields t) /\ assoc k (key_to_field t) = Some f /\ f_key f = k /\ f_index f = p.
Proof. exact resolve_unique_emitted. Qed.
Print Assumptions C10_unique_shallowest_is_emitted_and_decoded.
Theorem C10_emitted_fields_are_candidates :
  forall t f, In f (sorted_fields t) -> has_key t (f_index f) (f_key f) /\ assoc (f_key f) (key_to_field t) = Some f.
Proof. exact emitted_candidate. Qed.
Print Assumptions C10_emitted_fields_are_candidates.
(** struct { A; X int } with A struct { X int; Y int }: the outer X hides A.X. *)
Definition ex_hide : gty := TStruct (bs "S")
  [(ex_embed (bs "A"), TStruct (bs "A") [(ex_field (bs "X") [], TInt WInt); (ex_field (bs "Y") [], TInt WInt)]);
   (ex_field (bs "X") [], TInt WInt)].
Example C10_case :
  has_key ex_hide [1%nat] (bs "x") /\ has_key ex_hide [0%nat; 0%nat] (bs "x") /\
  marshal no_customs (Some (ex_hide, VStruct [VStruct [VInt 1; VInt 2]; VInt 3])) = EOk (bs "d1:xi3e1:yi2ee").
Proof. split; [eexists; eexists; split; vm_compute; reflexivity|]. split; [eexists; eexists; split; vm_compute; reflexivity|vm_compute; reflexivity]. Qed.
(** Refuted part 1: of two candidates at the same depth the only tagged one should
    win, but when its Go name equals the untagged one's, the key is dropped.
    struct { A; B }, A struct { X int }, B struct { X int `bencode:"x"` }. *)
Definition ex_tagged : gty := TStruct (bs "S")
  [(ex_embed (bs "A"), TStruct (bs "A") [(ex_field (bs "X") [], TInt WInt)]);
   (ex_embed (bs "B"), TStruct (bs "B") [(ex_field (bs "X") (bs "x"), TInt WInt)])].
Theorem C10_single_tagged_wins_refuted :
  exists t v p q a ft, leaf_at t p = Some (a, ft) /\ field_key a = bs "x" /\ field_tag a = bs "x" /\
    (forall p', has_key t p' (bs "x") -> p' = p \/ p' = q) /\ List.length q = List.length p /\
    (exists a' ft', leaf_at t q = Some (a', ft') /\ field_tag a' = []) /\
    marshal no_customs (Some (t, v)) = EOk (bs "de").
Proof. exact (tagged_refuted _ eq_refl). Qed.
Print Assumptions C10_single_tagged_wins_refuted.
(** Refuted part 2: an ambiguous key is not emitted, but it is decoded.
    struct { A; B }, A struct { X int }, B struct { X int }. *)
Definition ex_ambiguous : gty := TStruct (bs "S")
  [(ex_embed (bs "A"), TStruct (bs "A") [(ex_field (bs "X") [], TInt WInt)]);
   (ex_embed (bs "B"), TStruct (bs "B") [(ex_field (bs "X") [], TInt WInt)])].
Theorem C10_ambiguous_not_decoded_refuted :
  marshal no_customs (Some (ex_ambiguous, VStruct [VStruct [VInt 1]; VStruct [VInt 2]])) = EOk (bs "de") /\
  unmarshal no_customs ex_ambiguous (zero ex_ambiguous) (bs "d1:xi5ee") = DOk (VPtr (VStruct [VStruct [VInt 5]; VStruct [VInt 0]])) [] 8.
Proof. split; vm_compute; reflexivity. Qed.
Print Assumptions C10_ambiguous_not_decoded_refuted.

(** ** C11 *)
Theorem C11_unsorted_rejected :
  forall C bv t, any_order bv t -> ~ b_sorted bv ->
  forall ty old rest v rest' off', unmarshal C ty old (t ++ rest) <> DOk v rest' off'.
Proof. exact unsorted_rejected. Qed.
Print Assumptions C11_unsorted_rejected.
Example C11_case : exists bv, any_order bv (bs "ld1:bi1e1:ai2eee") /\ ~ b_sorted bv.
Proof.
  exists (BList [BDict [(bs "b", BInt 1); (bs "a", BInt 2)]]). split.
  - change (bs "ld1:bi1e1:ai2eee") with ("l"%byte :: concat ["d"%byte :: concat (map (fun kt => fst kt ++ snd kt) (combine [bs "1:b"; bs "1:a"] [bs "i1e"; bs "i2e"])) ++ ["e"%byte]] ++ ["e"%byte]).
    apply gram_list. constructor; [|constructor]. apply gram_dict; [exact I| |].
    + constructor; [|constructor; [|constructor]]; exists (bs "1"); (repeat split; [|cbn; lia]); exists [], (bs "1"); cbn; intuition (try lia; try discriminate).
    + constructor; [|constructor; [|constructor]]; [apply (gram_int _ _ 1 (bs "1"))|apply (gram_int _ _ 2 (bs "2"))];
        try (left; eexists [], _; cbn; intuition (try lia; try discriminate; try reflexivity)).
      all: intros [(c & n' & H)|(n' & H)]; discriminate.
  - cbn. intros [[H _] _]. apply Sorted.StronglySorted_inv in H as [H _]. apply Sorted.StronglySorted_inv in H as [_ H].
    inversion H as [|? ? H1 _]; subst. vm_compute in H1. discriminate.
Qed.

(** ** C12 *)
(** Full statement: the stored value is the integer in the input.  Proved: it is that
    integer reduced to the target's width, hence equal whenever it is in range, and
    always for 64-bit targets. *)
Theorem C12_int_partial :
  forall C w old inp v rest off, unmarshal C (TInt w) old inp = DOk (VPtr (VInt v)) rest off ->
  exists z txt, inp = "i"%byte :: txt ++ "e"%byte :: rest /\ go_int z txt /\ v = wrap_s (iw_bits w) z /\
    (- 2 ^ (iw_bits w - 1) <= z < 2 ^ (iw_bits w - 1) -> v = z).
Proof. exact int_exact. Qed.
Print Assumptions C12_int_partial.
Theorem C12_uint_partial :
  forall C w old inp v rest off, unmarshal C (TUint w) old inp = DOk (VPtr (VUint v)) rest off ->
  exists z txt, inp = "i"%byte :: txt ++ "e"%byte :: rest /\ go_uint z txt /\ v = wrap_u (iw_bits w) z /\
    (0 <= z < 2 ^ iw_bits w -> v = z).
Proof. exact uint_exact. Qed.
Print Assumptions C12_uint_partial.
Theorem C12_int64 :
  forall C old inp v rest off w, w = WInt \/ w = W64 -> unmarshal C (TInt w) old inp = DOk (VPtr (VInt v)) rest off ->
  exists txt, inp = "i"%byte :: txt ++ "e"%byte :: rest /\ go_int v txt.
Proof. exact int64_exact. Qed.
Print Assumptions C12_int64.
Theorem C12_uint64 :
  forall C old inp v rest off w, w = WInt \/ w = W64 -> unmarshal C (TUint w) old inp = DOk (VPtr (VUint v)) rest off ->
  exists txt, inp = "i"%byte :: txt ++ "e"%byte :: rest /\ go_uint v txt.
Proof. exact uint64_exact. Qed.
Print Assumptions C12_uint64.
Theorem C12_refuted :
  unmarshal no_customs (TUint W8) (VUint 0) (bs "i300e") = DOk (VPtr (VUint 44)) [] 5 /\
  unmarshal no_customs (TInt W8) (VInt 0) (bs "i200e") = DOk (VPtr (VInt (-56))) [] 5.
Proof. split; vm_compute; reflexivity. Qed.
Print Assumptions C12_refuted.
Example C12_case : unmarshal no_customs (TInt W16) (VInt 9) (bs "i-300eX") = DOk (VPtr (VInt (-300))) (bs "X") 6.
Proof. vm_compute. reflexivity. Qed.

(** ** C13 *)
Theorem C13_stream :
  forall C items rest off,
  Forall (fun x : (gty * gval) * bytes * gval =>
            let '(t, old, b, v) := x in unmarshal C t old b = DOk (VPtr v) [] (zlen b)) items ->
  decode_stream C (map (fun x => fst (fst x)) items) (concat (map (fun x => snd (fst x)) items) ++ rest) off
  = Some (map snd items, rest, off + zlen (concat (map (fun x => snd (fst x)) items))).
Proof. exact stream_concat. Qed.
Print Assumptions C13_stream.
Example C13_case :
  decode_stream no_customs [(TInt WInt, VInt 0); (TStr, VStr []); (TAny, VNil)] (bs "i5e2:hile!") 0
  = Some ([VInt 5; VStr (bs "hi"); VIface any_slice (VSlice [])], bs "!", 9).
Proof. vm_compute. reflexivity. Qed.
