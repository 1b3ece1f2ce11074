(** C125, C126: values made of parts are written part by part, and fail only where a part does. *)
From Verif Require Import GoBase BencTypes BencFields BencEncode BencSpec BencFieldSpec BencEncSpec BencPartsSpec BencPartsProofs BencWholeProofs PropBencode.

(** If Marshal succeeds on a pointer to a struct without embedded fields, it gives a
    dictionary whose entries are those of the exported fields that are not nil, and not
    both tagged omitempty and empty: the key of the field, and what Marshal gives for a
    pointer to it, which succeeds too. *)
Theorem C125_struct_is_the_dictionary_of_its_fields :
  forall C t nm fs vs b, uses_marshaler t fl_new = false -> under t = TStruct nm fs -> flat fs ->
  Forall2 (fun f x => of_kind (snd f) x /\ legal (snd f)) fs vs -> marshal C (Some (TPtr t, VPtr (VStruct vs))) = EOk b ->
  (forall i a ft x, nth_error fs i = Some (a, ft) -> nth_error vs i = Some x -> takes_part a -> ~ left_out a x -> exists tx, marshal C (Some (TPtr ft, VPtr x)) = EOk tx) /\
  exists es, dictionary es b /\ forall k tx, In (k, tx) es <->
    exists i a ft x, nth_error fs i = Some (a, ft) /\ nth_error vs i = Some x /\ takes_part a /\ k = field_key a /\ ~ left_out a x /\ marshal C (Some (TPtr ft, VPtr x)) = EOk tx.
Proof. exact struct_parts. Qed.
Print Assumptions C125_struct_is_the_dictionary_of_its_fields.

(** A map is written as the dictionary of all its entries. *)
Theorem C125_map_is_the_dictionary_of_its_entries :
  forall C t kt et m b, uses_marshaler t fl_root_val = false -> under t = TMap kt et -> NoDup (map fst m) -> marshal C (Some (t, VMap m)) = EOk b ->
  (forall k x, In (k, x) m -> exists tx, marshal C (Some (et, x)) = EOk tx) /\
  exists es, dictionary es b /\ forall k tx, In (k, tx) es <-> exists x, In (k, x) m /\ marshal C (Some (et, x)) = EOk tx.
Proof. exact map_parts. Qed.
Print Assumptions C125_map_is_the_dictionary_of_its_entries.

(** A slice is written as the list of all its elements, in their order. *)
Theorem C125_slice_is_the_list_of_its_elements :
  forall C t et l b, uses_marshaler t fl_root_val = false -> under t = TSlice et -> kind_uint8 et = false -> legal et -> marshal C (Some (t, VSlice l)) = EOk b ->
  exists ts, Forall2 (fun x tx => marshal C (Some (TPtr et, VPtr x)) = EOk tx) l ts /\ b = "l"%byte :: concat ts ++ ["e"%byte].
Proof. exact slice_parts. Qed.
Print Assumptions C125_slice_is_the_list_of_its_elements.

(** A struct with a hidden field, an empty optional flag and text, a nil map, and a field
    that is a slice; and a map. *)
Definition ex_f (name tag : string) : fattr := {| fa_name := bs name; fa_tag := bs tag; fa_anon := false; fa_exp := true |}.
Definition ex_fs : list (fattr * gty) :=
  [(ex_f "Z" "zed,string,omitempty", TInt WInt); (ex_f "Hidden" "-", TStr); (ex_f "Flag" ",omitempty", TBool); (ex_f "Name" "name,omitempty", TStr);
   (ex_f "M" "", TMap TStr TAny); (ex_f "L" "list", TSlice TStr); (ex_f "Empty" "", TStr)].
Definition ex_vs : list gval := [VInt 5; VStr (bs "h"); VBool false; VStr []; VNil; VSlice [VStr (bs "b"); VStr (bs "a")]; VStr []].
Example C125_case : uses_marshaler (TStruct (bs "S") ex_fs) fl_new = false /\ flat ex_fs /\ Forall2 (fun f x => of_kind (snd f) x /\ legal (snd f)) ex_fs ex_vs /\
  marshal no_customs (Some (TPtr (TStruct (bs "S") ex_fs), VPtr (VStruct ex_vs))) = EOk (bs "d5:empty0:4:listl1:b1:ae3:zedi5ee") /\
  marshal no_customs (Some (TMap TStr (TInt WInt), VMap [(bs "b", VInt 1); (bs "a", VInt 2)])) = EOk (bs "d1:ai2e1:bi1ee").
Proof.
  split; [reflexivity|]. split; [|split; [repeat constructor|split; vm_compute; reflexivity]]. split.
  - intros a ft H. cbn in H. repeat (destruct H as [[= <- <-]|H]; [reflexivity|]). destruct H.
  - intros i j a b ft gt Hi Hj Ta Tb E.
    destruct i as [|[|[|[|[|[|[|i]]]]]]]; cbn in Hi; try (injection Hi as <- <-); try (destruct i; discriminate);
    destruct j as [|[|[|[|[|[|[|j]]]]]]]; cbn in Hj; try (injection Hj as <- <-); try (destruct j; discriminate); try reflexivity; try (vm_compute in E; discriminate).
    all: try (destruct Ta as (_ & Ta); exfalso; apply Ta; reflexivity). all: try (destruct Tb as (_ & Tb); exfalso; apply Tb; reflexivity).
Qed.

(** ** C126 *)
(** If nothing in a struct is nested more than 1000 deep and Marshal succeeds on a pointer
    to each field that is written, then it succeeds on a pointer to the struct. *)
Theorem C126_struct_succeeds_with_its_fields :
  forall C t nm fs vs, uses_marshaler t fl_new = false -> under t = TStruct nm fs -> flat fs ->
  Forall2 (fun f x => of_kind (snd f) x /\ legal (snd f)) fs vs -> ~ nest 1001 (TPtr t) fl_root_val (VPtr (VStruct vs)) ->
  (forall i a ft x, nth_error fs i = Some (a, ft) -> nth_error vs i = Some x -> takes_part a -> ~ left_out a x -> exists tx, marshal C (Some (TPtr ft, VPtr x)) = EOk tx) ->
  exists b, marshal C (Some (TPtr t, VPtr (VStruct vs))) = EOk b.
Proof. exact struct_whole. Qed.
Print Assumptions C126_struct_succeeds_with_its_fields.
(** A map with string keys, in the same way. *)
Theorem C126_map_succeeds_with_its_entries :
  forall C t kt et m, uses_marshaler t fl_root_val = false -> under t = TMap kt et -> kind_string kt = true -> ~ nest 1001 t fl_root_val (VMap m) ->
  (forall k x, In (k, x) m -> exists tx, marshal C (Some (et, x)) = EOk tx) -> exists b, marshal C (Some (t, VMap m)) = EOk b.
Proof. exact map_whole. Qed.
Print Assumptions C126_map_succeeds_with_its_entries.
(** A slice, in the same way. *)
Theorem C126_slice_succeeds_with_its_elements :
  forall C t et l, uses_marshaler t fl_root_val = false -> under t = TSlice et -> kind_uint8 et = false -> legal et -> ~ nest 1001 t fl_root_val (VSlice l) ->
  (forall x, In x l -> exists tx, marshal C (Some (TPtr et, VPtr x)) = EOk tx) -> exists b, marshal C (Some (t, VSlice l)) = EOk b.
Proof. exact slice_whole. Qed.
Print Assumptions C126_slice_succeeds_with_its_elements.
(** The struct above is not nested too deep.  A bool that is not left out makes Marshal fail. *)
Example C126_case : ~ nest 1001 (TPtr (TStruct (bs "S") ex_fs)) fl_root_val (VPtr (VStruct ex_vs)) /\ ~ nest 1001 (TMap TStr (TInt WInt)) fl_root_val (VMap [(bs "b", VInt 1); (bs "a", VInt 2)]) /\
  (exists b d e, marshal no_customs (Some (TPtr (TStruct (bs "S") [(ex_f "Flag" "", TBool)]), VPtr (VStruct [VBool false]))) = EErr b d e) /\
  marshal no_customs (Some (TPtr (TStruct (bs "S") [(ex_f "Flag" ",omitempty", TBool)]), VPtr (VStruct [VBool false]))) = EOk (bs "de").
Proof.
  split; [eapply (proj1 (proj2 (C09_depth_limit_exact no_customs _ _))); vm_compute; reflexivity|].
  split; [eapply (proj1 (proj2 (C09_depth_limit_exact no_customs _ _))); vm_compute; reflexivity|].
  split; [eexists _, _, _; vm_compute; reflexivity|vm_compute; reflexivity].
Qed.
