(** C121: entries that belong to no field do not matter.

    A dictionary is given as its entries, each a key, a spelling of the key and a spelling
    of the value (BencIgnoreSpec.v).  [has_key t p k] says that the index path p leads to
    a field of struct t that goes by k, embedded structs included. *)
From Verif Require Import GoBase BencTypes BencFields BencFieldSpec BencDecode BencSpec GoBaseProofs BencIgnoreSpec BencIgnoreProofs PropBencode.

(** Take any of the entries whose key is no field's out of a dictionary, and Unmarshal into
    the struct succeeds or not as before, with the same value and the same rest. *)
Theorem C121_unknown_entries_do_not_matter :
  forall C t old es keep v rest, plain_struct t -> Forall entry_ok es -> ascending_nonempty (map en_key es) ->
  (forall e, In e es -> keep e = false -> (forall p, ~ has_key t p (en_key e)) /\ exists b, lax b (en_vtext e)) ->
  (exists off, unmarshal C t old (dict_text es ++ rest) = DOk v rest off) <->
  (exists off, unmarshal C t old (dict_text (filter keep es) ++ rest) = DOk v rest off).
Proof. exact foreign_ignored. Qed.
Print Assumptions C121_unknown_entries_do_not_matter.
(** A dictionary with two such entries among two that belong to fields. *)
Definition ex_entries : list entry :=
  [{| en_key := bs "bar"; en_ktext := bs "03:bar"; en_vtext := bs "l1:xe" |}; {| en_key := bs "list"; en_ktext := bs "4:list"; en_vtext := bs "l1:pe" |};
   {| en_key := bs "q"; en_ktext := bs "1:q"; en_vtext := bs "2:zz" |}; {| en_key := bs "zed"; en_ktext := bs "3:zed"; en_vtext := bs "i5e" |}].
Definition ex_keep (e : entry) : bool := bytes_eqb (en_key e) (bs "list") || bytes_eqb (en_key e) (bs "zed").
Lemma ex_lax_str n s : forallb is_digit (bs n) = true -> n <> ""%string -> zlen s = digits_val (bs n) -> zlen s < 100 -> lax_str s (bs n ++ ":"%byte :: s).
Proof.
  intros D N E L. exists (bs n). pose proof (zlen_nonneg s). split; [|split; [lia|reflexivity]]. exists [], (bs n). split; [reflexivity|].
  split; [destruct n; [congruence|discriminate]|]. split; [exact D|]. split; [left; auto|]. lia.
Qed.
Example C121_case : plain_struct ex_ty /\ Forall entry_ok ex_entries /\ ascending_nonempty (map en_key ex_entries) /\
  (forall e, In e ex_entries -> ex_keep e = false -> (forall p, ~ has_key ex_ty p (en_key e)) /\ exists b, lax b (en_vtext e)) /\
  dict_text ex_entries = bs "d03:barl1:xe4:listl1:pe1:q2:zz3:zedi5ee" /\ dict_text (filter ex_keep ex_entries) = bs "d4:listl1:pe3:zedi5ee" /\
  unmarshal no_customs ex_ty (zero ex_ty) (dict_text ex_entries ++ bs "rest")
  = DOk (VPtr (VStruct [VInt 5; VStr []; VNil; VSlice [VStr (bs "p")]])) (bs "rest") 39.
Proof.
  assert (L : forall w s, zlen s = 1 -> gram w ascending_nonempty (BList [BStr s]) ("l"%byte :: concat [bs "1" ++ ":"%byte :: s] ++ ["e"%byte])).
  { intros w s Hs. apply gram_list. constructor; [|constructor]. apply gram_string; [apply ex_lax_str; auto; try discriminate; lia|]. right. exists "1"%byte. eexists. split; [reflexivity|reflexivity]. }
  assert (S2 : forall w, gram w ascending_nonempty (BStr (bs "zz")) (bs "2:zz")).
  { intros w. apply gram_string; [|right; exists "2"%byte; eexists; split; reflexivity]. apply (ex_lax_str "2" (bs "zz")); try reflexivity. discriminate. }
  split; [split; reflexivity|]. split.
  { repeat (constructor; [split|]); cbn [en_key en_ktext en_vtext].
    - apply (ex_lax_str "03" (bs "bar")); try reflexivity. discriminate.
    - eexists. exact (L true (bs "x") eq_refl).
    - apply (ex_lax_str "4" (bs "list")); try reflexivity. discriminate.
    - eexists. exact (L true (bs "p") eq_refl).
    - apply (ex_lax_str "1" (bs "q")); try reflexivity. discriminate.
    - eexists. exact (S2 true).
    - apply (ex_lax_str "3" (bs "zed")); try reflexivity. discriminate.
    - exists (BInt 5). apply (gram_int _ _ 5 (bs "5")); [|intros [(c & n' & H)|(n' & H)]; discriminate].
      left. exists [], (bs "5"). cbn. intuition (try lia; try discriminate).
    - constructor. }
  split; [repeat constructor|]. split; [|repeat split; vm_compute; reflexivity].
  intros e He K.
  assert (N : forall p k, has_key ex_ty p k -> In k [bs "zed"; bs "a"; bs "tags"; bs "list"]).
  { intros p k (a & ft & H & <-). destruct p as [|i p]; [discriminate|]. cbn in H.
    destruct i as [|[|[|[|i]]]]; cbn in H; [| | | |destruct i; discriminate]; (destruct p; [|discriminate]); injection H as <- _; vm_compute; tauto. }
  cbn in He. destruct He as [<-|[<-|[<-|[<-|[]]]]]; try discriminate; (split; [intros p Hp; apply N in Hp; vm_compute in Hp; intuition discriminate|]).
  - eexists. exact (L false (bs "x") eq_refl).
  - eexists. exact (S2 false).
Qed.
