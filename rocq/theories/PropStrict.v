(** C115, C116: which texts Unmarshal accepts, and that encodings tell values apart. *)
From Verif Require Import GoBase Strconv BencTypes BencFields BencEncode BencDecode BencSpec BencEncSpec BencFieldSpec BencRoundSpec BencStrictSpec BencStrictProofs.
From Verif Require PropBencode PropRound.
Import PropBencode.

(** ** C115 *)
(** Into an [any]: exactly the texts that begin with an item of the language [lax]
    (BencSpec.v), and the [any] then holds the data the item spells.  *)
Theorem C115_accepted_partial :
  forall C inp v rest off, unmarshal C TAny VNil inp = DOk v rest off <->
  exists b out x, inp = out ++ rest /\ off = zlen out /\ lax b out /\ v = VPtr x /\ holds b x.
Proof. exact accepted_any. Qed.
Print Assumptions C115_accepted_partial.
(** Into any type: only texts that begin with an item of the slightly larger language
    [lax_typed]. *)
Theorem C115_accepted_typed_partial :
  forall C t old inp v rest off, unmarshal C t old inp = DOk v rest off -> exists b out, inp = out ++ rest /\ off = zlen out /\ lax_typed b out.
Proof. exact accepted_typed. Qed.
Print Assumptions C115_accepted_typed_partial.
Example C115_case : exists v, unmarshal no_customs TAny VNil (bs "d1:al2:xyi-4eee") = DOk v [] 15.
Proof. eexists. vm_compute. reflexivity. Qed.
(** What follows the item is ignored, whatever it is. *)
Theorem C115_junk_refuted :
  (forall C t old inp v off junk, unmarshal C t old inp = DOk v [] off -> unmarshal C t old (inp ++ junk) = DOk v junk off) /\
  unmarshal no_customs (TInt WInt) (VInt 0) (bs "i7e") = DOk (VPtr (VInt 7)) [] 3.
Proof. split; [exact junk_ignored|vm_compute; reflexivity]. Qed.
Print Assumptions C115_junk_refuted.
(** Accepted although no encoder may write it: a plus sign, also before a length, and
    leading zeros of a length. *)
Theorem C115_not_canonical_refuted :
  Forall (fun t => (forall b, ~ bep3 b t) /\ exists v, unmarshal no_customs TAny VNil t = DOk v [] (zlen t)) [bs "i+7e"; bs "003:abc"; bs "d+1:ai1ee"].
Proof.
  destruct not_encodings as (A & B & C). repeat (apply Forall_cons || apply Forall_nil); split; [intros b H; apply A; exists b; exact H| |intros b H; apply B; exists b; exact H| |intros b H; apply C; exists b; exact H|]; (eexists; vm_compute; reflexivity).
Qed.
Print Assumptions C115_not_canonical_refuted.

(** ** C116 *)
(** If the encoding of one value begins with the encoding of another value of its type,
    both are the same and the values carry the same data: no encoding is the beginning of
    another one, and no two values share one. *)
Theorem C116_encodings_tell_apart :
  forall C t v w b x, survives C t fl_root_val v -> survives C t fl_root_val w -> marshal C (Some (t, v)) = EOk b -> marshal C (Some (t, w)) = EOk (b ++ x) ->
  x = [] /\ exists u, same_data v u /\ same_data w u.
Proof. exact told_apart. Qed.
Print Assumptions C116_encodings_tell_apart.
Theorem C116_encodings_tell_apart_pointer :
  forall C t v w b x, survives C t fl_new v -> survives C t fl_new w -> marshal C (Some (TPtr t, VPtr v)) = EOk b -> marshal C (Some (TPtr t, VPtr w)) = EOk (b ++ x) ->
  x = [] /\ exists u, same_data v u /\ same_data w u.
Proof. exact told_apart_pointer. Qed.
Print Assumptions C116_encodings_tell_apart_pointer.
(** The same of everything the decoder accepts, also what Marshal would not write. *)
Theorem C116_texts_mean_one_thing :
  forall b t b' x, lax_typed b t -> lax_typed b' (t ++ x) -> x = [] /\ b' = b.
Proof. exact one_meaning. Qed.
Print Assumptions C116_texts_mean_one_thing.
Example C116_case : survives no_customs PropRound.rt_ty fl_root_val PropRound.rt_val /\ exists b, marshal no_customs (Some (PropRound.rt_ty, PropRound.rt_val)) = EOk b.
Proof. split; [exact (proj1 PropRound.C01_case)|eexists; exact (proj2 PropRound.C01_case)]. Qed.
