(** C15-C18: bitfield. *)
From Verif Require Import GoBase Bitfield BitfieldSpec BitfieldProofs.
From Coq Require Import Sorting.Sorted.

(** C15: New(n) followed by any sequence of in-range Adds never panics, and Has is
    then true for exactly the added indices. *)
Theorem C15_bitfield_is_a_set :
  forall n is, 0 <= n -> Forall (fun i => 0 <= i < n) is ->
  exists b0 b, bf_new n = Some b0 /\ bf_adds b0 is = Some b /\
    forall j, 0 <= j < n -> exists r, bf_has b j = Some r /\ (r = true <-> In j is).
Proof. exact bf_adds_spec. Qed.
Print Assumptions C15_bitfield_is_a_set.
Example C15_case : 0 <= 19 /\ Forall (fun i => 0 <= i < 19) [0; 7; 8; 18; 7]
  /\ (match bf_new 19 with Some b => bf_adds b [0; 7; 8; 18; 7] | None => None end) = Some [x81; x80; x20].
Proof. split; [lia|]. split; [repeat (constructor; [lia|]); constructor|vm_compute; reflexivity]. Qed.

(** C15, single step from an arbitrary bitfield: Add(i) adds i and changes nothing
    else, and Has decides membership. *)
Theorem C15_add_step :
  forall b i, 0 <= i < 8 * zlen b ->
  exists b', bf_add b i = Some b' /\ zlen b' = zlen b /\
    forall j, 0 <= j < 8 * zlen b -> exists r r', bf_has b j = Some r /\ bf_has b' j = Some r' /\
      (r' = true <-> j = i \/ r = true).
Proof.
  exact bf_add_has_spec.
Qed.
Print Assumptions C15_add_step.
Theorem C15_has_is_membership :
  forall b i, 0 <= i < 8 * zlen b -> exists r, bf_has b i = Some r /\ (r = true <-> member b i).
Proof. exact bf_has_spec. Qed.
Print Assumptions C15_has_is_membership.
Example C15_step_case : bf_add [x00; x01] 9 = Some [x00; x41] /\ bf_has [x00; x41] 15 = Some true.
Proof. split; reflexivity. Qed.

(** C16: Items is ascending (so duplicate free) and has exactly the members. *)
Theorem C16_items :
  forall b, StronglySorted Z.lt (bf_items b) /\ forall i, In i (bf_items b) <-> member b i.
Proof. exact bf_items_spec. Qed.
Print Assumptions C16_items.
Example C16_case : bf_items [x81; x00; x20] = [0; 7; 18].
Proof. reflexivity. Qed.

(** C17: Difference keeps the length of the receiver and is set difference, for any
    two lengths. *)
Theorem C17_difference :
  forall b a, zlen (bf_difference b a) = zlen b /\
    forall i, member (bf_difference b a) i <-> member b i /\ ~ member a i.
Proof. exact diff_spec. Qed.
Print Assumptions C17_difference.
Example C17_case : bf_difference [xff; x0f; x80] [x0f; xff] = [xf0; x00; x80].
Proof. reflexivity. Qed.

(** C18: Has and Add panic for exactly the indices <= -8 and >= 8*len (on an empty
    bitfield also between); for -8 < i < 0 they do not panic although the index is
    negative: Has is false and Add changes nothing. *)
Theorem C18_panic_domain :
  forall b i, (bf_has b i = None <-> (i <= -8 \/ i >= 8 * zlen b \/ (-8 < i < 0 /\ b = []))) /\
              (bf_add b i = None <-> (i <= -8 \/ i >= 8 * zlen b \/ (-8 < i < 0 /\ b = []))).
Proof. exact bf_domain. Qed.
Print Assumptions C18_panic_domain.
Theorem C18_negative_harmless :
  forall b i, -8 < i < 0 -> b <> [] -> bf_has b i = Some false /\ bf_add b i = Some b.
Proof. exact bf_negative. Qed.
Print Assumptions C18_negative_harmless.
(** The property as listed (panic exactly outside the byte range) fails at -1. *)
Theorem C18_refuted : exists b i, ~ (0 <= i < 8 * zlen b) /\ bf_has b i <> None /\ bf_add b i <> None.
Proof. exact bf_negative_no_panic. Qed.
Print Assumptions C18_refuted.
