(** Model of bitfield/bitfield.go.  A Bitfield is its byte slice; [None] is a
    run-time panic. *)
From Verif Require Import GoBase.

(** New (bitfield.go:5-11); Go's / and % truncate toward zero; make panics on a
    negative size. *)
Definition bf_new (n : Z) : option bytes :=
  let size := Z.quot n 8 in
  let size := if negb (Z.rem n 8 =? 0) then size + 1 else size in
  if size <? 0 then None else Some (repeat x00 (Z.to_nat size)).

(** The byte 1 << bj; the shift is done in type byte, so it is 0 for bj >= 8. *)
Definition bit_mask (bj : Z) : Z := wrap_u 8 (Z.shiftl 1 bj).

(** b[i] on a slice; panics out of range. *)
Definition byte_at (b : bytes) (i : Z) : option byte :=
  if i <? 0 then None else nth_error b (Z.to_nat i).

(** Has (bitfield.go:13-17). *)
Definition bf_has (b : bytes) (i : Z) : option bool :=
  let bi := Z.quot i 8 in
  let bj := 7 - Z.rem i 8 in
  match byte_at b bi with
  | None => None
  | Some x => Some (negb (Z.land (b2z x) (bit_mask bj) =? 0))
  end.

(** Add (bitfield.go:19-23): the updated slice. *)
Definition bf_add (b : bytes) (i : Z) : option bytes :=
  let bi := Z.quot i 8 in
  let bj := 7 - Z.rem i 8 in
  match byte_at b bi with
  | None => None
  | Some x => Some (list_set (Z.to_nat bi) (z2b (Z.lor (b2z x) (bit_mask bj))) b)
  end.

(** The inner loop of Items (bitfield.go:28-33) for byte [mask] at index [bi]. *)
Definition byte_items (bi : Z) (mask : byte) : list Z :=
  flat_map (fun j => if negb (Z.land (b2z mask) (bit_mask (7 - j)) =? 0) then [bi * 8 + j] else [])
    [0; 1; 2; 3; 4; 5; 6; 7].
Fixpoint items_from (bi : Z) (b : bytes) : list Z :=
  match b with
  | [] => []
  | x :: b' => byte_items bi x ++ items_from (bi + 1) b'
  end.
(** Items (bitfield.go:25-36). *)
Definition bf_items (b : bytes) : list Z := items_from 0 b.

(** Difference (bitfield.go:38-47); byte subtraction wraps. *)
Fixpoint bf_difference (b a : bytes) : bytes :=
  match b, a with
  | [], _ => []
  | x :: b', [] => x :: bf_difference b' []
  | x :: b', y :: a' => z2b (b2z x - Z.land (b2z x) (b2z y)) :: bf_difference b' a'
  end.
