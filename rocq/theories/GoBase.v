(** Shared vocabulary for the model of browles/drip: bytes, Go results, machine
    integers and byte-string order.  Nothing here models drip code itself; it
    models the part of the Go language the code relies on. *)
From Coq Require Export String.
From Coq Require Export List ZArith NArith Lia Bool Arith.
From Coq Require Export Init.Byte.
From Coq Require Import Strings.Byte.
Export ListNotations.
#[global] Open Scope list_scope.
#[global] Open Scope Z_scope.

(** A Go [[]byte] or [string]. *)
Notation bytes := (list byte).

(** String literals: [bs "abc"]. *)
Definition bs (s : string) : bytes := list_byte_of_string s.
Arguments bs s%string_scope.

(** Outcome of a Go call: a value, an [error] value, or a panic. *)
Inductive res (E A : Type) : Type :=
| Ok (a : A)
| Err (e : E)
| Panic.
Arguments Ok {E A} a.
Arguments Err {E A} e.
Arguments Panic {E A}.

(** The number a byte stands for, and Go's conversion [byte(z)] (wraps). *)
Definition b2z (b : byte) : Z := Z.of_N (Byte.to_N b).
Definition z2b (z : Z) : byte :=
  match Byte.of_N (Z.to_N (z mod 256)) with Some b => b | None => x00 end.

Definition beqb (a b : byte) : bool := Byte.eqb a b.

(** [a == b] on Go strings. *)
Fixpoint bytes_eqb (a b : bytes) : bool :=
  match a, b with
  | [], [] => true
  | x :: a', y :: b' => beqb x y && bytes_eqb a' b'
  | _, _ => false
  end.

(** [a < b] on Go strings: lexicographic order of unsigned bytes. *)
Fixpoint bytes_ltb (a b : bytes) : bool :=
  match a, b with
  | _, [] => false
  | [], _ :: _ => true
  | x :: a', y :: b' => (b2z x <? b2z y) || ((b2z x =? b2z y) && bytes_ltb a' b')
  end.

(** '0' <= b && b <= '9'  (bencode/decode.go:98-100 isDigit). *)
Definition is_digit (b : byte) : bool := (48 <=? b2z b) && (b2z b <=? 57).

(** binary.BigEndian.PutUint32 / Uint32 (encoding/binary), including the
    [uint32(...)] conversion that wraps modulo 2^32. *)
Definition put_u32 (z : Z) : bytes :=
  let u := z mod 4294967296 in
  [z2b (u / 16777216); z2b (u / 65536); z2b (u / 256); z2b u].
Definition get_u32 (a b c d : byte) : Z :=
  b2z a * 16777216 + b2z b * 65536 + b2z c * 256 + b2z d.
(** binary.BigEndian.PutUint16 / Uint16 with the [uint16(...)] conversion. *)
Definition put_u16 (z : Z) : bytes :=
  let u := z mod 65536 in [z2b (u / 256); z2b u].
Definition get_u16 (a b : byte) : Z := b2z a * 256 + b2z b.

(** Two's complement conversion to a signed / unsigned integer of [bits] bits. *)
Definition wrap_s (bits z : Z) : Z :=
  (z + 2 ^ (bits - 1)) mod 2 ^ bits - 2 ^ (bits - 1).
Definition wrap_u (bits z : Z) : Z := z mod 2 ^ bits.

Definition min_int64 : Z := - 2 ^ 63.
Definition max_int64 : Z := 2 ^ 63 - 1.
Definition max_uint64 : Z := 2 ^ 64 - 1.
Definition is_int64 (z : Z) : bool := (min_int64 <=? z) && (z <=? max_int64).

(** Replace the [n]-th element (no effect when out of range). *)
Fixpoint list_set {A} (n : nat) (x : A) (l : list A) : list A :=
  match n, l with
  | _, [] => []
  | O, _ :: l' => x :: l'
  | S n', y :: l' => y :: list_set n' x l'
  end.

Definition zlen {A} (l : list A) : Z := Z.of_nat (List.length l).
