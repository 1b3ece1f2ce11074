(** Specification of a bitfield as a set of indices: index i is the bit of weight
    2^(7 - i mod 8) of byte i div 8 (BEP-3: high bit first). *)
From Verif Require Import GoBase.
Definition member (b : bytes) (i : Z) : Prop :=
  0 <= i /\ exists x, nth_error b (Z.to_nat (i / 8)) = Some x /\ Z.testbit (b2z x) (7 - i mod 8) = true.
