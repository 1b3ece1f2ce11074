(** Vocabulary for the theorems about accepted blocks. *)
From Verif Require Import GoBase Fs Storage StorageSys.

(** The events of a process run say: a PutBlock of the block at [begin] in piece k returned
    nil, and no ResetPiece(k) has returned since. *)
Definition has_block (k begin : Z) (es : list event) : Prop :=
  exists es1 data es2, es = es1 ++ Ret (CPut k begin data) RNil :: es2 /\ ~ In (Ret (CReset k) RNil) es2.
