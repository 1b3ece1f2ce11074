(** Vocabulary for the theorems about the byte counts. *)
From Verif Require Import GoBase Metainfo Fs Storage StorageSys StorageSpec.

Definition sum (l : list Z) : Z := fold_right Z.add 0 l.
(** The bytes of the blocks for which PutBlock returned nil. *)
Definition accepted (es : list event) : Z :=
  sum (map (fun e => match e with Ret (CPut _ _ d) RNil => zlen d | _ => 0 end) es).
(** No ResetPiece came for a piece of which a block had been accepted: nothing was
    downloaded in vain. *)
Definition no_waste (es : list event) : Prop :=
  forall es1 k es2 begin data, es = es1 ++ Ret (CReset k) RNil :: es2 -> ~ In (Ret (CPut k begin data) RNil) es1.
(** The sizes of the pieces that failed their check. *)
Definition failed_bytes (i : info) (es : list event) : Z :=
  sum (map (fun e => match e with Ret (CPut k _ _) (RErr (EChecksum _ _ _)) => piece_size i k | _ => 0 end) es).
