(** Vocabulary for the theorems about Wait. *)
From Verif Require Import GoBase Fs Storage StorageSys.

(** The calls after which nobody should go on waiting for piece k: ResetPiece, and a PutBlock
    that failed while putting the piece together (a wrong checksum or an I/O error). *)
Definition ends (k : Z) (e : event) : Prop :=
  match e with
  | Ret (CReset k') RNil => k' = k
  | Ret (CPut k' _ _) (RErr x) => k' = k /\ (x = EIO \/ exists index got want, x = EChecksum index got want)
  | _ => False
  end.
(** A PutBlock returned an I/O error. *)
Definition io_error (e : event) : Prop := match e with Ret (CPut _ _ _) (RErr EIO) => True | _ => False end.
(** Call number j returns in its next step, with this result. *)
Definition returns_next (sha1 : bytes -> bytes) (cfg : config) (env : nat -> choice) (p : proc) (j : nat) (c : call) (r : result) : Prop :=
  exists p', exec sha1 cfg env p (LStep j) = Some (p', [Ret c r]).
