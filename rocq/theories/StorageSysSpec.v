(** Vocabulary for the theorems about a Storage in use. *)
From Verif Require Import GoBase Metainfo MetainfoSpec Fs Storage StorageSys StorageSpec.

(** What the disk holds now. *)
Definition disk_of (p : proc) : fs := match p with Running w _ => w_fs w | Dead f _ => f end.
(** Torrent.Bitfield of a running process. *)
Definition advertised (w : world) : bytes := t_bitfield (w_mem w).
(** A block of the tiling of [size] bytes: aligned to 16 KiB, cut off at the end. *)
Definition tile (size begin len : Z) : Prop := 0 <= begin < size /\ (16384 | begin) /\ len = Z.min 16384 (size - begin).
(** Waiting for piece k would return at once: it is complete, or it failed. *)
Definition settled (w : world) (k : Z) : Prop :=
  exists p v, nth_error (t_pieces (w_mem w)) (Z.to_nat k) = Some p /\ nth_error (t_futures (w_mem w)) (pc_err p) = Some (Some v).
(** Neither in the place of the torrent (TargetDir/Name) nor in WorkDir/temp or
    WorkDir/<hash>, nor WorkDir itself or a directory leading to it. *)
Definition outside (cfg : config) (q : path) : Prop :=
  under_path (target cfg) q = false /\ under_path (c_work cfg ++ [bs "temp"]) q = false /\
  under_path (pieces_dir cfg) q = false /\ under_path q (c_work cfg) = false.
(** The first byte of the j-th file in the torrent. *)
Definition file_start (files : list file) (j : nat) : Z := fold_right Z.add 0 (map f_length (firstn j files)).
(** All calls made have returned. *)
Definition idle (ts : list thread) : Prop := Forall (fun t => exists r, th_pc t = Done r) ts.
(** A label of one process run (no crash, no restart). *)
Definition same_run (l : label) : Prop := match l with LCall _ | LStep _ => True | _ => False end.

(** A GetBlock and a PutBlock wait for each other: the first holds Torrent.mu and waits
    for the piece's mu, the second holds that and waits for Torrent.mu. *)
Definition held_up (k : Z) (ts : list thread) : Prop :=
  (exists a t, nth_error ts a = Some t /\ th_pc t = GetPiece /\ call_index (th_call t) = k) /\
  (exists a t, nth_error ts a = Some t /\ th_pc t = PutMid /\ call_index (th_call t) = k).
(** The call has not returned, and is not a Wait for something that has not happened. *)
Definition unfinished (w : world) (t : thread) : Prop :=
  match th_pc t with
  | Done _ => False
  | Waiting id => exists v, nth_error (t_futures (w_mem w)) id = Some (Some v)
  | _ => True
  end.
(** Not a success of PutBlock on piece k, nor a return of ResetPiece(k). *)
Definition refused (k : Z) (e : event) : Prop :=
  match e with Ret (CPut k' _ _) RNil => k' <> k | Ret (CReset k') _ => k' <> k | _ => True end.
Section Alone.
Variable sha1 : bytes -> bytes.
Variable cfg : config.
Variable env : nat -> choice.
(** Calls made one after the other, each running to its return before the next starts. *)
Inductive one_by_one : proc -> list call -> list result -> proc -> Prop :=
| OneNil p : one_by_one p [] [] p
| OneCons w ts c cs m r rs p p' :
    execs sha1 cfg env (Running w ts) (LCall c :: repeat (LStep (List.length ts)) m) = Some (p, [Ret c r]) ->
    one_by_one p cs rs p' -> one_by_one (Running w ts) (c :: cs) (r :: rs) p'.
End Alone.
