(** The consistency of a running Storage: what its memory says agrees with the disk. *)
From Verif Require Import GoBase Metainfo Bitfield BitfieldSpec Fs Storage StorageSpec.

(** The j-th block of a piece of [size] bytes. *)
Definition block_size (size j : Z) : Z := Z.min 16384 (size - j * 16384).
Definition num_some {A} (l : list (option A)) : Z := zlen (filter (fun x => match x with Some _ => true | None => false end) l).
Definition num_coalesced (ps : list piece) : Z := zlen (filter pc_coalesced ps).
(** All blocks of the piece are there. *)
Definition full (p : piece) : Prop := exists l, pc_blocks p = Some l /\ pc_complete p = zlen l.

Section Mem.
Variable cfg : config.
Let i := c_info cfg.

Definition piece_ok (futures : list fut) (busy : bool) (k : nat) (p : piece) : Prop :=
  pc_index p = Z.of_nat k /\ pc_sha1 p = piece_hash i (Z.of_nat k) /\
  pc_length p = piece_size i (Z.of_nat k) /\ pc_num p = num_blocks (piece_size i (Z.of_nat k)) /\
  match pc_blocks p with
  | None => pc_coalesced p = true \/ pc_complete p = 0
  | Some l => pc_coalesced p = false /\ zlen l = pc_num p /\ pc_complete p = num_some l /\
              forall j b, nth_error l j = Some (Some b) -> zlen b = block_size (pc_length p) (Z.of_nat j)
  end /\
  (busy = true -> pc_coalesced p = false /\ pc_blocks p <> None) /\
  (pc_coalesced p = true -> nth_error futures (pc_err p) = Some (Some None)) /\
  (pc_coalesced p = false -> (full p -> busy = true) -> nth_error futures (pc_err p) = Some None) /\
  (pc_coalesced p = false -> full p -> busy = false -> exists e, nth_error futures (pc_err p) = Some (Some (Some e))).

(** [busy]: the pieces a PutBlock is working on (it has stored its block and waits for
    Torrent.mu). *)
Definition mem_int (busy : Z -> bool) (m : mem) : Prop :=
  List.length (t_pieces m) = List.length (i_pieces i) /\
  (forall k p, nth_error (t_pieces m) k = Some p -> piece_ok (t_futures m) (busy (Z.of_nat k)) k p) /\
  NoDup (t_err m :: map pc_err (t_pieces m)) /\
  nth_error (t_futures m) (t_err m) = Some (if t_coalesced m then Some None else None) /\
  num_pieces i <= 8 * zlen (t_bitfield m) < num_pieces i + 8 /\
  (forall j, member (t_bitfield m) j <-> 0 <= j /\ exists p, nth_error (t_pieces m) (Z.to_nat j) = Some p /\ pc_coalesced p = true) /\
  t_complete m = num_coalesced (t_pieces m).
Definition mem_ok (busy : Z -> bool) (f : fs) (m : mem) : Prop :=
  mem_int busy m /\
  (forall k p, nth_error (t_pieces m) k = Some p -> (pc_coalesced p = true <-> on_disk cfg f (Z.of_nat k) <> None)) /\
  (t_coalesced m = true -> content cfg f <> None).
End Mem.

(** What a running Storage never takes back. *)
Definition later (m m' : mem) : Prop :=
  t_err m' = t_err m /\ (t_coalesced m = true -> t_coalesced m' = true) /\
  (forall id v, nth_error (t_futures m) id = Some (Some v) -> nth_error (t_futures m') id = Some (Some v)) /\
  (forall k p, nth_error (t_pieces m) k = Some p -> exists p', nth_error (t_pieces m') k = Some p' /\
     (pc_coalesced p = true -> pc_coalesced p' = true) /\
     (pc_err p' = pc_err p \/ exists e, nth_error (t_futures m') (pc_err p) = Some (Some (Some e)))).
