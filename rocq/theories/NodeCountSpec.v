(** Runs of the whole program with its byte counters. *)
From Verif Require Import GoBase PeerWire Bitfield Metainfo MetainfoSpec Fs Storage StorageSpec StorageSysSpec StorageCountSpec Node NodeSpec NodeCount.
From Verif Require StorageSys.

(** The bytes of the blocks in the PIECE messages that were sent. *)
Definition sent_bytes (ev : list nevent) : Z := sum (map (fun e => match e with NServed _ m => zlen (m_piece m) | _ => 0 end) ev).
(** The bytes of the blocks received that PutBlock accepted. *)
Definition accepted_bytes (ev : list nevent) : Z := accepted (sto_events ev).
(** [count_run sha1 cfg env hash id f l b n k ev]: like [node_run]; b bytes were stored when the
    program started, and at the end Uploaded() and Downloaded() are as in k. *)
Definition count_run (sha1 : bytes -> bytes) (cfg : config) (env : nat -> Fs.choice) (hash id : bytes) (f : fs) (l : list naction) (b : Z) (n : node) (k : counters) (ev : list nevent) : Prop :=
  untouched cfg f /\
  exists tick ls w es blank, StorageSys.execs sha1 cfg env (StorageSys.Dead f tick) ls = Some (StorageSys.Running w [], es) /\
    bf_new (num_pieces (c_info cfg)) = Some blank /\ b = stored_bytes cfg (w_fs w) /\
    cruns sha1 cfg env hash id blank (nstart (StorageSys.Running w [])) {| k_up := 0; k_down := 0 |} l = Some (n, k, ev).
