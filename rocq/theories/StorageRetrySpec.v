(** Vocabulary for trying a failed PutBlock again. *)
From Verif Require Import GoBase Bitfield BitfieldSpec Metainfo MetainfoSpec Fs Storage StorageSys StorageSpec StorageSysSpec.

(** Every piece of the torrent is advertised. *)
Definition all_stored (cfg : config) (w : world) : Prop := forall k, 0 <= k < num_pieces (c_info cfg) -> member (advertised w) k.
(** Torrent.Wait would block: the torrent has not been reported complete. *)
Definition torrent_waits (w : world) : Prop := nth_error (t_futures (w_mem w)) (t_err (w_mem w)) = Some None.
(** Not a success of PutBlock, nor a return of ResetPiece or of Torrent.Wait. *)
Definition no_way_on (e : event) : Prop :=
  match e with Ret (CPut _ _ _) RNil => False | Ret (CReset _) _ => False | Ret CWaitAll _ => False | _ => True end.
