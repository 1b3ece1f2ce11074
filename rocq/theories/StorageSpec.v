(** What storage/ is for, in terms of the torrent and the disk only. *)
From Verif Require Import GoBase Metainfo MetainfoSpec Fs Storage StorageSys.

Definition slice (b : bytes) (from len : Z) : bytes := firstn (Z.to_nat len) (skipn (Z.to_nat from) b).
Definition num_pieces (i : info) : Z := zlen (i_pieces i).
(** Piece k covers bytes k*PieceLength up to the next piece or the end of the torrent. *)
Definition piece_size (i : info) (k : Z) : Z := Z.min (i_piece_length i) (total_size i - k * i_piece_length i).
Definition piece_hash (i : info) (k : Z) : bytes := nth (Z.to_nat k) (i_pieces i) [].

Section Spec.
Variable sha1 : bytes -> bytes.
Variable cfg : config.
Let i := c_info cfg.

(** [b] is right for piece k; [c] is right for the whole torrent. *)
Definition verified (k : Z) (b : bytes) : Prop := zlen b = piece_size i k /\ sha1 b = piece_hash i k.
Definition whole (c : bytes) : Prop :=
  zlen c = total_size i /\ forall k, 0 <= k < num_pieces i -> verified k (slice c (k * i_piece_length i) (piece_size i k)).

(** Where things are on disk: the finished torrent at TargetDir/Name, the finished pieces
    at WorkDir/<info hash in hex>/<number>.piece. *)
Definition target : path := c_target cfg ++ [i_name i].
Definition pieces_dir : path := c_work cfg ++ [hex (i_sha1 i)].
Definition piece_file (k : Z) : path := pieces_dir ++ [piece_name k].

(** The files one after the other, if they are all there. *)
Fixpoint files_content (f : fs) (files : list file) : option bytes :=
  match files with
  | [] => Some []
  | x :: files' =>
      match lookup (target ++ f_path x) f, files_content f files' with
      | Some (NFile b), Some r => if zlen b =? f_length x then Some (b ++ r) else None
      | _, _ => None
      end
  end.
(** What the target holds, if it is in place. *)
Definition content (f : fs) : option bytes :=
  match i_files i, lookup target f with
  | [], Some (NFile b) => Some b
  | _ :: _, Some NDir => files_content f (i_files i)
  | _, _ => None
  end.
(** The bytes of piece k on disk. *)
Definition on_disk (f : fs) (k : Z) : option bytes :=
  match content f with
  | Some c => Some (slice c (k * i_piece_length i) (piece_size i k))
  | None => match lookup (piece_file k) f with Some (NFile b) => Some b | _ => None end
  end.

(** The total size of the pieces on disk. *)
Definition stored_bytes (f : fs) : Z :=
  fold_right Z.add 0 (map (fun k => match on_disk f (Z.of_nat k) with Some b => zlen b | None => 0 end) (seq 0 (List.length (i_pieces i)))).

(** A disk a crash may leave: the target is absent or complete, and everything in the
    piece directory is a verified piece under its number. *)
Definition disk_ok (f : fs) : Prop :=
  (lookup target f = None \/ exists c, content f = Some c /\ whole c) /\
  (forall name node, lookup (pieces_dir ++ [name]) f = Some node ->
     exists k b, 0 <= k < num_pieces i /\ name = piece_name k /\ node = NFile b /\ verified k b).
(** A disk without traces of this torrent.  (A file system holds every path once.) *)
Definition untouched (f : fs) : Prop :=
  NoDup (map fst f) /\ lookup target f = None /\
  (lookup pieces_dir f = None \/ lookup pieces_dir f = Some NDir) /\ forall name, lookup (pieces_dir ++ [name]) f = None.

(** The torrents and directories the theorems are about: a coherent info with a plain
    name and plain, distinct, non-empty file paths; neither directory inside the place of
    the other. *)
Definition config_ok : Prop :=
  well_formed i /\ 0 < num_pieces i /\ List.length (i_sha1 i) = 20%nat /\
  plain_name (i_name i) = true /\
  Forall (fun x => f_path x <> [] /\ forallb plain_name (f_path x) = true) (i_files i) /\
  NoDup (map f_path (i_files i)) /\
  under_path target (c_work cfg) = false /\ under_path (c_work cfg) target = false.

(** A block request inside a piece. *)
Definition in_piece (k begin len : Z) : Prop := 0 <= k < num_pieces i /\ 0 <= begin /\ 0 <= len /\ begin + len <= piece_size i k.
End Spec.
