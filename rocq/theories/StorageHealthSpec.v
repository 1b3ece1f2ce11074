(** Vocabulary for the theorems about a disk that works. *)
From Verif Require Import GoBase Metainfo Fs Storage StorageSys StorageSpec StorageSysSpec.

Section Health.
Variable cfg : config.
Let i := c_info cfg.

(** No call to the operating system fails by itself, and os.CreateTemp and os.MkdirTemp
    never return the same name twice. *)
Definition works (env : nat -> choice) : Prop :=
  (forall t, ch_fail (env t) = false /\ plain_name (ch_name (env t)) = true) /\
  (forall t t', ch_name (env t) = ch_name (env t') -> t = t').
(** The disk before the first start has room for the torrent: the target directory exists,
    no file stands where WorkDir/temp, the piece directory or a directory above them goes,
    and nothing is at or below the names that will be picked in WorkDir/temp. *)
Definition roomy (env : nat -> choice) (f : fs) : Prop :=
  lookup (c_target cfg) f = Some NDir /\
  (forall q b, under_path q (c_work cfg ++ [bs "temp"]) = true \/ under_path q (pieces_dir cfg) = true -> lookup q f <> Some (NFile b)) /\
  (forall t q, under_path (c_work cfg ++ [bs "temp"; ch_name (env t)]) q = true -> lookup q f = None).
(** No file of the torrent stands where another one needs a directory. *)
Definition files_fit : Prop :=
  forall a b x y, nth_error (i_files i) a = Some x -> nth_error (i_files i) b = Some y -> under_path (f_path x) (f_path y) = true -> a = b.
End Health.

(** The errors with which the operating system's refusal, or data missing on the disk, is
    passed on. *)
Definition disk_error (e : serr) : Prop := e = EIO \/ e = EShortRead.

(** [d] is the block at [begin] of piece k of the content [c]. *)
Definition right_block (cfg : config) (c : bytes) (k begin : Z) (d : bytes) : Prop :=
  0 <= k < num_pieces (c_info cfg) /\ tile (piece_size (c_info cfg) k) begin (zlen d) /\ d = slice c (k * i_piece_length (c_info cfg) + begin) (zlen d).
(** All blocks given to PutBlock are right. *)
Definition right_puts (cfg : config) (c : bytes) (ls : list label) : Prop :=
  forall k begin d, In (LCall (CPut k begin d)) ls -> right_block cfg c k begin d.
(** A PutBlock of the block at [begin] of piece k has returned, and no ResetPiece(k) since. *)
Definition was_put (k begin : Z) (es : list event) : Prop :=
  exists es1 data r es2, es = es1 ++ Ret (CPut k begin data) r :: es2 /\ ~ In (Ret (CReset k) RNil) es2.
