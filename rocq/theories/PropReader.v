(** C103, C104, C105: the copying of the finished pieces into the target.

    [single] and [multi] (LazyReader.v) are the copying loops of the two coalescePieces
    functions, read by read; [contents] (LazyReaderSpec.v) are the bytes of the piece files
    one after the other. *)
From Verif Require Import GoBase Fs LazyReader LazyReaderSpec LazyReaderProofs LazyReaderThms Metainfo Storage.

(** ** Examples: pieces "abc" and "de"; reads of one or two bytes *)
Definition ex_p (s : string) : path := [bs "w"; bs s].
Definition ex_disk : fs := [(ex_p "0", NFile (bs "abc")); (ex_p "1", NFile (bs "de"))].
Definition ex_short (n : nat) : rchoice := {| rc_fail := false; rc_more := n; rc_size := 0 |}.
Definition ex_fails (k n : nat) : rchoice := {| rc_fail := Nat.eqb n k; rc_more := 1; rc_size := 0 |}.
Definition ex_begin : rstate := {| r_tick := 0; r_log := [] |}.
Definition ex_out (s : string) : path := [bs "t"; bs s].
Definition ex_files : list (path * Z) := [(ex_out "x", 4); (ex_out "empty", 0); (ex_out "y", 1)].

(** ** C103: how reads are split up makes no difference *)
(** A torrent of one file: without an error the target is the contents of all the pieces;
    with one, a part of it from the start.  If all pieces are there and no call fails there
    is no error. *)
Theorem C103_single_file : forall disk env temp pieces s w e s',
  single disk env temp pieces s = (w, e, s') ->
  e <> Some RStuck /\ (exists rest, fst (contents disk pieces) = w ++ rest) /\
  (e = None -> contents disk pieces = (w, true)) /\ (works env -> snd (contents disk pieces) = true -> e = None).
Proof. exact single_copies. Qed.
Print Assumptions C103_single_file.
(** A torrent of many files: what is written to the files one after the other is the
    contents of the pieces from the start; without an error each file is written and gets as
    many bytes as its length says.  If the pieces are long enough and no call fails there is
    no error. *)
Theorem C103_many_files : forall disk env files pieces s ws e s',
  multi disk env files pieces s = (ws, e, s') ->
  e <> Some RStuck /\ (exists more, map fst files = map fst ws ++ more) /\ (exists rest, fst (contents disk pieces) = concat (map snd ws) ++ rest) /\
  (e = None -> map fst ws = map fst files /\ map (fun f => zlen (snd f)) ws = map (fun f => Z.max 0 (snd f)) files) /\
  (works env -> total files <= zlen (fst (contents disk pieces)) -> e = None).
Proof. exact multi_copies. Qed.
Print Assumptions C103_many_files.
(** The storage of C36 to C44 and C77 to C84 reads the piece files in this way. *)
Theorem C103_in_the_storage : forall cfg f ps,
  read_pieces cfg f ps = contents f (map (fun p => piece_path cfg (pc_index p)) ps).
Proof. exact read_pieces_contents. Qed.
Print Assumptions C103_in_the_storage.
Example C103_case :
  fst (single ex_disk ex_short (ex_out "x") [ex_p "0"; ex_p "1"] ex_begin) = (bs "abcde", None) /\
  fst (multi ex_disk ex_short ex_files [ex_p "0"; ex_p "1"] ex_begin) = ([(ex_out "x", bs "abcd"); (ex_out "empty", []); (ex_out "y", bs "e")], None) /\
  works ex_short /\ total ex_files = zlen (fst (contents ex_disk [ex_p "0"; ex_p "1"])) /\
  (* the third read fails *)
  fst (multi ex_disk (ex_fails 6) ex_files [ex_p "0"; ex_p "1"] ex_begin) = ([(ex_out "x", bs "ab")], Some RErr) /\
  (* a piece is missing *)
  fst (single ex_disk ex_short (ex_out "x") [ex_p "0"; ex_p "2"; ex_p "1"] ex_begin) = (bs "abc", Some RErr).
Proof. repeat split; vm_compute; reflexivity. Qed.

(** ** C104: one piece file is open at a time *)
Theorem C104_single_file : forall disk env temp pieces s w e s' pre post,
  single disk env temp pieces s = (w, e, s') -> r_log s' = r_log s ++ pre ++ post -> 0 <= opened_pieces pre <= 1.
Proof. exact single_one. Qed.
Print Assumptions C104_single_file.
Theorem C104_many_files : forall disk env files pieces s ws e s' pre post,
  multi disk env files pieces s = (ws, e, s') -> r_log s' = r_log s ++ pre ++ post -> 0 <= opened_pieces pre <= 1.
Proof. exact multi_one. Qed.
Print Assumptions C104_many_files.
Example C104_case :
  r_log (snd (multi ex_disk ex_short ex_files [ex_p "0"; ex_p "1"] ex_begin)) =
    [TOpen (ex_out "x"); FOpen (ex_p "0"); FClose (ex_p "0"); FOpen (ex_p "1"); TClose (ex_out "x");
     TOpen (ex_out "empty"); TClose (ex_out "empty"); TOpen (ex_out "y"); TClose (ex_out "y")].
Proof. vm_compute. reflexivity. Qed.

(** ** C105: nothing is left open *)
(** A torrent of one file: the target is always closed; without an error every piece file
    has been opened and closed, in order. *)
Theorem C105_single_file_partial : forall disk env temp pieces s w e s',
  single disk env temp pieces s = (w, e, s') ->
  exists ev, r_log s' = r_log s ++ ev /\ opened_targets ev = 0 /\ (e = None -> ev = TOpen temp :: one_by_one pieces ++ [TClose temp]).
Proof. exact single_closed. Qed.
Print Assumptions C105_single_file_partial.
Example C105_single_case :
  r_log (snd (single ex_disk ex_short (ex_out "x") [ex_p "0"; ex_p "1"] ex_begin)) =
  [TOpen (ex_out "x"); FOpen (ex_p "0"); FClose (ex_p "0"); FOpen (ex_p "1"); FClose (ex_p "1"); TClose (ex_out "x")].
Proof. vm_compute. reflexivity. Qed.
(** A torrent of many files: without an error every target file has been closed. *)
Theorem C105_many_targets_partial : forall disk env files pieces s ws e s',
  multi disk env files pieces s = (ws, e, s') ->
  exists ev, r_log s' = r_log s ++ ev /\ 0 <= opened_targets ev <= 1 /\ (e = None -> opened_targets ev = 0).
Proof. exact multi_targets. Qed.
Print Assumptions C105_many_targets_partial.
(** But whenever a torrent of many files that are not all empty is completed, a piece file
    is left open (until the garbage collector comes upon it): the end of the last one is never
    read. *)
Theorem C105_many_files_refuted : forall disk env files pieces s ws s',
  multi disk env files pieces s = (ws, None, s') -> 0 < total files ->
  exists ev, r_log s' = r_log s ++ ev /\ opened_pieces ev = 1.
Proof. exact multi_left. Qed.
Print Assumptions C105_many_files_refuted.
Example C105_many_case :
  snd (fst (multi ex_disk ex_short ex_files [ex_p "0"; ex_p "1"] ex_begin)) = None /\ 0 < total ex_files /\
  opened_pieces (r_log (snd (multi ex_disk ex_short ex_files [ex_p "0"; ex_p "1"] ex_begin))) = 1.
Proof. repeat split; vm_compute; reflexivity. Qed.
(** And after an error both a piece file and a target file are left open; with a torrent of
    one file the piece file is. *)
Theorem C105_errors_refuted :
  (exists disk env files pieces ws s', multi disk env files pieces ex_begin = (ws, Some RErr, s') /\
     opened_pieces (r_log s') = 1 /\ opened_targets (r_log s') = 1) /\
  (exists disk env temp pieces w s', single disk env temp pieces ex_begin = (w, Some RErr, s') /\ opened_pieces (r_log s') = 1).
Proof.
  split.
  - exists ex_disk, (ex_fails 6), ex_files, [ex_p "0"; ex_p "1"]. do 2 eexists. split; [vm_compute; reflexivity|]. split; reflexivity.
  - exists ex_disk, (ex_fails 4), (ex_out "x"), [ex_p "0"; ex_p "1"]. do 2 eexists. split; [vm_compute; reflexivity | reflexivity].
Qed.
Print Assumptions C105_errors_refuted.
