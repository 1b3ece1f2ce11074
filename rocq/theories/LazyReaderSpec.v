(** What copying the piece files should do, stated without the readers. *)
From Verif Require Import GoBase Fs LazyReader.

(** The contents of the files one after the other, up to the first that is missing or is a
    directory; and whether there is none such. *)
Fixpoint contents (disk : fs) (ps : list path) : bytes * bool :=
  match ps with
  | [] => ([], true)
  | p :: ps' => match lookup p disk with
                | Some (NFile b) => (b ++ fst (contents disk ps'), snd (contents disk ps'))
                | _ => ([], false)
                end
  end.
(** No system call fails. *)
Definition works (env : nat -> rchoice) : Prop := forall n, rc_fail (env n) = false.
(** The events on piece files, and the number of them that are open after some events. *)
Definition on_piece (e : fdevent) : bool := match e with FOpen _ | FClose _ => true | _ => false end.
Definition piece_events (l : list fdevent) : list fdevent := filter on_piece l.
Definition opened_pieces (l : list fdevent) : Z :=
  zlen (filter (fun e => match e with FOpen _ => true | _ => false end) l) -
  zlen (filter (fun e => match e with FClose _ => true | _ => false end) l).
Definition opened_targets (l : list fdevent) : Z :=
  zlen (filter (fun e => match e with TOpen _ => true | _ => false end) l) -
  zlen (filter (fun e => match e with TClose _ => true | _ => false end) l).
(** Each file is opened, and closed before the next one. *)
Definition one_by_one (ps : list path) : list fdevent := flat_map (fun p => [FOpen p; FClose p]) ps.
(** The number of bytes that files of these lengths take. *)
Definition total (files : list (path * Z)) : Z := fold_right (fun f n => Z.max 0 (snd f) + n) 0 files.
