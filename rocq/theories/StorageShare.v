(** Two Storages on one disk, as when a user downloads two torrents into the same
    directories (New, storage.go:32-38, called twice), in one process or in two.

    Each is a process of StorageSys.v with its own memory, calls, crashes and restarts; the
    disk is common.  Simplified: the steps of one Storage are not interleaved with the other's
    more finely than with its own (a PutBlock that stores a piece is one step). *)
From Verif Require Import GoBase Fs Storage StorageSys.

(** The process continues on this disk. *)
Definition on_this_disk (f : fs) (p : proc) : proc :=
  match p with
  | Running w ts => Running {| w_fs := f; w_past := w_past w; w_tick := w_tick w; w_mem := w_mem w |} ts
  | Dead _ tick => Dead f tick
  end.
Definition disk_left (p : proc) : fs := match p with Running w _ => w_fs w | Dead f _ => f end.

Record shared := { sh_disk : fs; sh_one : proc; sh_two : proc }.
Inductive which := One | Two.
Definition proc_at (x : which) (s : shared) : proc := on_this_disk (sh_disk s) (match x with One => sh_one s | Two => sh_two s end).

Section Share.
Variable sha1 : bytes -> bytes.
Variable cfg : which -> config.
Variable env : which -> nat -> choice.

(** A step of one of them (StorageSys.exec) on the common disk. *)
Definition share_step (s : shared) (x : which) (l : label) : option (shared * list event) :=
  match exec sha1 (cfg x) (env x) (proc_at x s) l with
  | Some (p, es) =>
      Some (match x with
            | One => {| sh_disk := disk_left p; sh_one := p; sh_two := sh_two s |}
            | Two => {| sh_disk := disk_left p; sh_one := sh_one s; sh_two := p |}
            end, es)
  | None => None
  end.
(** The events are those of both; each carries whose it is. *)
Fixpoint share_run (s : shared) (ls : list (which * label)) : option (shared * list (which * event)) :=
  match ls with
  | [] => Some (s, [])
  | (x, l) :: ls' =>
      match share_step s x l with
      | Some (s', es) => match share_run s' ls' with Some (s'', es') => Some (s'', map (pair x) es ++ es') | None => None end
      | None => None
      end
  end.
Definition share_start (f : fs) : shared := {| sh_disk := f; sh_one := Dead f 0; sh_two := Dead f 0 |}.
End Share.
