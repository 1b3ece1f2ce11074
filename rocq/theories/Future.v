(** Model of future/future.go: one Future shared by any number of goroutines.  Every shared
    access is one step; the channel is only ever closed, so it is a flag. *)
From Verif Require Import GoBase.

Section Future.
Variable A : Type.
Inductive fcall := FDeliver (v : A) | FWait.
Inductive fpc :=
| FStart
| FStored                                   (* future.go:13 done, 14 not yet *)
| FReceived                                 (* 18 done, 19 not yet *)
| FReturned (r : option A)                  (* the result of Wait *)
| FPanicked.                                (* 14: close of a closed channel *)
(** type Future (future.go:3-6). *)
Record future := { fu_done : bool; fu_value : A }.
Record fstate := { fs_future : future; fs_threads : list (fcall * fpc) }.

(** The next step of a goroutine in Deliver (12-15) or Wait (17-20); [None]: it is blocked
    or has finished. *)
Definition fnext (u : future) (c : fcall) (p : fpc) : option (future * fpc) :=
  match c, p with
  | FDeliver v, FStart => Some ({| fu_done := fu_done u; fu_value := v |}, FStored)
  | FDeliver v, FStored => if fu_done u then Some (u, FPanicked)
                           else Some ({| fu_done := true; fu_value := fu_value u |}, FReturned None)
  | FWait, FStart => if fu_done u then Some (u, FReceived) else None
  | FWait, FReceived => Some (u, FReturned (Some (fu_value u)))
  | _, _ => None
  end.
Definition fstep (s : fstate) (t : nat) : option fstate :=
  match nth_error (fs_threads s) t with
  | Some (c, p) =>
      match fnext (fs_future s) c p with
      | Some (u, p') => Some {| fs_future := u; fs_threads := list_set t (c, p') (fs_threads s) |}
      | None => None
      end
  | None => None
  end.
Fixpoint fruns (s : fstate) (ts : list nat) : option fstate :=
  match ts with
  | [] => Some s
  | t :: ts' => match fstep s t with Some s' => fruns s' ts' | None => None end
  end.
(** New (8-10), [zero] being T's zero value, and the calls that will be made on it. *)
Definition fresh (zero : A) (cs : list fcall) : fstate :=
  {| fs_future := {| fu_done := false; fu_value := zero |}; fs_threads := map (fun c => (c, FStart)) cs |}.
End Future.
Arguments FDeliver {A}. Arguments FWait {A}. Arguments FStart {A}. Arguments FStored {A}. Arguments FReceived {A}.
Arguments FReturned {A}. Arguments FPanicked {A}. Arguments fs_future {A}. Arguments fs_threads {A}. Arguments fu_done {A}. Arguments fu_value {A}.
Arguments fstep {A}. Arguments fruns {A}. Arguments fresh {A}. Arguments fnext {A}.
