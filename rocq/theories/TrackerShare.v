(** Model of several calls of Multitracker.get at once (p2p/multitracker.go:44-73): the
    announcing loop, Stop, and whoever calls the exported methods Start, Complete, Stop and
    Announce share TrackerTiers, and nothing protects it.

    A step is one statement: reading tier[j], the request, the copy, the assignment of tier[0].
    Simplified: the copy is one step, and what the processor may do to unsynchronised reads and
    writes beyond their order is left out. *)
From Verif Require Import GoBase Multitracker.

Section Share.
Context {T R E : Type}.

(** Where a call is, and the named results so far (60). *)
Inductive gpc :=
| GTry (i j : nat) (last : got R E)      (* 61, 62: tier i, position j is next *)
| GAsked (i j : nat) (t : T)             (* 63: t has been asked *)
| GCopy (i j : nat) (t : T) (r : R)      (* 65 *)
| GFront (i : nat) (t : T) (r : R)       (* 66 *)
| GReturned (g : got R E).               (* 67, 72 *)
(** TrackerTiers (18-20) and the calls made so far, in the order they began. *)
Record share := { sh_tiers : list (list T); sh_calls : list gpc }.
(** A call begins (44-58); call k goes on, with this outcome if it waits for a tracker (63). *)
Inductive gaction := GCall | GStep (k : nat) (o : R + E).
(** What can be seen: call k asks t; t has answered it, or the request failed; call k
    returns (63-72). *)
Inductive gevent := EAsk (k : nat) (t : T) | EOk (k : nat) (t : T) | EFail (k : nat) (t : T) | ERet (k : nat) (g : got R E).

(** One step (60-73). *)
Definition call_step (tiers : list (list T)) (k : nat) (p : gpc) (o : R + E) : option (list (list T) * gpc * list gevent) :=
  match p with
  | GTry i j last =>
      match nth_error tiers i with
      | None => Some (tiers, GReturned last, [ERet k last])                  (* 72 *)
      | Some tier => match nth_error tier j with
                     | None => Some (tiers, GTry (S i) 0 last, [])           (* 61 *)
                     | Some t => Some (tiers, GAsked i j t, [EAsk k t])      (* 62, 63 *)
                     end
      end
  | GAsked i j t => match o with
                    | inr e => Some (tiers, GTry i (S j) (GotErr e), [EFail k t])  (* 69 *)
                    | inl r => Some (tiers, GCopy i j t r, [EOk k t])              (* 64 *)
                    end
  | GCopy i j t r => match nth_error tiers i with
                     | Some tier => Some (list_set i (copy_down j tier) tiers, GFront i t r, [])  (* 65 *)
                     | None => None
                     end
  | GFront i t r => match nth_error tiers i with
                    | Some tier => Some (list_set i (set_first t tier) tiers, GReturned (GotRes r), [ERet k (GotRes r)])  (* 66, 67 *)
                    | None => None
                    end
  | GReturned _ => None
  end.
Definition gexec (s : share) (a : gaction) : option (share * list gevent) :=
  match a with
  | GCall => Some ({| sh_tiers := sh_tiers s; sh_calls := sh_calls s ++ [GTry 0 0 GotNothing] |}, [])
  | GStep k o =>
      match nth_error (sh_calls s) k with
      | Some p => match call_step (sh_tiers s) k p o with
                  | Some (tiers, p', e) => Some ({| sh_tiers := tiers; sh_calls := list_set k p' (sh_calls s) |}, e)
                  | None => None
                  end
      | None => None
      end
  end.
(** A history: any number of steps, in any order (no line of the code). *)
Fixpoint gruns (s : share) (l : list gaction) : option (share * list gevent) :=
  match l with
  | [] => Some (s, [])
  | a :: l' => match gexec s a with
               | Some (s1, e1) => match gruns s1 l' with Some (s2, e2) => Some (s2, e1 ++ e2) | None => None end
               | None => None
               end
  end.
(** NewMultitracker has returned (22-42; the tiers are [new_tiers], Multitracker.v). *)
Definition new_share (tiers : list (list T)) : share := {| sh_tiers := tiers; sh_calls := [] |}.
End Share.
Arguments gpc : clear implicits.
Arguments share : clear implicits.
Arguments gevent : clear implicits.
Arguments gaction : clear implicits.
