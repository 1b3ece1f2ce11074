(** What the theorems on the life of a server talk about: the histories of Lifecycle.v. *)
From Verif Require Import GoBase BencTypes Multitracker Lifecycle.

Definition is_sent (e : tevent) (x : levent) : bool :=
  match x with
  | VSent STARTED _ => match e with STARTED => true | _ => false end
  | VSent COMPLETED _ => match e with COMPLETED => true | _ => false end
  | VSent STOPPED _ => match e with STOPPED => true | _ => false end
  | VSent ANNOUNCE _ => match e with ANNOUNCE => true | _ => false end
  | _ => false
  end.
Definition is_call (x : levent) : bool := match x with VStopCalled => true | _ => false end.
(** A call of Stop has returned the error "p2p: server not started". *)
Definition is_rejection (x : levent) : bool := match x with VStop (Some CNotStarted) => true | _ => false end.
Definition count (f : levent -> bool) (ev : list levent) : nat := List.length (filter f ev).
(** How often the trackers were told of an event. *)
Definition sent (e : tevent) (ev : list levent) : nat := count (is_sent e) ev.

(** What may end a server: Stop, a listener that fails, a tracker that fails. *)
Definition reason (ev : list levent) : Prop :=
  In VStopCalled ev \/ In VAcceptFailed ev \/ In (VSent STARTED false) ev \/ In (VSent ANNOUNCE false) ev.

(** The server is at rest: Start and every call of Stop have returned, every loop has
    ended, nobody is about to call Stop, the listener is closed. *)
Definition at_rest (s : life) : Prop :=
  (exists e, li_main s = MReturned e) /\
  (forall l p, In (l, p) (li_loops s) -> p = LEnded) /\
  (forall p, In p (li_stops s) -> exists e, p = SReturned e) /\
  li_watch s = false /\ li_open s = false /\ li_mu s = None.

(** Steps in which the user does not call Stop and every announce has the outcome [g]. *)
Definition quiet (g : got gval unit) (a : laction) : Prop :=
  match a with
  | ACallStop => False
  | AStarted x | AAnnounced _ x | AStopped _ x => x = Some g
  | _ => True
  end.

(** How the steps of Start ended that depend on the outside by their success: the first is
    Load, the second Listen. *)
Definition outcomes (l : list laction) : list bool :=
  flat_map (fun a => match a with AStart ok => [ok] | _ => [] end) l.
