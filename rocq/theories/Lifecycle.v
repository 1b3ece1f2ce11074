(** Model of the life of a server: Start, Stop, the loops started by Start and what they
    tell the tracker (p2p/server.go:85-140, 142-205, 228-241, 484-497, and errgroup), for one
    call of Start and any number of calls of Stop.

    What the loops do besides ending is in P2PServer.v.  Server.mu is kept here as far as
    Start, Stop and the loops wait for it; everything else in the server may take and release
    it at any time ([AOther]).  The outcome of an announce is any outcome of the trackers
    (Multitracker.v).  Not modelled: time (a ticker may fire at any moment) and the peers that
    are added; that Stop, while it disconnects the peers, and
    UnchokePeers, while it writes to them, may wait for the locks of peers (P2PServer.v). *)
From Verif Require Import GoBase BencTypes Multitracker.

(** eventName (multitracker.go:80-87). *)
Inductive tevent := STARTED | COMPLETED | STOPPED | ANNOUNCE.
(** The functions given to eg.Go (server.go:103-106, 117). *)
Inductive loop := LServe | LRequests | LDial | LUnchoke | LAnnounce.
(** Where a loop is: at its select or in Accept; for [every] (server.go:484-497) also in the
    call of f, in its two parts; returned. *)
Inductive lpc := LSelect | LCall | LAfter | LEnded.
(** Why something returned. *)
Inductive cause := CLoad | CListen | CTracker | CAccept | CContext | CNotStarted.
(** Where Start is. *)
Inductive mpc :=
| MLoad | MListen | MTracker
| MAdd (period : Z)                (* AddPeer of each peer in the response *)
| MUnchoke | MUnchoking | MWait
| MReturned (e : option cause).
(** Where a call of Stop is: before mu.Lock; in Tracker.Stop; returned. *)
Inductive spc := SLock | STell | SReturned (e : option cause).
(** Who holds Server.mu. *)
Inductive holder := HStop (k : nat) | HOther.

(** The state: Server.tcp, cancel, mu (server.go:34-59) and the goroutines of Start and Stop. *)
Record life := {
  li_main : mpc;
  li_loops : list (loop * lpc);
  li_err : option cause;          (* the error kept by the errgroup *)
  li_done : bool;                 (* ctx is done *)
  li_open : bool;                 (* the listener is open *)
  li_cancel : bool;               (* p2p.cancel is set *)
  li_watch : bool;                (* the goroutine of server.go:99-102 waits *)
  li_stops : list spc;
  li_mu : option holder;
  li_crashed : bool }.
Definition set_main (x : mpc) (s : life) : life :=
  {| li_main := x; li_loops := li_loops s; li_err := li_err s; li_done := li_done s; li_open := li_open s; li_cancel := li_cancel s; li_watch := li_watch s; li_stops := li_stops s; li_mu := li_mu s; li_crashed := li_crashed s |}.
Definition set_loops (x : list (loop * lpc)) (s : life) : life :=
  {| li_main := li_main s; li_loops := x; li_err := li_err s; li_done := li_done s; li_open := li_open s; li_cancel := li_cancel s; li_watch := li_watch s; li_stops := li_stops s; li_mu := li_mu s; li_crashed := li_crashed s |}.
Definition set_err (x : option cause) (s : life) : life :=
  {| li_main := li_main s; li_loops := li_loops s; li_err := x; li_done := li_done s; li_open := li_open s; li_cancel := li_cancel s; li_watch := li_watch s; li_stops := li_stops s; li_mu := li_mu s; li_crashed := li_crashed s |}.
Definition set_done (x : bool) (s : life) : life :=
  {| li_main := li_main s; li_loops := li_loops s; li_err := li_err s; li_done := x; li_open := li_open s; li_cancel := li_cancel s; li_watch := li_watch s; li_stops := li_stops s; li_mu := li_mu s; li_crashed := li_crashed s |}.
Definition set_open (x : bool) (s : life) : life :=
  {| li_main := li_main s; li_loops := li_loops s; li_err := li_err s; li_done := li_done s; li_open := x; li_cancel := li_cancel s; li_watch := li_watch s; li_stops := li_stops s; li_mu := li_mu s; li_crashed := li_crashed s |}.
Definition set_cancel (x : bool) (s : life) : life :=
  {| li_main := li_main s; li_loops := li_loops s; li_err := li_err s; li_done := li_done s; li_open := li_open s; li_cancel := x; li_watch := li_watch s; li_stops := li_stops s; li_mu := li_mu s; li_crashed := li_crashed s |}.
Definition set_watch (x : bool) (s : life) : life :=
  {| li_main := li_main s; li_loops := li_loops s; li_err := li_err s; li_done := li_done s; li_open := li_open s; li_cancel := li_cancel s; li_watch := x; li_stops := li_stops s; li_mu := li_mu s; li_crashed := li_crashed s |}.
Definition set_stops (x : list spc) (s : life) : life :=
  {| li_main := li_main s; li_loops := li_loops s; li_err := li_err s; li_done := li_done s; li_open := li_open s; li_cancel := li_cancel s; li_watch := li_watch s; li_stops := x; li_mu := li_mu s; li_crashed := li_crashed s |}.
Definition set_lmu (x : option holder) (s : life) : life :=
  {| li_main := li_main s; li_loops := li_loops s; li_err := li_err s; li_done := li_done s; li_open := li_open s; li_cancel := li_cancel s; li_watch := li_watch s; li_stops := li_stops s; li_mu := x; li_crashed := li_crashed s |}.
Definition set_lcrashed (s : life) : life :=
  {| li_main := li_main s; li_loops := li_loops s; li_err := li_err s; li_done := li_done s; li_open := li_open s; li_cancel := li_cancel s; li_watch := li_watch s; li_stops := li_stops s; li_mu := li_mu s; li_crashed := true |}.

(** What can happen next: a step of Start, of a loop or of a call of Stop (server.go:85-241, 484-497). *)
Inductive laction :=
| AStart (ok : bool)                       (* a step of Start that depends on the outside only by its success *)
| AStarted (g : option (got gval unit))      (* Tracker.Start returns; None: it panics *)
| ALoop (i : nat)                          (* a loop goes on: a tick, or the end of f *)
| AAnnounced (i : nat) (g : option (got gval unit)) (* Tracker.Announce returns or panics *)
| AEnd (i : nat)                           (* a loop returns: Accept failed or ctx is done *)
| AWatch                                   (* the goroutine of server.go:99-102 calls Stop *)
| ACallStop                                (* the user calls Stop *)
| ASStep (k : nat)                         (* a call of Stop gets the lock *)
| AStopped (k : nat) (g : option (got gval unit)) (* Tracker.Stop returns or panics in it *)
| AOther.                                  (* the rest of the server takes or releases mu *)
(** What can be seen from outside. *)
Inductive levent :=
| VSent (e : tevent) (ok : bool)           (* an announce, and whether it was answered *)
| VStopCalled                              (* the user has called Stop *)
| VAcceptFailed
| VReturned (e : option cause)             (* Start returns *)
| VStop (e : option cause).                (* a call of Stop returns *)

(** Whether the trackers answered. *)
Definition answered (g : option (got gval unit)) : bool := match g with Some (GotRes _) => true | _ => false end.
(** A panic in the tracker's code goes through the caller. *)
Definition with_panic {A} (use : got gval unit -> res unit A) (g : option (got gval unit)) : res unit A :=
  match g with Some x => use x | None => Panic end.
(** Server.mu can be locked (server.go:125, 207). *)
Definition free (s : life) : bool := match li_mu s with None => true | _ => false end.
(** errgroup: the first error is kept and cancels ctx. *)
Definition group_error (c : cause) (s : life) : life :=
  set_done true (set_err (match li_err s with None => Some c | e => e end) s).
(** Loop number i is now at p (the loops of server.go:103-106, 117). *)
Definition loop_goes (i : nat) (l : loop) (p : lpc) (s : life) : life := set_loops (list_set i (l, p) (li_loops s)) s.
(** The loops that run in [every] (server.go:106, 117). *)
Definition is_every (l : loop) : bool := match l with LUnchoke | LAnnounce => true | _ => false end.
(** eg.Wait can return (server.go:121). *)
Definition all_ended (l : list (loop * lpc)) : bool :=
  forallb (fun x => match snd x with LEnded => true | _ => false end) l.
(** Start returns; the deferred cancel (server.go:97). *)
Definition start_returns (e : option cause) (s : life) : life := set_done true (set_main (MReturned e) s).

(** Start (server.go:85-122). *)
Definition start_step (s : life) (ok : bool) : option (life * list levent) :=
  match li_main s with
  | MLoad => if ok then Some (set_main MListen s, []) else Some (set_main (MReturned (Some CLoad)) s, [VReturned (Some CLoad)])  (* 86-89 *)
  | MListen =>                                  (* 90-106 *)
      if ok then Some (set_main MTracker (set_watch true (set_cancel true (set_open true
                  (set_loops [(LServe, LSelect); (LRequests, LSelect); (LDial, LSelect); (LUnchoke, LSelect)] s)))), [])
      else Some (set_main (MReturned (Some CListen)) s, [VReturned (Some CListen)])
  | MAdd _ => if free s then Some (set_main MUnchoke (set_loops (li_loops s ++ [(LAnnounce, LSelect)]) s), []) else None  (* 111-117 *)
  | MUnchoke => if free s then Some (set_main MUnchoking s, []) else None  (* 118, 207-209 *)
  | MUnchoking => Some (set_main MWait s, [])   (* 224-225 *)
  | MWait => if all_ended (li_loops s) then Some (start_returns (li_err s) s, [VReturned (li_err s)]) else None  (* 121 *)
  | _ => None
  end.
(** The loops; a select with several cases ready takes any of them. *)
Definition loop_step (s : life) (i : nat) : option (life * list levent) :=
  match nth_error (li_loops s) i with
  | Some (l, LSelect) => if is_every l then Some (loop_goes i l LCall s, []) else None          (* 490-493 *)
  | Some (LUnchoke, LCall) => if free s then Some (loop_goes i LUnchoke LAfter s, []) else None   (* 207-209 *)
  | Some (LUnchoke, LAfter) => Some (loop_goes i LUnchoke LSelect s, [])                          (* 224-225 *)
  | Some (LAnnounce, LAfter) => if free s then Some (loop_goes i LAnnounce LSelect s, []) else None  (* 234-240 *)
  | _ => None
  end.
(** Serve (142-168), DialPeers (170-190), RequestPieces (192-205) and [every] return: Accept
    failed, or ctx is done. *)
Definition loop_end (s : life) (i : nat) : option (life * list levent) :=
  match nth_error (li_loops s) i with
  | Some (LServe, LSelect) => Some (group_error CAccept (loop_goes i LServe LEnded s), if li_open s then [VAcceptFailed] else [])  (* 147-151 *)
  | Some (l, LSelect) => if li_done s then Some (group_error CContext (loop_goes i l LEnded s), []) else None
  | _ => None
  end.
(** Stop (124-140). *)
Definition stop_step (s : life) (k : nat) : option (life * list levent) :=
  match nth_error (li_stops s) k with
  | Some SLock =>
      if free s then
        if li_cancel s
        then Some (set_lmu (Some (HStop k)) (set_done true (set_open false (set_stops (list_set k STell (li_stops s)) s))), [])
        else Some (set_stops (list_set k (SReturned (Some CNotStarted)) (li_stops s)) s, [VStop (Some CNotStarted)])
      else None
  | _ => None
  end.
(** One step of one goroutine (server.go:85-140, 228-241). *)
Definition lexec (s : life) (a : laction) : option (life * list levent) :=
  if li_crashed s then None
  else match a with
  | AStart ok => start_step s ok
  | AStarted g =>                               (* 107-110 *)
      match li_main s with
      | MTracker => match with_panic use_start g with
                    | Ok d => Some (set_main (MAdd d) s, [VSent STARTED true])
                    | Err _ => Some (start_returns (Some CTracker) s, [VSent STARTED (answered g); VReturned (Some CTracker)])
                    | Panic => Some (set_lcrashed s, [VSent STARTED (answered g)])
                    end
      | _ => None
      end
  | ALoop i => loop_step s i
  | AAnnounced i g =>                           (* 229-232 *)
      match nth_error (li_loops s) i with
      | Some (LAnnounce, LCall) =>
          match with_panic use_announce g with
          | Ok _ => Some (loop_goes i LAnnounce LAfter s, [VSent ANNOUNCE true])
          | Err _ => Some (group_error CTracker (loop_goes i LAnnounce LEnded s), [VSent ANNOUNCE (answered g)])
          | Panic => Some (set_lcrashed s, [VSent ANNOUNCE (answered g)])
          end
      | _ => None
      end
  | AEnd i => loop_end s i
  | AWatch => if li_watch s && li_done s then Some (set_watch false (set_stops (li_stops s ++ [SLock]) s), []) else None  (* 99-102 *)
  | ACallStop => Some (set_stops (li_stops s ++ [SLock]) s, [VStopCalled])
  | ASStep k => stop_step s k
  | AStopped k g =>                             (* 132-139; errors of disconnect are not modelled *)
      match nth_error (li_stops s) k with
      | Some STell =>
          match g with
          | None => Some (set_lcrashed s, [VSent STOPPED false])
          | Some g' => let e := match g' with GotErr _ => Some CTracker | _ => None end in
                       Some (set_lmu None (set_stops (list_set k (SReturned e) (li_stops s)) s), [VSent STOPPED (answered g); VStop e])
          end
      | _ => None
      end
  | AOther => match li_mu s with
              | None => Some (set_lmu (Some HOther) s, [])
              | Some HOther => Some (set_lmu None s, [])
              | Some (HStop _) => None
              end
  end.
(** A history: any number of steps, in any order (no line of the code). *)
Fixpoint lruns (s : life) (l : list laction) : option (life * list levent) :=
  match l with
  | [] => Some (s, [])
  | a :: l' => match lexec s a with
               | Some (s1, e1) => match lruns s1 l' with Some (s2, e2) => Some (s2, e1 ++ e2) | None => None end
               | None => None
               end
  end.
(** New (server.go:61-83), and Start is called. *)
Definition fresh_server : life :=
  {| li_main := MLoad; li_loops := []; li_err := None; li_done := false; li_open := false; li_cancel := false; li_watch := false;
     li_stops := []; li_mu := None; li_crashed := false |}.
