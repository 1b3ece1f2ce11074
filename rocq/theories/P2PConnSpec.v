(** What can be read off the history of a connection, for the theorems in PropConn.v. *)
From Verif Require Import GoBase GoMap PeerWire P2PConn.

(** A connection that went through the actions l to the state s with the events ev; how it
    can go on from there. *)
Definition krun_of (l : list kaction) (s : kstate) (ev : list kevent) : Prop := kruns kstart l = Some (s, ev).
Definition kgoes_on (s : kstate) (l : list kaction) (s' : kstate) (ev : list kevent) : Prop := kruns s l = Some (s', ev).

(** The block a REQUEST or CANCEL names, and the one a PIECE brings. *)
Definition named (m : message) : breq := (m_index m, m_begin m, m_length m).
Definition carried (m : message) : breq := (m_index m, m_begin m, zlen (m_piece m)).
(** The REQUEST for a block. *)
Definition request_for (r : breq) : message := let '(i, b, l) := r in {| m_type := REQUEST; m_index := i; m_begin := b; m_length := l; m_bitfield := []; m_piece := [] |}.
Definition same (a b : breq) : bool := let '(i, x, l) := a in let '(j, y, k) := b in (i =? j) && (x =? y) && (l =? k).
Definition is_type (t : Z) (m : message) : bool := m_type m =? t.
Definition tally (f : kevent -> bool) (ev : list kevent) : Z := zlen (filter f ev).
Definition sent (t : Z) (e : kevent) : bool := match e with KSent m => is_type t m | _ => false end.
Definition failed (t : Z) (e : kevent) : bool := match e with KFailed m => is_type t m | _ => false end.
Definition handled (t : Z) (e : kevent) : bool := match e with KHandled m => is_type t m | _ => false end.
(** The type of the message that tells of a change. *)
Definition ftype (f : flag) : Z := match f with FChoke => CHOKE | FUnchoke => UNCHOKE | FInterest => INTERESTED | FNotInterest => NOT_INTERESTED end.
Definition flag_eqb (f g : flag) : bool :=
  match f, g with FChoke, FChoke | FUnchoke, FUnchoke | FInterest, FInterest | FNotInterest, FNotInterest => true | _, _ => false end.
Definition changed (f : flag) (e : kevent) : bool := match e with KChange g => flag_eqb f g | _ => false end.

(** The remote chokes us: so it is at the start, until an UNCHOKE has been handled. *)
Definition they_choke (ev : list kevent) : bool :=
  fold_left (fun b e => if handled CHOKE e then true else if handled UNCHOKE e then false else b) ev true.
(** A flag after its changes; a flag as the messages written to the remote tell it. *)
Definition flag_now (up down : flag) (b : bool) (ev : list kevent) : bool :=
  fold_left (fun b e => if changed up e then true else if changed down e then false else b) ev b.
Definition flag_told (up down : flag) (b : bool) (ev : list kevent) : bool :=
  fold_left (fun b e => if sent (ftype up) e then true else if sent (ftype down) e then false else b) ev b.
(** We choke the remote: so it is at the start, until Unchoke; we are interested: so it is
    not at the start. *)
Definition we_choke : list kevent -> bool := flag_now FChoke FUnchoke true.
Definition we_want : list kevent -> bool := flag_now FInterest FNotInterest false.
(** Calls that change a flag do not overlap: the message of a change has been written
    before the next change. *)
Definition in_turn (up down : flag) (ev : list kevent) : Prop :=
  forall e1 f e2 g e3, ev = e1 ++ KChange f :: e2 ++ KChange g :: e3 -> In f [up; down] -> In g [up; down] -> 0 < tally (sent (ftype f)) e2.
(** A cancel of r was handled after the last request for r that was dropped. *)
Definition cancel_waits (r : breq) (ev : list kevent) : bool :=
  fold_left (fun b e => match e with
                        | KHandled m => if is_type CANCEL m && same (named m) r then true else b
                        | KSuppressed r' => if same r' r then false else b
                        | _ => b
                        end) ev false.
(** The first message received in ev that settles a request for r. *)
Fixpoint first_answer (r : breq) (ev : list kevent) : option (option cerr) :=
  match ev with
  | [] => None
  | KRecv m :: ev' =>
      if is_type PIECE m && same (carried m) r then Some None
      else if is_type CHOKE m then Some (Some EChoked)
      else first_answer r ev'
  | _ :: ev' => first_answer r ev'
  end.
(** The calls of requestPiece follow one another (C49), each with different blocks
    (C41). *)
Definition one_at_a_time (ev : list kevent) : Prop :=
  (forall e1 t l e2, ev = e1 ++ KPulled t l :: e2 -> NoDup l) /\
  (forall e1 t l e2 t' l' e3, ev = e1 ++ KPulled t l :: e2 ++ KPulled t' l' :: e3 -> In (KPullEnd t) e2).
(** Nobody is between the change of a flag and the end of the Send. *)
Definition settled_flags (s : kstate) : Prop :=
  forall th, In th (k_threads s) -> (forall f p, th <> TFlag f (Some p)) /\ forall p, th <> TServe (CInterest p).
(** Requests that wait for an answer: pending and not returned. *)
Definition outstanding (ev : list kevent) : Z :=
  tally (fun e => match e with KPending _ _ => true | _ => false end) ev - tally (fun e => match e with KReturned _ _ _ => true | _ => false end) ev.
(** Events of the service of a request: a message handled, a request dropped, a block
    looked up, a PIECE written or not. *)
Definition of_service (e : kevent) : bool :=
  match e with KHandled _ | KSuppressed _ | KLooked _ => true | KSent m | KFailed m => is_type PIECE m | _ => false end.
Definition quiet (ev : list kevent) : Prop := tally of_service ev = 0.
(** The PIECE that answers a request with the data d. *)
Definition answer_to (q : message) (d : bytes) : message := mk_piece (m_index q) (m_begin q) d.
(** Why a requestBlock for r that was pending may return o; e1: all events before it was
    entered, e2: those after. *)
Definition outcome (r : breq) (e1 e2 : list kevent) (o : option cerr) : Prop :=
  match o with
  | None => first_answer r e2 = Some None
  | Some EChoked => first_answer r e2 = Some (Some EChoked) \/ exists ea eb, e2 = ea ++ eb /\ they_choke (e1 ++ ea) = true
  | Some EWrite => In (KFailed (request_for r)) e2
  | Some ECtx => In (KSent (request_for r)) e2
  end.
(** Call t, for r, can return from the state s on its own and with writes that are under
    way: nothing is received, no write fails, and a deadline passes only if [late]. *)
Definition may_return (late : bool) (s : kstate) (t : nat) (r : breq) (o : option cerr) : Prop :=
  exists l s' ev, kgoes_on s l s' ev /\ In (KReturned t r o) ev /\
    (forall a, In a l -> exists u, a = KGo u KOk \/ (late = true /\ a = KGo t KErr)) /\
    (forall e, In e ev -> (exists m, e = KSent m) \/ e = KReturned t r o).
(** An attempt to write a message of type t. *)
Definition tried (t : Z) (e : kevent) : bool := sent t e || failed t e.
Definition any_handled (e : kevent) : bool := match e with KHandled _ => true | _ => false end.
(** What became of a request q, with the events e1 before it was handled and e2 after: dropped
    if a cancel was waiting, else looked up and answered, once; and we did not choke. *)
Definition done_request (q : message) (e1 e2 : list kevent) : Prop :=
  we_choke e1 = false /\
  ((cancel_waits (named q) e1 = true /\ exists ea eb, e2 = ea ++ KSuppressed (named q) :: eb /\ quiet ea /\ quiet eb) \/
   (cancel_waits (named q) e1 = false /\ exists ea eb d ec, e2 = ea ++ KLooked (named q) :: eb ++ KSent (answer_to q d) :: ec /\ quiet ea /\ quiet eb /\ quiet ec)).
(** Call t was entered, returned, or was refused at once; a call for r returned. *)
Definition ev_pending (t : nat) (e : kevent) : bool := match e with KPending u _ => Nat.eqb u t | _ => false end.
Definition ev_returned (t : nat) (e : kevent) : bool := match e with KReturned u _ _ => Nat.eqb u t | _ => false end.
Definition ev_refused (t : nat) (e : kevent) : bool := match e with KRefused u _ => Nat.eqb u t | _ => false end.
Definition returned_of (r : breq) (e : kevent) : bool := match e with KReturned _ r' _ => same r' r | _ => false end.
