(** Vocabulary for the theorems about telling peers whether we are interested. *)
From Verif Require Import GoBase Bitfield BitfieldSpec PeerWire P2PServer P2PServerSpec.

(** What a message says about the interest of its sender, if anything. *)
Definition interest_in (m : message) : option bool :=
  if m_type m =? INTERESTED then Some true else if m_type m =? NOT_INTERESTED then Some false else None.
(** What peer p was last told about our interest; [None]: nothing yet. *)
Definition last_word (p : nat) (ev : list event) : option bool :=
  fold_left (fun w e => match e with
    | EvSent q m => if Nat.eqb p q then match interest_in m with Some b => Some b | None => w end else w
    | _ => w end) ev None.
(** The handler of peer p waits for the next message: everything p has sent has been handled. *)
Definition waiting (s : sys) (p : nat) : Prop := exists t, nth_error (s_threads s) t = Some (THandler p HReceive).
(** A goroutine is inside NotInterest for peer p (peer.go:158-163). *)
Definition losing_interest (s : sys) (p : nat) : Prop :=
  exists t r, nth_error (s_threads s) t = Some (TRequester p r) /\ (r = RNotInterest \/ r = RNotInterested).
(** The handler of p is about to call Interest (peer.go:151-156) while another goroutine, inside
    NotInterest, has set the flag and has not yet sent its message. *)
Definition calls_cross (s : sys) (p : nat) : Prop :=
  exists t u rest, nth_error (s_threads s) t = Some (THandler p (HInterest rest)) /\ nth_error (s_threads s) u = Some (TRequester p RNotInterested).
(** ... never during the run l. *)
Definition never_cross (hash id : bytes) (n : Z) (have : bytes) (l : list action) (p : nat) : Prop :=
  forall l1 l2 s ev, l = l1 ++ l2 -> run_of hash id n have l1 s ev -> ~ calls_cross s p.
(** Nothing about our interest is said to p. *)
Definition says_nothing (p : nat) (ev : list event) : Prop := forall m, In (EvSent p m) ev -> interest_in m = None.
