(** Vocabulary for C129: announces that overlap. *)
From Verif Require Import GoBase Multitracker TrackerShare.

(** The trackers call k has asked, in order. *)
Definition asks {T R E} (k : nat) (ev : list (gevent T R E)) : list T :=
  flat_map (fun e => match e with EAsk k' t => if Nat.eqb k k' then [t] else [] | _ => [] end) ev.
(** Only call k takes steps. *)
Definition only {R E} (k : nat) (l : list (gaction R E)) : Prop := forall a, In a l -> exists o, a = GStep k o.
(** t is in no tier, and no call is busy with it. *)
Definition gone {T R E} (s : share T R E) (t : T) : Prop :=
  (forall tier, In tier (sh_tiers s) -> ~ In t tier) /\
  forall p, In p (sh_calls s) -> match p with GAsked _ _ x | GCopy _ _ x _ | GFront _ x _ => x <> t | _ => True end.
