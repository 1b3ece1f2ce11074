(** Vocabulary for C31, C48 and C61. *)
From Verif Require Import GoBase BencTypes BencSpec BencReuseSpec TrackerSpec Multitracker.
From Coq Require Import Permutation.

(** [promoted tiers x tiers']: [tiers'] is [tiers] with one occurrence of [x] moved to
    the front of its tier; [before] are the trackers that come before it. *)
Definition promoted {T} (tiers : list (list T)) (before : list T) (x : T) (tiers' : list (list T)) : Prop :=
  exists ts1 a b ts2, tiers = ts1 ++ (a ++ x :: b) :: ts2 /\ tiers' = ts1 ++ (x :: a ++ b) :: ts2 /\ before = concat ts1 ++ a.
(** The n-th of these requests, counted from [n], fails. *)
Fixpoint all_fail {T R E} (ask : nat -> T -> R + E) (n : nat) (l : list T) : Prop :=
  match l with [] => True | t :: l' => (exists e, ask n t = inr e) /\ all_fail ask (S n) l' end.
(** Tiers after any number of calls, whatever the trackers answer. *)
Inductive after_calls {T R E} (tiers : list (list T)) : list (list T) -> Prop :=
| ac_none : after_calls tiers tiers
| ac_call (ask : nat -> T -> R + E) ts : after_calls tiers ts -> after_calls tiers (snd (mt_get ask ts)).

(** Somewhere in the document there is a list with an entry that is not a peer. *)
Definition misshapen_list (b : bytes) : Prop :=
  exists l out a r v, b = a ++ out ++ r /\ lax (BList l) out /\ In v l /\ ~ peer_shaped v.

(** [document b ks kts ts rest]: [b] is a dictionary with the keys [ks] (written [kts])
    and value texts [ts], followed by [rest]. *)
Definition document (b : bytes) (ks kts ts : list bytes) (rest : bytes) : Prop :=
  ascending ks /\ Forall2 lax_str ks kts /\ List.length ts = List.length ks /\ Forall value_text ts /\
  b = "d"%byte :: concat (map (fun kt => fst kt ++ snd kt) (combine kts ts)) ++ "e"%byte :: rest.
