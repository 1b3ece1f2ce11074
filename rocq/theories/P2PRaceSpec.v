(** Vocabulary for the theorems about the server's tables (the maps of Server). *)
From Verif Require Import GoBase PeerWire P2PServer P2PServerSpec.

(** The action a, which leads from s to s' with the events e, neither changes the tables nor
    depends on them: whatever they contain, it does the same and leaves them alone. *)
Definition leaves_tables (hash id : bytes) (n : Z) (s : sys) (a : action) (s' : sys) (e : list event) : Prop :=
  s_reg s' = s_reg s /\ forall g, goes_on hash id n (set_reg g s) [a] (set_reg g s') e.
(** It only takes piece i out of inflight. *)
Definition ends_request (hash id : bytes) (n : Z) (s : sys) (a : action) (s' : sys) (e : list event) (i : Z) : Prop :=
  forall g, goes_on hash id n (set_reg g s) [a] (set_reg (set_inflight (filter (fun x => negb (fst x =? i)) (g_inflight g)) g) s') e.
(** In s goroutine t can take a step that changes inflight. *)
Definition writes_inflight (hash id : bytes) (n : Z) (s : sys) (t : nat) : Prop :=
  exists c s' e, goes_on hash id n s [AGo t c] s' e /\ g_inflight (s_reg s') <> g_inflight (s_reg s).

(** The same for the two tables of one connection (the maps of Peer). *)
From Verif Require Import P2PConn P2PConnSpec.
Definition kleaves_tables (s : kstate) (a : kaction) (s' : kstate) (e : list kevent) : Prop :=
  k_inflight s' = k_inflight s /\ k_cancelled s' = k_cancelled s /\
  forall x y, kgoes_on (set_kinflight x (set_kcancelled y s)) [a] (set_kinflight x (set_kcancelled y s')) e.
(** In s goroutine t is writing a message: its next step is that the write is done or has
    failed. *)
Definition kwrites (s : kstate) (t : nat) : Prop := exists c s' e m, kgoes_on s [KGo t c] s' e /\ (In (KSent m) e \/ In (KFailed m) e).
