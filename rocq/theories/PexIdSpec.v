(** Vocabulary for C130. *)
From Verif Require Import GoBase Tracker Pex PexSpec.

(** At the end of this history the tracker does not know address a of torrent h: it has never
    announced, or a sweep found it gone for a minute or stopped, and it has not announced since. *)
Definition silent (hist : list px_event_t) (h a : bytes) : Prop := forall e p ev t, In e hist -> ~ announce_event e h a p ev t.
Definition forgotten (hist : list px_event_t) (h a : bytes) : Prop :=
  silent hist h a \/
  exists before clk after, hist = before ++ EvSweep h clk :: after /\ silent after h a /\
    forall t ev, last_announce before h a t ev -> ev = leaving \/ a_minute < clk a - t.
(** The last announce from a was not "stopped" and is at most a minute old at time [now]. *)
Definition alive (hist : list px_event_t) (h a : bytes) (now : Z) : Prop :=
  exists t ev, last_announce hist h a t ev /\ ev <> leaving /\ now - t <= a_minute.
(** No sweep in [later] forgets a; [hist]: what was before. *)
Definition remembered (hist later : list px_event_t) (h a : bytes) : Prop :=
  forall pre clk post, later = pre ++ EvSweep h clk :: post -> alive (hist ++ pre) h a (clk a).
