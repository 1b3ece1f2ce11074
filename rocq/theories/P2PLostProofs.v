(** Peers that were lost. *)
From Verif Require Import GoBase GoBaseProofs Bitfield GoMap PeerWire Strconv NetIP Tracker P2PPeer P2PServer P2PServerSpec P2PServerProofs P2PServerThms P2PAddrSpec P2PAddrProofs.

Ltac drops := repeat match goal with
  | |- context [fold_left (fun s p => match nth_error (s_peers s) p with Some q => drop_peer p q s | None => s end) ?l ?x] => fold (drop_all l x)
  end.
Section Lost.
Variable hash id : bytes.
Variable n : Z.
Variable have : bytes.
Lemma count_in (f : event -> bool) ev x : In x ev -> f x = true -> 1 <= count f ev.
Proof.
  intros I F. unfold count. assert (J : In x (filter f ev)) by (apply filter_In; auto). destruct (filter f ev); [destruct J|]. rewrite zlen_cons. pose proof (zlen_nonneg l). lia.
Qed.
Lemma queues_self a : queues a (EvQueued a) = true. Proof. cbn [queues]. now apply bytes_eqb_eq. Qed.
Lemma dials_self a : dials a (EvDial a) = true. Proof. cbn [dials]. now apply bytes_eqb_eq. Qed.
Lemma count_two f a b : count f (a ++ b) = count f a + count f b.
Proof. unfold count. now rewrite filter_app, zlen_app. Qed.
Theorem never_redialled l s ev a l' s' ev' : run_of hash id n have l s ev -> goes_on hash id n s l' s' ev' ->
  (In (EvQueued a) ev -> ~ In (EvQueued a) ev') /\ (In (EvDial a) ev -> ~ In (EvQueued a) ev' /\ ~ In (EvDial a) ev').
Proof.
  intros R G. pose proof (addresses_once _ _ _ _ _ _ _ a (run_more _ _ _ _ _ _ _ _ _ _ R G)) as [Q D]. rewrite (count_two (queues a)) in Q, D. rewrite (count_two (dials a)) in D.
  destruct (addresses_once _ _ _ _ _ _ _ a R) as [Q1 D1].
  assert (A : In (EvQueued a) ev' -> 1 <= count (queues a) ev') by (intros I; eapply count_in; [exact I|apply queues_self]).
  assert (B : In (EvDial a) ev' -> 1 <= count (dials a) ev') by (intros I; eapply count_in; [exact I|apply dials_self]).
  assert (Z1 : 0 <= count (queues a) ev') by apply zlen_nonneg. assert (Z2 : 0 <= count (dials a) ev') by apply zlen_nonneg.
  split.
  - intros I. assert (1 <= count (queues a) ev) by (eapply count_in; [exact I|apply queues_self]). intros J. specialize (A J). lia.
  - intros I. assert (1 <= count (dials a) ev) by (eapply count_in; [exact I|apply dials_self]). split; intros J; [specialize (A J)|specialize (B J)]; lia.
Qed.
(** Nothing is blocked without a Block. *)
Lemma blocked_event l s ev a : run_of hash id n have l s ev -> In a (g_blocked (s_reg s)) -> exists p, In (EvBlocked p) ev.
Proof.
  intros (blank & _ & _ & R). revert R a. apply (runs_ind hash id blank (fun s ev => forall a, In a (g_blocked (s_reg s)) -> exists p, In (EvBlocked p) ev)); [intros a []|].
  clear. intros s ev a s' e P H x I.
  assert (D : (In x (g_blocked (s_reg s)) \/ exists p, In (EvBlocked p) e)).
  { clear P. revert I. open_exec H; drops; fields; rewrite ?(fun p q g => proj1 (proj2 (disconnect_same p q g))); try (intros I; left; exact I); try (intros I; right; eexists; cbn; auto; fail).
    intros I. left. revert I. apply (drop_all_ind (fun s1 => In x (g_blocked (s_reg s1)) -> In x (g_blocked (s_reg s)))); [auto|]. intros s1 p1 q1 L1 _. fields.
    rewrite (proj1 (proj2 (disconnect_same _ _ _))). exact L1. }
  destruct D as [D|(p & D)]; [destruct (P _ D) as (p & D')|]; exists p; apply in_or_app; auto.
Qed.
Theorem first_time_queued l s ev tp a : run_of hash id n have l s ev -> named tp a -> ~ In (EvQueued a) ev -> (forall p, ~ In (EvBlocked p) ev) ->
  s_crashed s = false -> s_mu s = None -> zlen (s_queue s) < 50 -> exists s', goes_on hash id n s [AAdd tp] s' [EvQueued a] /\ s_queue s' = s_queue s ++ [tp].
Proof.
  intros R N NQ NB C M Q. assert (A : remote_addr tp = Some a). { destruct N as (ip & P & ->). unfold remote_addr. rewrite P. reflexivity. }
  pose proof R as (blank & B1 & _). eexists. split; [exists blank; split; [exact B1|]; cbn [P2PServer.runs]; unfold P2PServer.exec; rewrite C; unfold add_peer; rewrite M, A|].
  - destruct (smem bytes_eqb a (g_known (s_reg s))) eqn:K; [destruct NQ; exact (known_queued _ _ _ _ _ _ _ _ R K)|]. destruct (smem bytes_eqb a (g_blocked (s_reg s))) eqn:B.
    { apply (smem_in _ beq_iff) in B. destruct (blocked_event _ _ _ _ R B) as (p & I). destruct (NB p I). }
    cbn [orb]. rewrite (proj2 (Z.ltb_lt _ _) Q). cbn [app]. reflexivity.
  - reflexivity.
Qed.
End Lost.
