(** Pieces are announced. *)
From Verif Require Import GoBase GoBaseProofs Bitfield BitfieldSpec BitfieldProofs GoMap PeerWire P2PServer P2PServerSpec P2PHaveSpec
  P2PServerProofs P2PSortProofs P2PLockProofs P2PAnnounceProofs P2PRegistryProofs P2PSoloProofs P2POriginProofs NodeServerProofs P2PServerThms P2PEndProofs.
From Coq Require Import Permutation.

Lemma same_peers_all l l' x : same_peers l l' = true -> In x l -> In x l'.
Proof.
  intros H I. apply reorders_perm in H. apply (in_map Z.of_nat) in I. apply (Permutation_in _ H) in I.
  apply in_map_iff in I as (y & E & I). apply Nat2Z.inj in E. now subst.
Qed.

Section Have.
Variable own_hash own_id blank : bytes.
Notation exec := (exec own_hash own_id blank).
Notation runs := (runs own_hash own_id blank).

Lemma told_more ev e p i : told ev p i -> told (ev ++ e) p i.
Proof. intros (m & I & A). exists m. split; [apply in_or_app; auto|exact A]. Qed.
(** A step makes nobody a peer that was not told. *)
Lemma joined_step s ev a s' e p i : here_ok s ev -> exec s a = Some (s', e) -> member (s_have s) i -> joined s' (ev ++ e) p -> joined s ev p \/ told e p i.
Proof.
  intros HO H M ((x & R) & (id & ip & C) & (q' & Q' & K)). apply in_app_or in C as [C|C].
  - destruct (HO _ _ _ C) as (q & Q & _ & _ & P & _). left. split; [|split; [eauto|]].
    + destruct (active_new _ _ _ _ _ _ _ _ _ H R) as [Y|(t & q1 & T & _)]; [exists x; exact Y|].
      pose proof (tsum_ge (pre p) _ _ _ (pre_nonneg p) T) as G. cbn [pre] in G. rewrite Nat.eqb_refl in G. cbn [one] in G. lia.
    + exists q. split; [exact Q|]. destruct (peers_step _ _ _ _ _ _ _ _ _ H Q) as (q2 & Q2 & (_ & _ & _ & G) & _). assert (q2 = q') as -> by congruence.
      destruct (q_closed q); [rewrite (G eq_refl) in K; discriminate|reflexivity].
  - right. open_exec H; cbn [In] in C; try tauto; repeat (destruct C as [C|C]; try discriminate C; try tauto).
    all: try match type of C with In _ (if ?b then _ else _) => destruct b; cbn [In] in C; repeat (destruct C as [C|C]; try discriminate C; try tauto) end.
    injection C as <- <- <-. eexists. split; [left; reflexivity|]. right. split; [reflexivity|exact M].
Qed.
Definition pend (i : Z) (s : sys) (ev : list event) : Prop :=
  member (s_have s) i /\
  ((exists t p, nth_error (s_threads s) t = Some (TPiece p i PShare)) \/
   (exists t p to, nth_error (s_threads s) t = Some (TPiece p i (PHave to)) /\ forall p', joined s ev p' -> told ev p' i \/ In p' to) \/
   (exists t p x to, nth_error (s_threads s) t = Some (TPiece p i (PSend x to)) /\ forall p', joined s ev p' -> told ev p' i \/ x = p' \/ In p' to) \/
   (forall p', joined s ev p' -> told ev p' i)).
Lemma pend_step i s ev a s' e : here_ok s ev -> exec s a = Some (s', e) -> pend i s ev ->
  pend i s' (ev ++ e) \/ exists t p x to, a = AGo t CErr /\ nth_error (s_threads s) t = Some (TPiece p i (PSend x to)).
Proof.
  intros HO H (M & P). pose proof (have_mono _ _ _ _ _ _ _ _ H M) as M'.
  pose proof (fun p => joined_step _ _ _ _ _ p i HO H M) as J.
  assert (TM : forall p, told ev p i -> told (ev ++ e) p i) by (intros p; apply told_more).
  assert (TN : forall p, told e p i -> told (ev ++ e) p i) by (intros p (m & I & A); exists m; split; [apply in_or_app; auto|exact A]).
  assert (DT : forall t, turn_of t a \/ ~ turn_of t a).
  { intros t. destruct a; try (right; intros [c X]; discriminate). destruct (Nat.eq_dec t t0) as [->|N]; [left; eexists; reflexivity|right; intros [d X]; congruence]. }
  destruct P as [(t & p & T)|[(t & p & to & T & A)|[(t & p & x & to & T & A)|A]]].
  - destruct (DT t) as [[c ->]|N]; [|left; split; [exact M'|]; left; exists t, p; eapply others_stay; eassumption].
    left. split; [exact M'|]. right. left. pose proof H as H0. unfold P2PServer.exec in H. destruct (s_crashed s); [discriminate|]. unfold step_thread in H. rewrite T in H. unfold step_piece in H.
    destruct (nth_error (s_peers s) p); [|discriminate]. destruct c; try discriminate H. destruct (s_mu s); [discriminate|]. destruct (same_peers _ _) eqn:SP; [|discriminate]. injection H as <- <-.
    exists t, p, l. split; [fields; eapply set_self; exact T|]. intros p' ((x & R) & _). right. apply (same_peers_all _ _ _ SP). apply in_map_iff. exists (x, p'). split; [reflexivity|exact R].
  - destruct (DT t) as [[c ->]|N].
    2:{ left. split; [exact M'|]. right. left. exists t, p, to. split; [eapply others_stay; eassumption|]. intros p' JP. destruct (J _ JP) as [JP'|X]; [|auto]. destruct (A _ JP'); auto. }
    unfold P2PServer.exec in H. destruct (s_crashed s); [discriminate|]. unfold step_thread in H. rewrite T in H. unfold step_piece in H. destruct (nth_error (s_peers s) p); [|discriminate].
    destruct to as [|x to]; destruct c; try discriminate H.
    + injection H as <- <-. left. split; [exact M'|]. right. right. right. intros p' JP. destruct (J _ JP) as [JP'|X]; [|auto]. destruct (A _ JP') as [X|[]]; auto.
    + destruct (nth_error (s_peers s) x) as [qx|] eqn:QX; [|discriminate]. destruct (q_closed qx) eqn:KX; injection H as <- <-.
      * left. split; [exact M'|]. right. left. exists t, p, to. split; [fields; eapply set_self; exact T|]. intros p' JP. destruct (J _ JP) as [JP'|X]; [|auto]. destruct (A _ JP') as [X|[->|X]]; auto.
        exfalso. destruct JP' as (_ & _ & q & Q & K). congruence.
      * left. split; [exact M'|]. right. right. left. exists t, p, x, to. split; [fields; eapply set_self; exact T|]. intros p' JP. destruct (J _ JP) as [JP'|X]; [|auto]. destruct (A _ JP') as [X|[->|X]]; auto.
  - destruct (DT t) as [[c ->]|N].
    2:{ left. split; [exact M'|]. right. right. left. exists t, p, x, to. split; [eapply others_stay; eassumption|]. intros p' JP. destruct (J _ JP) as [JP'|X]; [|auto]. destruct (A _ JP'); auto. }
    unfold P2PServer.exec in H. destruct (s_crashed s); [discriminate|]. unfold step_thread in H. rewrite T in H. unfold step_piece in H. destruct (nth_error (s_peers s) p); [|discriminate].
    destruct c; try discriminate H.
    + destruct (nth_error (s_peers s) x) as [qx|] eqn:QX; [|discriminate]. destruct (q_closed qx) eqn:KX; [discriminate|]. injection H as <- <-.
      left. split; [exact M'|]. right. left. exists t, p, to. split; [fields; eapply set_self; exact T|]. intros p' JP. destruct (J _ JP) as [JP'|X]; [|auto]. destruct (A _ JP') as [X|[->|X]]; auto.
      left. apply TN. eexists. split; [now left|]. left. split; reflexivity.
    + right. exists t, p, x, to. auto.
  - left. split; [exact M'|]. right. right. right. intros p' JP. destruct (J _ JP) as [JP'|X]; auto.
Qed.
End Have.

Section Final.
Variable hash id : bytes.
Variable n : Z.
Variable have : bytes.
Notation run_of := (run_of hash id n have).
Notation fetched := (fetched hash id n have).
Notation unsent := (unsent hash id n have).

Lemma run_same l s ev s' ev' : run_of l s ev -> run_of l s' ev' -> s = s' /\ ev = ev'.
Proof. intros (b & B & _ & R) (b' & B' & _ & R'). assert (b' = b) as -> by congruence. split; congruence. Qed.
Lemma cut_last {A} (l l1 l2 : list A) a x : l ++ [a] = l1 ++ x :: l2 -> (exists l3, l2 = l3 ++ [a] /\ l = l1 ++ x :: l3) \/ (l2 = [] /\ l1 = l /\ a = x).
Proof.
  intros E. destruct l2 as [|y l2 _] using rev_ind; [right; apply app_inj_tail in E as [-> ->]; auto|].
  left. exists l2. change (l1 ++ x :: l2 ++ [y]) with (l1 ++ (x :: l2) ++ [y]) in E. rewrite app_assoc in E. apply app_inj_tail in E as [-> ->]. auto.
Qed.
Lemma fetched_last l a i s ev : run_of l s ev -> fetched (l ++ [a]) i -> fetched l i \/ exists t p, a = AGo t COk /\ nth_error (s_threads s) t = Some (TPiece p i PRun).
Proof.
  intros R (l1 & t & l2 & s1 & ev1 & p & E & R1 & T). apply cut_last in E as [(l3 & -> & ->)|(-> & -> & ->)].
  - left. exists l1, t, l3, s1, ev1, p. auto.
  - right. destruct (run_same _ _ _ _ _ R R1) as [<- _]. eauto.
Qed.
Lemma unsent_more l a i : unsent l i -> unsent (l ++ [a]) i.
Proof. intros (l1 & t & l2 & s1 & ev1 & p & x & to & -> & R). exists l1, t, (l2 ++ [a]), s1, ev1, p, x, to. rewrite <- app_assoc. auto. Qed.
Lemma fetched_told l s ev i : run_of l s ev -> run_of l s ev /\ (fetched l i -> unsent l i \/ pend i s ev).
Proof.
  intros (blank & B & L & R). revert R.
  apply (runs_acts_ind hash id blank (fun l s ev => run_of l s ev /\ (fetched l i -> unsent l i \/ pend i s ev))); clear l s ev.
  - split; [exists blank; auto|]. intros (l1 & t & l2 & s1 & ev1 & p & E & _). destruct l1; discriminate E.
  - intros l s ev a s' e (R & IH) H. pose proof (v_here _ _ _ (run_inv _ _ _ _ _ _ _ R)) as HO. split.
    + destruct R as (b & B' & L' & R). assert (b = blank) as -> by congruence. exists blank. split; [exact B|]. split; [exact L|]. rewrite runs_app, R. cbn [runs]. now rewrite H, app_nil_r.
    + intros F. destruct (fetched_last _ _ _ _ _ R F) as [F'|(t & p & -> & T)].
      * destruct (IH F') as [U|P]; [left; now apply unsent_more|]. destruct (pend_step _ _ _ _ _ _ _ _ _ HO H P) as [P'|(t & p & x & to & -> & T)]; [now right|].
        left. exists l, t, [], s, ev, p, x, to. auto.
      * right. pose proof (have_mono _ _ _ _ _ _ _ i H) as M. unfold exec in H. destruct (s_crashed s); [discriminate|]. unfold step_thread in H. rewrite T in H. unfold step_piece in H.
        destruct (nth_error (s_peers s) p); [|discriminate]. destruct (bf_has (s_have s) i) as [[]|] eqn:BH; try discriminate H. injection H as <- <-.
        split; [apply M; now apply bf_has_member|]. left. exists t, p. fields. eapply set_self; exact T.
Qed.
Theorem all_told l s ev i p : run_of l s ev -> fetched l i -> ~ unsent l i -> (forall t, ~ announcing s t i) -> joined s ev p -> told ev p i.
Proof.
  intros R F U A J. destruct (proj2 (fetched_told _ _ _ i R) F) as [X|(_ & [(t & q & T)|[(t & q & to & T & _)|[(t & q & x & to & T & _)|P]]])]; [contradiction| | | |auto].
  - elim (A t). exists q, PShare. auto.
  - elim (A t). exists q, (PHave to). eauto.
  - elim (A t). exists q, (PSend x to). eauto 6.
Qed.

(** An announcement can go to its end, and peers that stay are told on the way. *)
Lemma send_one blank t i p x to s q qx : s_crashed s = false -> nth_error (s_threads s) t = Some (TPiece p i (PSend x to)) ->
  nth_error (s_peers s) p = Some q -> nth_error (s_peers s) x = Some qx -> q_closed qx = false ->
  exists s', exec hash id blank s (AGo t COk) = Some (s', [EvSent x (mk_have i)]) /\ s_crashed s' = false /\ nth_error (s_threads s') t = Some (TPiece p i (PHave to)) /\ s_peers s' = s_peers s.
Proof.
  intros C T Q QX QC. exists (goto t (TPiece p i (PHave to)) s). split; [unfold exec; rewrite C; unfold step_thread; rewrite T; unfold step_piece; now rewrite Q, QX, QC|].
  split; [exact C|]. split; [fields; eapply set_self; exact T|reflexivity].
Qed.
Lemma haves_finish blank t i p to : forall s, s_crashed s = false -> nth_error (s_threads s) t = Some (TPiece p i (PHave to)) ->
  (p < List.length (s_peers s))%nat -> (forall x, In x to -> (x < List.length (s_peers s))%nat) ->
  exists l' s' ev', (forall a, In a l' -> a = AGo t COk) /\ runs hash id blank s l' = Some (s', ev') /\ nth_error (s_threads s') t = Some (TPiece p i PToken).
Proof.
  induction to as [|x to IH]; intros s C T P A.
  - apply nth_error_Some in P. destruct (nth_error (s_peers s) p) eqn:Q; [|congruence]. exists [AGo t COk]. eexists. eexists. split; [intros a [<-|[]]; reflexivity|]. split.
    + cbn [runs]. unfold exec. rewrite C. unfold step_thread. rewrite T. unfold step_piece. rewrite Q. reflexivity.
    + fields. eapply set_self; exact T.
  - pose proof P as P0. apply nth_error_Some in P. destruct (nth_error (s_peers s) p) eqn:Q; [|congruence]. pose proof (A x (or_introl eq_refl)) as Lx. apply nth_error_Some in Lx. destruct (nth_error (s_peers s) x) as [qx|] eqn:QX; [|congruence].
    destruct (IH (goto t (TPiece p i (PHave to)) s) C) as (l' & s' & ev' & A' & R' & T'); [fields; eapply set_self; exact T|exact P0|intros y I; apply A; now right|].
    destruct (q_closed qx) eqn:QC.
    { exists (AGo t COk :: l'), s'. eexists; split; [intros a [<-|I]; auto|]; split; [|exact T']; cbn [runs]; unfold exec; rewrite C; unfold step_thread; rewrite T; unfold step_piece; rewrite Q, QX, QC, R'; reflexivity. }
    destruct (send_one blank t i p x to (goto t (TPiece p i (PSend x to)) s) _ _ C ltac:(fields; eapply set_self; exact T) Q QX QC) as (s1 & R1 & C1 & T1 & P1).
    destruct (IH s1 C1 T1) as (l2 & s2 & ev2 & A2 & R2 & T2); [rewrite P1; exact P0|intros y I; rewrite P1; apply A; now right|].
    exists (AGo t COk :: AGo t COk :: l2), s2. eexists. split; [intros a [<-|[<-|I]]; auto|]. split; [|exact T2].
    assert (exec hash id blank s (AGo t COk) = Some (goto t (TPiece p i (PSend x to)) s, [])) as E1.
    { unfold exec. rewrite C. unfold step_thread. rewrite T. unfold step_piece. now rewrite Q, QX, QC. }
    cbn [runs]. rewrite E1, R1, R2. reflexivity.
Qed.
Lemma can_finish_open l s ev t i : run_of l s ev -> s_crashed s = false -> s_mu s = None -> announcing s t i -> ~ too_late s t i ->
  exists l' s' ev', (forall a, In a l' -> turn_of t a /\ a <> AGo t CErr) /\ goes_on hash id n s l' s' ev' /\ ~ announcing s' t i.
Proof.
  intros R C M (p & r & T & Hr) TL. pose proof (run_inv _ _ _ _ _ _ _ R) as V. pose proof R as (blank & B & _). pose proof (v_range _ _ _ V _ p (nth_error_In _ _ T)) as P.
  assert (NA : forall s', nth_error (s_threads s') t = Some (TPiece p i PToken) -> ~ announcing s' t i).
  { intros s' T' (p' & r' & T2 & [->|[[to ->]|(x & to & ->)]]); congruence. }
  destruct Hr as [->|[[to ->]|(x & to & ->)]].
  - specialize (P eq_refl). set (to := map snd (g_active (s_reg s))).
    destruct (haves_finish blank t i p to (goto t (TPiece p i (PHave to)) s) C) as (l' & s' & ev' & A' & R' & T').
    + fields. eapply set_self; exact T.
    + exact P.
    + intros x I. unfold to in I. apply in_map_iff in I as ([y z] & <- & I). destruct (v_act _ _ _ V _ _ I) as (q & Q & _). apply nth_error_Some. cbn in *. fields. congruence.
    + exists (AGo t (COrder to) :: l'), s'. eexists. split; [intros a [<-|I]; [split; [eexists; reflexivity|discriminate]|rewrite (A' _ I); split; [eexists; reflexivity|discriminate]]|].
      split; [|now apply NA]. exists blank. split; [exact B|]. cbn [runs]. unfold exec. rewrite C. unfold step_thread. rewrite T. unfold step_piece. apply nth_error_Some in P. destruct (nth_error (s_peers s) p); [|congruence].
      rewrite M. unfold same_peers. fold to. rewrite reorders_refl. rewrite R'. reflexivity.
  - destruct (haves_finish blank t i p to s C T) as (l' & s' & ev' & A' & R' & T').
    + apply P. now left.
    + intros x I. apply (v_range _ _ _ V _ x (nth_error_In _ _ T)). now right.
    + exists l', s', ev'. split; [intros a I; rewrite (A' _ I); split; [eexists; reflexivity|discriminate]|]. split; [exists blank; auto|now apply NA].
  - pose proof (P (or_introl eq_refl)) as Pp. pose proof (v_range _ _ _ V _ x (nth_error_In _ _ T) ltac:(cbn; auto)) as Px.
    pose proof Pp as Pp0. apply nth_error_Some in Pp. destruct (nth_error (s_peers s) p) as [q|] eqn:Q; [|congruence]. apply nth_error_Some in Px. destruct (nth_error (s_peers s) x) as [qx|] eqn:QX; [|congruence].
    assert (q_closed qx = false) as QC by (destruct (q_closed qx) eqn:QC; [elim TL; exists p, x, to, qx; auto|reflexivity]).
    destruct (send_one blank t i p x to s _ _ C T Q QX QC) as (s1 & R1 & C1 & T1 & P1).
    destruct (haves_finish blank t i p to s1 C1 T1) as (l' & s' & ev' & A' & R' & T').
    + now rewrite P1.
    + intros y I. rewrite P1. apply (v_range _ _ _ V _ y (nth_error_In _ _ T)). cbn. auto.
    + exists (AGo t COk :: l'), s'. eexists. split; [intros a [<-|I]; [|rewrite (A' _ I)]; (split; [eexists; reflexivity|discriminate])|]. split; [exists blank; split; [exact B|]; cbn [runs]; rewrite R1, R'; reflexivity|now apply NA].
Qed.
Theorem can_finish l s ev t i : run_of l s ev -> s_crashed s = false -> s_mu s = None -> announcing s t i ->
  exists l' s' ev', (forall a, In a l' -> turn_of t a /\ (a = AGo t CErr -> too_late s t i)) /\ goes_on hash id n s l' s' ev' /\ ~ announcing s' t i.
Proof.
  intros R C M A. assert (too_late s t i \/ ~ too_late s t i) as [TL|TL].
  { destruct A as (p & r & T & [->|[[to ->]|(x & to & ->)]]); [right; intros (p' & x & to & q & T' & _); congruence|right; intros (p' & x & to' & q & T' & _); congruence|].
    destruct (nth_error (s_peers s) x) as [q|] eqn:Q; [|right; intros (p' & x' & to' & q & T' & Q' & _); congruence].
    destruct (q_closed q) eqn:K; [left; exists p, x, to, q; auto|right; intros (p' & x' & to' & q' & T' & Q' & K'); congruence]. }
  - pose proof TL as (p & x & to & q & T & Q & K). pose proof R as (blank & B & _). pose proof (v_range _ _ _ (run_inv _ _ _ _ _ _ _ R) _ p (nth_error_In _ _ T) (or_introl eq_refl)) as P.
    apply nth_error_Some in P. destruct (nth_error (s_peers s) p) eqn:QP; [|congruence].
    exists [AGo t CErr], (goto t (TPiece p i PToken) s), []. split; [intros a [<-|[]]; split; [eexists; reflexivity|auto]|]. split.
    + exists blank. split; [exact B|]. cbn [runs]. unfold exec. rewrite C. unfold step_thread. rewrite T. unfold step_piece. now rewrite QP.
    + intros (p' & r' & T2 & Z). cbn [goto s_threads set_threads] in T2. rewrite (set_self _ _ _ _ T) in T2. destruct Z as [->|[[? ->]|(? & ? & ->)]]; discriminate T2.
  - destruct (can_finish_open _ _ _ _ _ R C M A TL) as (l' & s' & ev' & A1 & A2). exists l', s', ev'. split; [|exact A2]. intros a I. destruct (A1 a I) as [X Y]. split; [exact X|]. intros Z. contradiction.
Qed.
End Final.
