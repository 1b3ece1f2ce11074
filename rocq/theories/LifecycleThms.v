(** The theorems on the life of a server. *)
From Verif Require Import GoBase BencTypes Multitracker Lifecycle LifecycleSpec LifecycleProofs.

Lemma never_nil l s ev e : lruns fresh_server l = Some (s, ev) -> In (VReturned e) ev -> exists c, e = Some c.
Proof.
  intros R H. destruct (LI_reached _ _ _ R) as (A & _ & C & _). apply C in H. destruct A as (_ & _ & _ & _ & _ & A). apply A in H.
  destruct e as [c|]; [eauto|congruence].
Qed.
Lemma returns_for_a_reason l s ev c : lruns fresh_server l = Some (s, ev) -> In (VReturned (Some c)) ev -> c = CLoad \/ c = CListen \/ (reason ev /\ li_done s = true).
Proof.
  intros R H. destruct (LI_reached _ _ _ R) as (A & B & C & _ & _ & G & _). apply C in H. destruct (li_cancel s) eqn:Cs.
  - right. right. destruct G as (_ & _ & _ & _ & G). specialize (G _ H Cs). split; [apply (proj1 B); exact G|exact G].
  - destruct A as (A & _). destruct (A Cs) as (_ & _ & _ & _ & _ & [X|[X|[X|X]]]); rewrite X in H; try discriminate; injection H as <-; auto.
Qed.
(** The tracker is told nothing before the listener is there. *)
Lemma silent_before l s ev : lruns fresh_server l = Some (s, ev) -> li_cancel s = false -> forall e b, ~ In (VSent e b) ev.
Proof.
  intros R. set (P := fun (s : life) (ev : list levent) => I0 s ev /\ I5 s ev /\ (li_cancel s = false -> forall e b, ~ In (VSent e b) ev)).
  assert (P s ([] ++ ev)) as (_ & _ & X); [|exact X].
  refine (lruns_inv P _ l _ [] _ _ _ R).
  - intros s1 ev1 a s2 e (Z & Y & K) E. split; [eapply I0_step; eauto|]. split; [eapply I5_step; eauto|]. intros Cn x b J.
    destruct Z as (Z1 & _). destruct Y as (_ & Y & _).
    apply in_app_or in J. lstep E; try discriminate; try (rewrite Cn in *).
    all: destruct J as [J|J]; [try (eapply K; eauto; fail)|].
    all: try (cbn in J; intuition discriminate).
    all: try solve [destruct (Z1 eq_refl) as (L & _ & _ & _ & _ & M); first [destruct M as [M|[M|[M|M]]]; discriminate M | nth_in; rewrite L in *; contradiction]].
    all: try solve [nth_in; destruct Y as (_ & _ & Y); [left; assumption|discriminate]].
    all: destruct (li_open s1); cbn in J; intuition discriminate.
  - split; [apply LI_fresh|]. split; [apply LI_fresh|]. intros _ x b [].
Qed.
Lemma goes_on l s ev : lruns fresh_server l = Some (s, ev) -> li_done s = true \/ (li_open s = false /\ In (VSent STARTED true) ev) \/ (exists x, In (x, LEnded) (li_loops s)) -> reason ev.
Proof.
  intros R H. destruct (LI_reached _ _ _ R) as (A & B & _ & D & _ & _). destruct B as (B1 & B2 & _).
  destruct A as (A1 & _ & A3 & A4 & _).
  destruct H as [H|[[H I]|[x H]]]; [auto| |].
  - destruct (li_cancel s) eqn:Cs; [auto|]. destruct (A1 eq_refl) as (_ & _ & _ & _ & _ & M).
    exfalso. exact (silent_before _ _ _ R Cs _ _ I).
  - destruct (li_err s) eqn:Er; [apply B1, A4; congruence|]. exfalso. exact (A3 eq_refl _ _ H eq_refl).
Qed.
Lemma done_stays l : forall s s' e, lruns s l = Some (s', e) -> li_done s = true -> li_done s' = true.
Proof.
  induction l as [|a l IH]; intros s s' e R D; cbn [lruns] in R; [congruence|].
  destruct (lexec s a) as [[s1 e1]|] eqn:E; [|discriminate]. destruct (lruns s1 l) as [[s2 e2]|] eqn:E2; [|discriminate]. injection R as <- <-.
  eapply IH; [exact E2|]. clear E2 IH. lstep E; congruence.
Qed.
Lemma use_err : use_start (GotErr tt) <> Panic /\ use_announce (GotErr tt) <> Panic.
Proof. split; discriminate. Qed.
Lemma failed_announce l s ev i : lruns fresh_server l = Some (s, ev) -> li_crashed s = false -> nth_error (li_loops s) i = Some (LAnnounce, LCall) ->
  exists s1, lexec s (AAnnounced i (Some (GotErr tt))) = Some (s1, [VSent ANNOUNCE false]) /\
    (forall l' s2 e2, lruns s1 l' = Some (s2, e2) -> li_done s2 = true) /\
    exists l' s2 e2, lruns s1 l' = Some (s2, e2) /\ Forall (quiet (GotErr tt)) l' /\ at_rest s2.
Proof.
  intros R Cr N. assert (lexec s (AAnnounced i (Some (GotErr tt))) = Some (group_error CTracker (loop_goes i LAnnounce LEnded s), [VSent ANNOUNCE false])) as E
    by (unfold lexec; rewrite Cr, N; reflexivity).
  eexists. split; [exact E|]. split.
  - intros l' s2 e2 R2. eapply done_stays; [exact R2|reflexivity].
  - assert (lruns fresh_server (l ++ [AAnnounced i (Some (GotErr tt))]) = Some (group_error CTracker (loop_goes i LAnnounce LEnded s), ev ++ [VSent ANNOUNCE false])) as R1.
    { eapply lruns_app; [exact R|]. cbn [lruns]. rewrite E. reflexivity. }
    exact (comes_to_rest (GotErr tt) (proj1 use_err) (proj2 use_err) _ _ _ R1 Cr eq_refl).
Qed.
Lemma failed_accept l s ev i : lruns fresh_server l = Some (s, ev) -> li_crashed s = false -> li_open s = true -> nth_error (li_loops s) i = Some (LServe, LSelect) ->
  exists s1, lexec s (AEnd i) = Some (s1, [VAcceptFailed]) /\
    (forall l' s2 e2, lruns s1 l' = Some (s2, e2) -> li_done s2 = true) /\
    forall g, use_start g <> Panic -> use_announce g <> Panic -> exists l' s2 e2, lruns s1 l' = Some (s2, e2) /\ Forall (quiet g) l' /\ at_rest s2.
Proof.
  intros R Cr Op N. assert (lexec s (AEnd i) = Some (group_error CAccept (loop_goes i LServe LEnded s), [VAcceptFailed])) as E
    by (unfold lexec, loop_end; rewrite Cr, N, Op; reflexivity).
  eexists. split; [exact E|]. split.
  - intros l' s2 e2 R2. eapply done_stays; [exact R2|reflexivity].
  - intros g G1 G2. assert (lruns fresh_server (l ++ [AEnd i]) = Some (group_error CAccept (loop_goes i LServe LEnded s), ev ++ [VAcceptFailed])) as R1.
    { eapply lruns_app; [exact R|]. cbn [lruns]. rewrite E. reflexivity. }
    exact (comes_to_rest g G1 G2 _ _ _ R1 Cr eq_refl).
Qed.

Lemma started_once l s ev : lruns fresh_server l = Some (s, ev) -> (sent STARTED ev <= 1)%nat.
Proof. intros R. destruct (LI_reached _ _ _ R) as (_ & _ & _ & (_ & D & _) & _). exact D. Qed.
Lemma announce_after_started l s ev a b c : lruns fresh_server l = Some (s, ev) -> ev = a ++ VSent ANNOUNCE b :: c -> In (VSent STARTED true) a.
Proof. intros R. destruct (LI_reached _ _ _ R) as (_ & _ & _ & (_ & _ & _ & _ & D & _) & _). apply D. Qed.
Lemma never_completed l s ev : lruns fresh_server l = Some (s, ev) -> sent COMPLETED ev = 0%nat.
Proof. intros R. destruct (LI_reached _ _ _ R) as (_ & _ & _ & (_ & _ & _ & _ & _ & D) & _). exact D. Qed.
Lemma stopped_count l s ev : lruns fresh_server l = Some (s, ev) -> li_crashed s = false -> at_rest s -> In (VSent STARTED true) ev ->
  (sent STOPPED ev + count is_rejection ev = count is_call ev + 1)%nat.
Proof.
  intros R Cr (M & L & St & W & O & Mu) I. destruct (LI_reached _ _ _ R) as (A & _ & _ & D & F & _).
  destruct F as (F1 & F2 & F3). rewrite (F1 Cr), F2. rewrite W in F3.
  assert (li_cancel s = true) as Cs.
  { destruct (li_cancel s) eqn:Cs; [reflexivity|]. exfalso. exact (silent_before _ _ _ R Cs _ _ I). }
  rewrite Cs in F3. unfold nb in F3.
  assert (forall q, (forall p, In p q -> exists e, p = SReturned e) -> (List.length (filter told q) + List.length (filter rejected q) = List.length q)%nat) as K.
  { induction q as [|p q IH]; intros H; [reflexivity|]. destruct (H p (or_introl eq_refl)) as (e & ->). specialize (IH (fun p I => H p (or_intror I))).
    cbn. destruct e as [[]|]; cbn; lia. }
  rewrite (K _ St). lia.
Qed.
Lemma stopped_twice l s ev : lruns fresh_server l = Some (s, ev) -> li_crashed s = false -> at_rest s -> In (VSent STARTED true) ev ->
  (count is_rejection ev < count is_call ev)%nat -> (2 <= sent STOPPED ev)%nat.
Proof. intros R Cr A I H. pose proof (stopped_count _ _ _ R Cr A I). lia. Qed.

Lemma stopped_is_closed l s ev e : lruns fresh_server l = Some (s, ev) -> In (VStop e) ev -> e <> Some CNotStarted -> li_open s = false /\ li_done s = true.
Proof.
  intros R I N. destruct (LI_reached _ _ _ R) as (_ & _ & _ & _ & _ & (_ & G & _) & _).
  destruct G as (G1 & G2 & _); [right; eauto|]. auto.
Qed.
Lemma rejected_before_listening l : forall s ev, lruns fresh_server l = Some (s, ev) -> forall a c, ev = a ++ VStop (Some CNotStarted) :: c -> forall e b, ~ In (VSent e b) a.
Proof.
  induction l as [|x l IH] using rev_ind; intros s ev R a c Ev.
  - cbn in R. injection R as <- <-. destruct a; discriminate.
  - assert (exists s1 e1 e2, lruns fresh_server l = Some (s1, e1) /\ lexec s1 x = Some (s, e2) /\ ev = e1 ++ e2) as (s1 & e1 & e2 & R1 & E & ->).
    { clear IH Ev. revert R. generalize fresh_server as s0. revert ev. induction l as [|y l IH]; intros ev s0 R; cbn [app lruns] in R.
      - destruct (lexec s0 x) as [[s2 e2]|] eqn:E; [|discriminate]. injection R as <- <-. exists s0, [], e2. rewrite app_nil_r. auto.
      - destruct (lexec s0 y) as [[s2 e2]|] eqn:E; [|discriminate]. destruct (lruns s2 (l ++ [x])) as [[s3 e3]|] eqn:E2; [|discriminate]. injection R as <- <-.
        destruct (IH _ _ E2) as (s4 & e4 & e5 & R4 & E5 & ->). exists s4, (e2 ++ e4), e5. cbn [lruns]. rewrite E, R4. split; [reflexivity|]. split; [exact E5|apply app_assoc]. }
    apply split_app in Ev. destruct Ev as [(c' & ->)|(a' & -> & Ev)]; [eapply IH; eauto|].
    assert (li_cancel s1 = false /\ a' = []) as [Cs ->].
    { lstep E. all: repeat (destruct a' as [|? a']; try discriminate Ev; cbn in Ev; try (injection Ev as ? Ev)); try discriminate; try congruence; auto.
      all: try (destruct (li_open s1); repeat (destruct a' as [|? a']; try discriminate Ev; cbn in Ev; try (injection Ev as ? Ev)); try discriminate). }
    rewrite app_nil_r. exact (silent_before _ _ _ R1 Cs).
Qed.
Lemma rest_is_final s a s' e : at_rest s -> lexec s a = Some (s', e) -> a = ACallStop \/ a = AOther.
Proof.
  intros ((x & M) & L & St & W & O & Mu) E. destruct a; auto; exfalso.
  all: unfold lexec, start_step, loop_step, loop_end, stop_step in E; destruct (li_crashed s); [discriminate|].
  all: rewrite ?M, ?W in E; cbn in E; try discriminate.
  all: try (destruct (nth_error (li_loops s) i) as [[y p]|] eqn:N; [|discriminate]; rewrite (L _ _ (nth_error_In _ _ N)) in E; destruct y; discriminate).
  all: try (destruct (nth_error (li_stops s) k) as [p|] eqn:N; [|discriminate]; destruct (St _ (nth_error_In _ _ N)) as (y & ->); discriminate).
Qed.

(** *** Failures at the start *)
Lemma outcomes_app a b : outcomes (a ++ b) = outcomes a ++ outcomes b.
Proof. apply flat_map_app. Qed.
Lemma lruns_hist (I : list laction -> life -> list levent -> Prop) :
  (forall h s ev a s' e, I h s ev -> lexec s a = Some (s', e) -> I (h ++ [a]) s' (ev ++ e)) -> forall l h s ev s' e, I h s ev -> lruns s l = Some (s', e) -> I (h ++ l) s' (ev ++ e).
Proof.
  intros St. induction l as [|a l IH]; intros h s ev s' e H R; cbn in R.
  - injection R as <- <-. rewrite !app_nil_r. exact H.
  - destruct (lexec s a) as [[s1 e1]|] eqn:E; [|discriminate]. destruct (lruns s1 l) as [[s2 e2]|] eqn:R2; [|discriminate]. injection R as <- <-.
    change (a :: l) with ([a] ++ l). rewrite !app_assoc. eapply IH; [|exact R2]. eapply St; eassumption.
Qed.
Definition early (m : mpc) : bool := match m with MLoad | MListen => true | _ => false end.
Definition running (m : mpc) : bool := match m with MLoad | MListen | MTracker | MReturned _ => false | _ => true end.
Lemma main_step s a s' e : lexec s a = Some (s', e) ->
  li_crashed s = false /\
  (li_cancel s' = li_cancel s \/ (a = AStart true /\ li_main s = MListen)) /\
  ((outcomes [a] = [] /\ li_main s' = li_main s /\ ~ In (VSent STARTED false) e) \/
   (outcomes [a] = [] /\ li_main s = MTracker /\ early (li_main s') = false /\
      (In (VSent STARTED false) e -> li_crashed s' = true \/ (li_main s' = MReturned (Some CTracker) /\ In (VReturned (Some CTracker)) e))) \/
   (a = AStart true /\ li_main s = MLoad /\ li_main s' = MListen /\ e = []) \/
   (a = AStart false /\ li_main s = MLoad /\ li_main s' = MReturned (Some CLoad) /\ e = [VReturned (Some CLoad)]) \/
   (a = AStart true /\ li_main s = MListen /\ li_main s' = MTracker /\ e = []) \/
   (a = AStart false /\ li_main s = MListen /\ li_main s' = MReturned (Some CListen) /\ e = [VReturned (Some CListen)]) \/
   (exists ok, a = AStart ok /\ running (li_main s) = true /\ early (li_main s') = false /\ ~ In (VSent STARTED false) e)).
Proof.
  intros E. split; [unfold lexec in E; destruct (li_crashed s); [discriminate|reflexivity]|].
  split; [destruct a; lstep E; auto|]. destruct a as [ok| | | | | | | | |].
  - unfold lexec in E. destruct (li_crashed s); [discriminate|]. unfold start_step in E. destruct (li_main s) eqn:M; try discriminate.
    1: destruct ok; injection E as <- <-; cbn; tauto.
    1: destruct ok; injection E as <- <-; cbn; tauto.
    all: do 6 right; exists ok; split; [reflexivity|]; split; [reflexivity|].
    + destruct (free s); [|discriminate]. injection E as <- <-. cbn. tauto.
    + destruct (free s); [|discriminate]. injection E as <- <-. cbn. tauto.
    + injection E as <- <-. cbn. tauto.
    + destruct (all_ended (li_loops s)); [|discriminate]. injection E as <- <-. cbn. intuition discriminate.
  - right. left. lstep E; repeat split; auto; cbn; intuition (try congruence; auto). rewrite Heqm. reflexivity.
  - left. lstep E; repeat split; auto; cbn; intuition (try congruence; auto).
  - left. lstep E; repeat split; auto; cbn; intuition (try congruence; auto).
  - left. lstep E; repeat split; auto; destruct (li_open s); cbn; intuition (try congruence; auto).
  - left. lstep E; repeat split; auto; cbn; intuition (try congruence; auto).
  - left. lstep E; repeat split; auto; cbn; intuition (try congruence; auto).
  - left. lstep E; repeat split; auto; cbn; intuition (try congruence; auto).
  - left. lstep E; repeat split; auto; cbn; intuition (try congruence; auto).
  - left. lstep E; repeat split; auto; cbn; intuition (try congruence; auto).
Qed.
Definition J7 (h : list laction) (s : life) (ev : list levent) : Prop :=
  match li_main s with MLoad => outcomes h = [] | MListen => outcomes h = [true] | _ => True end /\
  (early (li_main s) = true \/ exists x, outcomes h = false :: x \/ exists b, outcomes h = true :: b :: x) /\
  (early (li_main s) = true -> li_cancel s = false) /\
  (forall x, outcomes h = false :: x -> li_cancel s = false /\ li_main s = MReturned (Some CLoad) /\ In (VReturned (Some CLoad)) ev) /\
  (forall x, outcomes h = true :: false :: x -> li_cancel s = false /\ li_main s = MReturned (Some CListen) /\ In (VReturned (Some CListen)) ev) /\
  (In (VSent STARTED false) ev -> li_crashed s = true \/ (li_main s = MReturned (Some CTracker) /\ In (VReturned (Some CTracker)) ev)).
Lemma J7_step h s ev a s' e : J7 h s ev -> lexec s a = Some (s', e) -> J7 (h ++ [a]) s' (ev ++ e).
Proof.
  unfold J7. rewrite outcomes_app. intros (A & A2 & A3 & B & C & D) E. apply main_step in E as (Nc & Hc & E).
  assert (P : forall x, In x ev -> In x (ev ++ e)) by (intros; apply in_or_app; tauto).
  assert (P2 : forall x, In x e -> In x (ev ++ e)) by (intros; apply in_or_app; tauto).
  destruct E as [(O & M & N)|[(O & M & M' & N)|[(-> & M & M' & ->)|[(-> & M & M' & ->)|[(-> & M & M' & ->)|[(-> & M & M' & ->)|(ok & -> & M & M' & N)]]]]]].
  - assert (Cc : li_cancel s' = li_cancel s) by (destruct Hc as [Hc|(-> & _)]; [exact Hc|discriminate]).
    rewrite O, app_nil_r, M, Cc. split; [exact A|]. split; [exact A2|]. split; [exact A3|]. split; [intros x X; apply B in X as (? & ? & ?); auto|]. split; [intros x X; apply C in X as (? & ? & ?); auto|].
    intros I. apply in_app_or in I as [I|I]; [|contradiction]. apply D in I as [I|(I & I')]; [congruence|auto].
  - rewrite O, app_nil_r. rewrite M in *. split; [destruct (li_main s'); auto; discriminate|]. split; [destruct A2 as [A2|A2]; [discriminate|auto]|]. split; [congruence|].
    split; [intros x X; apply B in X as (_ & X & _); discriminate|]. split; [intros x X; apply C in X as (_ & X & _); discriminate|].
    intros I. apply in_app_or in I as [I|I]; [apply D in I as [I|(I & _)]; [congruence|discriminate]|]. apply N in I as [I|(I & I')]; auto.
  - destruct Hc as [Hc|(_ & Hc)]; [|congruence]. rewrite M in *. rewrite M', A. cbn. split; [reflexivity|]. split; [auto|]. split; [intros _; rewrite Hc; auto|]. split; [intros x [=]|]. split; [intros x [=]|].
    rewrite app_nil_r. intros I. apply D in I as [I|(I & _)]; [congruence|discriminate].
  - destruct Hc as [Hc|(Hc & _)]; [|discriminate]. rewrite M in *. rewrite M', A. cbn. split; [exact I|]. split; [right; exists []; auto|]. split; [discriminate|].
    split; [intros x _; split; [rewrite Hc; auto|]; split; [reflexivity|apply P2; now left]|]. split; [intros x [=]|].
    intros J. apply in_app_or in J as [J|[J|[]]]; [|discriminate]. apply D in J as [J|(J & _)]; [congruence|discriminate].
  - rewrite M in *. rewrite M', A. cbn. split; [exact I|]. split; [right; exists []; right; exists true; reflexivity|]. split; [discriminate|]. split; [intros x [=]|]. split; [intros x [=]|].
    rewrite app_nil_r. intros J. apply D in J as [J|(J & _)]; [congruence|discriminate].
  - destruct Hc as [Hc|(Hc & _)]; [|discriminate]. rewrite M in *. rewrite M', A. cbn. split; [exact I|]. split; [right; exists []; right; exists false; reflexivity|]. split; [discriminate|]. split; [intros x [=]|].
    split; [intros x _; split; [rewrite Hc; auto|]; split; [reflexivity|apply P2; now left]|].
    intros J. apply in_app_or in J as [J|[J|[]]]; [|discriminate]. apply D in J as [J|(J & _)]; [congruence|discriminate].
  - assert (K : forall m, li_main s = MReturned m -> False) by (intros m X; rewrite X in M; discriminate).
    assert (Q : exists x, outcomes h = false :: x \/ exists b, outcomes h = true :: b :: x) by (destruct A2 as [A2|A2]; [destruct (li_main s); discriminate|exact A2]).
    split; [destruct (li_main s'); auto; discriminate|]. destruct Q as (x & [Q|(b & Q)]).
    + destruct (B x Q) as (_ & X & _). exfalso. eapply K; exact X.
    + rewrite Q in *. cbn. split; [right; eexists; right; eexists; reflexivity|]. split; [congruence|]. split; [intros y [=]|]. split.
      * intros y [= -> _]. destruct (C x eq_refl) as (_ & X & _). exfalso. eapply K; exact X.
      * intros J. apply in_app_or in J as [J|J]; [|contradiction]. apply D in J as [J|(J & _)]; [congruence|exfalso; eapply K; exact J].
Qed.
Theorem failed_start l s ev : lruns fresh_server l = Some (s, ev) ->
  (forall x, outcomes l = false :: x -> In (VReturned (Some CLoad)) ev /\ li_loops s = [] /\ forall e b, ~ In (VSent e b) ev) /\
  (forall x, outcomes l = true :: false :: x -> In (VReturned (Some CListen)) ev /\ li_loops s = [] /\ forall e b, ~ In (VSent e b) ev) /\
  (In (VSent STARTED false) ev -> li_crashed s = false -> In (VReturned (Some CTracker)) ev).
Proof.
  intros R. assert (J : J7 l s ev).
  { change l with ([] ++ l). change ev with ([] ++ ev). eapply lruns_hist; [exact J7_step| |exact R]. unfold J7. cbn. repeat split; auto; try (intros x [=]); try discriminate. }
  destruct J as (_ & _ & _ & B & C & D). pose proof (LI_reached l s ev R) as ((Z & Z2) & _).
  split; [|split].
  - intros x X. destruct (B x X) as (Cn & M & I). split; [exact I|]. split; [exact (proj1 (Z Cn))|]. eapply silent_before; eassumption.
  - intros x X. destruct (C x X) as (Cn & M & I). split; [exact I|]. split; [exact (proj1 (Z Cn))|]. eapply silent_before; eassumption.
  - intros I Nc. apply D in I as [I|(_ & I)]; [congruence|exact I].
Qed.

(** ** Which loops run *)
Definition started_loops : list loop := [LServe; LRequests; LDial; LUnchoke].
Definition J8 (s : life) (ev : list levent) : Prop :=
  match li_main s with
  | MTracker | MAdd _ => map fst (li_loops s) = started_loops
  | MUnchoke | MUnchoking | MWait => map fst (li_loops s) = started_loops ++ [LAnnounce]
  | _ => True
  end.
Lemma map_goes i l p q s : nth_error (li_loops s) i = Some (l, q) -> map fst (list_set i (l, p) (li_loops s)) = map fst (li_loops s).
Proof. intros H. eapply map_list_set; [exact H|reflexivity]. Qed.
Lemma J8_step s ev a s' e : J8 s ev -> lexec s a = Some (s', e) -> J8 s' (ev ++ e).
Proof.
  unfold J8, lexec. intros J H. destruct (li_crashed s); [discriminate|].
  destruct a; cbn -[map list_set] in H.
  - unfold start_step in H. destruct (li_main s) eqn:M; try discriminate; repeat (match goal with H : context[if ?b then _ else _] |- _ => destruct b end); try discriminate; injection H as <- <-; cbn -[map]; auto.
    rewrite map_app, J. reflexivity.
  - destruct (li_main s) eqn:M; try discriminate. destruct (with_panic use_start g); injection H as <- <-; cbn -[map]; rewrite ?M; auto.
  - unfold loop_step in H. destruct (nth_error (li_loops s) i) as [[l p]|] eqn:N; [|discriminate].
    destruct l, p; cbn in H; repeat (match goal with H : context[if ?b then _ else _] |- _ => destruct b end); try discriminate; injection H as <- <-; cbn -[map list_set]; erewrite map_goes by exact N; auto.
  - destruct (nth_error (li_loops s) i) as [[l p]|] eqn:N; [|discriminate]. destruct l, p; try discriminate.
    destruct (with_panic use_announce g); injection H as <- <-; cbn -[map list_set]; try (erewrite map_goes by exact N); auto.
  - unfold loop_end in H. destruct (nth_error (li_loops s) i) as [[l p]|] eqn:N; [|discriminate].
    destruct l, p; try discriminate; repeat (match type of H with (if ?b then _ else _) = _ => destruct b end); try discriminate; injection H as <- <-; cbn -[map list_set]; erewrite map_goes by exact N; auto.
  - destruct (li_watch s && li_done s); [|discriminate]. injection H as <- <-. cbn -[map]. auto.
  - injection H as <- <-. cbn -[map]. auto.
  - unfold stop_step in H. destruct (nth_error (li_stops s) k) as [[| |]|]; try discriminate. destruct (free s); [|discriminate]. destruct (li_cancel s); injection H as <- <-; cbn -[map]; auto.
  - destruct (nth_error (li_stops s) k) as [[| |]|]; try discriminate. destruct g; injection H as <- <-; cbn -[map]; auto.
  - destruct (li_mu s) as [[|]|]; try discriminate; injection H as <- <-; cbn -[map]; auto.
Qed.
Lemma reached_inv (I : life -> list levent -> Prop) :
  I fresh_server [] -> (forall s ev a s' e, I s ev -> lexec s a = Some (s', e) -> I s' (ev ++ e)) ->
  forall l s ev, lruns fresh_server l = Some (s, ev) -> I s ev.
Proof. intros A B l s ev H. exact (lruns_inv I B l fresh_server [] s ev A H). Qed.
Theorem loops_run l s ev :
  lruns fresh_server l = Some (s, ev) -> ~ reason ev ->
  (li_main s = MTracker -> forall x, x <> LAnnounce -> exists p, In (x, p) (li_loops s) /\ p <> LEnded) /\
  (li_main s = MWait -> forall x, exists p, In (x, p) (li_loops s) /\ p <> LEnded).
Proof.
  intros H R. pose proof (reached_inv J8 I J8_step l s ev H) as J. pose proof (LI_reached l s ev H) as (A & B & _).
  destruct A as (_ & _ & C & D & _). destruct B as (B & _).
  assert (N : li_err s = None) by (destruct (li_err s) eqn:E; [exfalso; apply R, B, D; discriminate|reflexivity]).
  unfold J8 in J. split; intros M; rewrite M in J; intros x.
  - intros X. assert (Q : In x (map fst (li_loops s))) by (rewrite J; destruct x; cbn; tauto).
    apply in_map_iff in Q. destruct Q as ([y p] & <- & Q). exists p. split; [exact Q|exact (C N _ _ Q)].
  - assert (Q : In x (map fst (li_loops s))) by (rewrite J; destruct x; cbn; tauto).
    apply in_map_iff in Q. destruct Q as ([y p] & <- & Q). exists p. split; [exact Q|exact (C N _ _ Q)].
Qed.

(** ** Which error Start returns *)
Definition keep (a b : option cause) : option cause := match a with None => b | _ => a end.
Lemma err_step s a s' e : lexec s a = Some (s', e) ->
  exists o, li_err s' = keep (li_err s) o /\ (In VAcceptFailed e -> o = Some CAccept) /\
    (In (VSent ANNOUNCE false) e -> o = Some CTracker \/ li_crashed s' = true) /\ (o <> None -> li_done s' = true).
Proof.
  unfold lexec. intros H. destruct (li_crashed s); [discriminate|].
  assert (Keep : forall x, keep x None = x) by (intros [c|]; reflexivity).
  destruct a; cbn in H.
  - unfold start_step in H. exists None. rewrite Keep.
    destruct (li_main s) eqn:M; try discriminate; repeat (match goal with H : context[if ?b then _ else _] |- _ => destruct b end); try discriminate; injection H as <- <-; cbn; intuition congruence.
  - destruct (li_main s) eqn:M; try discriminate. exists None. rewrite Keep. destruct (with_panic use_start g); injection H as <- <-; cbn; intuition congruence.
  - unfold loop_step in H. exists None. rewrite Keep. destruct (nth_error (li_loops s) i) as [[l p]|] eqn:N; [|discriminate].
    destruct l, p; cbn in H; repeat (match goal with H : context[if ?b then _ else _] |- _ => destruct b end); try discriminate; injection H as <- <-; cbn; intuition congruence.
  - destruct (nth_error (li_loops s) i) as [[l p]|] eqn:N; [|discriminate]. destruct l, p; try discriminate.
    destruct (with_panic use_announce g); injection H as <- <-; cbn.
    + exists None. rewrite Keep. intuition congruence.
    + exists (Some CTracker). destruct (li_err s); cbn; intuition congruence.
    + exists None. rewrite Keep. intuition congruence.
  - unfold loop_end in H. destruct (nth_error (li_loops s) i) as [[l p]|] eqn:N; [|discriminate].
    destruct l, p; try discriminate; repeat (match type of H with (if ?b then _ else _) = _ => destruct b end); try discriminate; injection H as <- <-; cbn.
    + exists (Some CAccept). destruct (li_err s), (li_open s); cbn; intuition congruence.
    + exists (Some CContext). destruct (li_err s); cbn; intuition congruence.
    + exists (Some CContext). destruct (li_err s); cbn; intuition congruence.
    + exists (Some CContext). destruct (li_err s); cbn; intuition congruence.
    + exists (Some CContext). destruct (li_err s); cbn; intuition congruence.
  - destruct (li_watch s && li_done s); [|discriminate]. exists None. rewrite Keep. injection H as <- <-. cbn. intuition congruence.
  - exists None. rewrite Keep. injection H as <- <-. cbn. intuition congruence.
  - exists None. rewrite Keep. unfold stop_step in H. destruct (nth_error (li_stops s) k) as [[| |]|]; try discriminate. destruct (free s); [|discriminate]. destruct (li_cancel s); injection H as <- <-; cbn; intuition congruence.
  - exists None. rewrite Keep. destruct (nth_error (li_stops s) k) as [[| |]|]; try discriminate. destruct g; injection H as <- <-; cbn; intuition congruence.
  - exists None. rewrite Keep. destruct (li_mu s) as [[|]|]; try discriminate; injection H as <- <-; cbn; intuition congruence.
Qed.
(** The error of the first failure is kept. *)
Definition J9 (s : life) (ev : list levent) : Prop :=
  LI s ev /\
  (li_crashed s = false -> forall a y c, ev = a ++ y :: c -> ~ reason a ->
    (y = VAcceptFailed -> li_err s = Some CAccept) /\ (y = VSent ANNOUNCE false -> li_err s = Some CTracker)).
Lemma J9_step s ev a s' e : J9 s ev -> lexec s a = Some (s', e) -> J9 s' (ev ++ e).
Proof.
  intros (L & J) H. split; [exact (LI_step _ _ _ _ _ L H)|]. intros CR a0 y c E R.
  assert (CS : li_crashed s = false) by (unfold lexec in H; destruct (li_crashed s); [discriminate|reflexivity]).
  destruct (err_step _ _ _ _ H) as (o & Eo & Ka & Kt & Kd).
  destruct (split_app y c ev e a0 E) as [(c' & E1)|(a' & E1 & E2)].
  - destruct (J CS a0 y c' E1 R) as (P & Q). split; intros Y; [specialize (P Y)|specialize (Q Y)]; rewrite Eo; [rewrite P|rewrite Q]; reflexivity.
  - subst a0. assert (RE : ~ reason ev) by (intros X; apply R; apply reason_app; exact X).
    assert (N : li_err s = None).
    { destruct L as (A & B & _). destruct A as (_ & _ & _ & D & _). destruct B as (B & _).
      destruct (li_err s) eqn:X; [exfalso; apply RE, B, D; discriminate|reflexivity]. }
    rewrite N in Eo. cbn in Eo.
    assert (I : In y e) by (rewrite E2; apply in_or_app; right; left; reflexivity).
    split; intros Y; subst y; rewrite Eo; [auto|]. destruct (Kt I) as [K|K]; [exact K|congruence].
Qed.
Lemma started_no_error g x : with_panic use_start g = Err x -> answered g = false.
Proof. destruct g as [[]|]; cbn; intros H; try reflexivity; try discriminate H; repeat match type of H with context [match ?x with _ => _ end] => destruct x; try discriminate H end. Qed.
Lemma sent_in t b ev : In (VSent t b) ev -> sent t ev <> 0%nat.
Proof.
  unfold sent, count. intros H E. apply length_zero_iff_nil in E.
  assert (I : In (VSent t b) (filter (is_sent t) ev)) by (apply filter_In; split; [exact H|destruct t; reflexivity]). rewrite E in I. destruct I.
Qed.
(** Start, once the trackers have answered, returns the error that was kept. *)
Definition J10 (s : life) (ev : list levent) : Prop :=
  LI s ev /\ (In (VSent STARTED true) ev -> forall e, li_main s = MReturned e -> (forall l p, In (l, p) (li_loops s) -> p = LEnded) /\ li_err s = e).
Lemma J10_step s ev a s' e : J10 s ev -> lexec s a = Some (s', e) -> J10 s' (ev ++ e).
Proof.
  intros (L & J) H. split; [exact (LI_step _ _ _ _ _ L H)|]. intros IS r M.
  apply in_app_or in IS. pose proof L as (_ & _ & _ & (Z & _) & _).
  unfold lexec in H. destruct (li_crashed s); [discriminate|]. specialize (Z eq_refl).
  assert (Nothing : In (VSent STARTED true) ev -> sent STARTED ev = 0%nat -> False) by (intros X Y; exact (sent_in _ _ _ X Y)).
  destruct a; cbn in H.
  - unfold start_step in H. destruct (li_main s) eqn:MS; try discriminate.
    + destruct ok; injection H as <- <-; [discriminate M|]. cbn in IS. exfalso. intuition discriminate.
    + destruct ok; injection H as <- <-; [discriminate M|]. cbn in IS. exfalso. intuition discriminate.
    + destruct (free s); [|discriminate]. injection H as <- <-. discriminate M.
    + destruct (free s); [|discriminate]. injection H as <- <-. discriminate M.
    + injection H as <- <-. discriminate M.
    + destruct (all_ended (li_loops s)) eqn:AE; [|discriminate]. injection H as <- <-. cbn in M. injection M as <-. cbn. split; [|reflexivity].
      intros l p I. unfold all_ended in AE. rewrite forallb_forall in AE. specialize (AE _ I). destruct p; (discriminate AE || reflexivity).
  - destruct (li_main s) eqn:MS; try discriminate. destruct (with_panic use_start g) eqn:W; injection H as <- <-.
    + discriminate M.
    + exfalso. cbn in IS. rewrite (started_no_error _ _ W) in IS. intuition discriminate.
    + cbn in M. congruence.
  - unfold loop_step in H. destruct (nth_error (li_loops s) i) as [[l p]|] eqn:N; [|discriminate]. apply nth_error_In in N.
    assert (P : p <> LEnded -> e = [] -> li_main s = MReturned r -> False).
    { intros P -> MS. destruct IS as [IS|[]]. apply P. exact (proj1 (J IS r MS) _ _ N). }
    destruct l, p; cbn in H; repeat (match goal with H : context[if ?b then _ else _] |- _ => destruct b end); try discriminate; injection H as <- <-; cbn in M; destruct (P ltac:(discriminate) eq_refl M).
  - destruct (nth_error (li_loops s) i) as [[l p]|] eqn:N; [|discriminate]. destruct l, p; try discriminate. apply nth_error_In in N.
    assert (P : (In (VSent STARTED true) ev) -> li_main s = MReturned r -> False).
    { intros IE MS. pose proof (proj1 (J IE r MS) _ _ N). discriminate. }
    destruct (with_panic use_announce g); injection H as <- <-; cbn in M, IS; (destruct IS as [IS|[IS|[]]]; [destruct (P IS M)|discriminate IS]).
  - unfold loop_end in H. destruct (nth_error (li_loops s) i) as [[l p]|] eqn:N; [|discriminate]. apply nth_error_In in N.
    assert (P : p <> LEnded -> In (VSent STARTED true) ev -> li_main s = MReturned r -> False).
    { intros P IE MS. apply P. exact (proj1 (J IE r MS) _ _ N). }
    destruct l, p; try discriminate; repeat (match type of H with (if ?b then _ else _) = _ => destruct b end); try discriminate; injection H as <- <-; cbn in M, IS.
    all: try (destruct IS as [IS|[]]; destruct (P ltac:(discriminate) IS M)).
    destruct IS as [IS|IS]; [destruct (P ltac:(discriminate) IS M)|]. destruct (li_open s); cbn in IS; intuition discriminate.
  - destruct (li_watch s && li_done s); [|discriminate]. injection H as <- <-. destruct IS as [IS|[]]. exact (J IS r M).
  - injection H as <- <-. destruct IS as [IS|[IS|[]]]; [exact (J IS r M)|discriminate IS].
  - unfold stop_step in H. destruct (nth_error (li_stops s) k) as [[| |]|]; try discriminate. destruct (free s); [|discriminate]. destruct (li_cancel s); injection H as <- <-; (destruct IS as [IS|IS]; [exact (J IS r M)|]); cbn in IS; intuition discriminate.
  - destruct (nth_error (li_stops s) k) as [[| |]|]; try discriminate. destruct g; injection H as <- <-; (destruct IS as [IS|IS]; [exact (J IS r M)|]); cbn in IS; intuition discriminate.
  - destruct (li_mu s) as [[|]|]; try discriminate; injection H as <- <-; (destruct IS as [IS|[]]; exact (J IS r M)).
Qed.
Theorem first_failure l s ev a y c e :
  lruns fresh_server l = Some (s, ev) -> li_crashed s = false -> ev = a ++ y :: c -> ~ reason a ->
  In (VSent STARTED true) ev -> In (VReturned e) ev ->
  (y = VAcceptFailed -> e = Some CAccept) /\ (y = VSent ANNOUNCE false -> e = Some CTracker).
Proof.
  intros H CR E R IS IR.
  assert (F9 : J9 fresh_server []) by (split; [exact LI_fresh|intros _ a0 y0 c0 X; destruct a0; discriminate X]).
  assert (F10 : J10 fresh_server []) by (split; [exact LI_fresh|intros []]).
  destruct (reached_inv J9 F9 J9_step l s ev H) as (L & P). destruct (reached_inv J10 F10 J10_step l s ev H) as (_ & Q).
  destruct L as (_ & _ & I2' & _). destruct (Q IS e (I2' e IR)) as (_ & <-). exact (P CR a y c E R).
Qed.
