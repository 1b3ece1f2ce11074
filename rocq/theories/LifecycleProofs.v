(** Invariants of the histories of a server. *)
From Verif Require Import GoBase BencTypes Multitracker Lifecycle LifecycleSpec.

Lemma lruns_inv (I : life -> list levent -> Prop) :
  (forall s ev a s' e, I s ev -> lexec s a = Some (s', e) -> I s' (ev ++ e)) ->
  forall l s ev s' e, I s ev -> lruns s l = Some (s', e) -> I s' (ev ++ e).
Proof.
  intros St. induction l as [|a l IH]; intros s ev s' e HI R; cbn [lruns] in R.
  - injection R as <- <-. rewrite app_nil_r. exact HI.
  - destruct (lexec s a) as [[s1 e1]|] eqn:E; [|discriminate].
    destruct (lruns s1 l) as [[s2 e2]|] eqn:E2; [|discriminate]. injection R as <- <-.
    rewrite app_assoc. eapply IH; [|exact E2]. eapply St; eassumption.
Qed.
Lemma lruns_app l1 l2 s s1 e1 s2 e2 :
  lruns s l1 = Some (s1, e1) -> lruns s1 l2 = Some (s2, e2) -> lruns s (l1 ++ l2) = Some (s2, e1 ++ e2).
Proof.
  revert s e1. induction l1 as [|a l1 IH]; intros s e1 A B; cbn [lruns app] in *.
  - injection A as <- <-. exact B.
  - destruct (lexec s a) as [[s' e']|]; [|discriminate]. destruct (lruns s' l1) as [[s3 e3]|] eqn:E; [|discriminate].
    injection A as <- <-. rewrite (IH _ _ E B). rewrite app_assoc. reflexivity.
Qed.

(** All the ways a step can go. *)
Ltac lstep E :=
  unfold lexec, start_step, loop_step, loop_end, stop_step in E;
  repeat match type of E with
  | context [match ?x with _ => _ end] => destruct x eqn:?; try discriminate E
  end;
  try discriminate E; try (injection E as <- <-);
  cbn [li_main li_loops li_err li_done li_open li_cancel li_watch li_stops li_mu li_crashed set_main set_loops set_err set_done set_open set_cancel set_watch set_stops set_lmu set_lcrashed loop_goes group_error start_returns] in *.

(** [list_set]. *)
Lemma in_list_set {A} (x : A) : forall n y l, In x (list_set n y l) -> x = y \/ In x l.
Proof. induction n; destruct l as [|z l]; cbn; intros H; auto; destruct H as [H|H]; auto. apply IHn in H. destruct H; auto. Qed.
Lemma in_list_set_keep {A} (x : A) : forall n y l, In x l -> nth_error l n <> Some x -> In x (list_set n y l).
Proof. induction n; destruct l as [|z l]; cbn; intros H N; auto; destruct H as [H|H]; auto; subst; congruence. Qed.
Lemma list_set_in {A} (y : A) : forall n l z, nth_error l n = Some z -> In y (list_set n y l).
Proof. induction n; destruct l; cbn; intros; try discriminate; auto. right. eapply IHn; eauto. Qed.
Lemma map_list_set {A B} (f : A -> B) : forall n y l z, nth_error l n = Some z -> f y = f z -> map f (list_set n y l) = map f l.
Proof. induction n; destruct l; cbn; intros z H F; try discriminate; [injection H as ->; congruence|]. f_equal. eapply IHn; eauto. Qed.
Lemma filter_list_set {A} (f : A -> bool) : forall n y l z, nth_error l n = Some z -> f y = f z ->
  List.length (filter f (list_set n y l)) = List.length (filter f l).
Proof.
  induction n; destruct l; cbn; intros z H F; try discriminate; [injection H as ->; rewrite F; destruct (f z); reflexivity|].
  destruct (f a); cbn; [f_equal|]; eapply IHn; eauto.
Qed.
Lemma filter_list_set_up {A} (f : A -> bool) : forall n y l z, nth_error l n = Some z -> f y = true -> f z = false ->
  List.length (filter f (list_set n y l)) = S (List.length (filter f l)).
Proof.
  induction n; destruct l; cbn; intros z H F G; try discriminate; [injection H as ->; rewrite F, G; reflexivity|].
  destruct (f a); cbn; [f_equal|]; eapply IHn; eauto.
Qed.
Lemma list_set_nil {A} n (y : A) l : l <> [] -> list_set n y l <> [].
Proof. destruct n, l; cbn; congruence. Qed.
Lemma count_app f a b : count f (a ++ b) = (count f a + count f b)%nat.
Proof. unfold count. rewrite filter_app, app_length. reflexivity. Qed.

(** ** Before the listener is there, and the loops *)
Definition I0 (s : life) (ev : list levent) : Prop :=
  (li_cancel s = false -> li_loops s = [] /\ li_open s = false /\ li_watch s = false /\ li_err s = None /\ li_done s = false /\
      (li_main s = MLoad \/ li_main s = MListen \/ li_main s = MReturned (Some CLoad) \/ li_main s = MReturned (Some CListen))) /\
  (li_cancel s = true -> li_main s <> MLoad /\ li_main s <> MListen) /\
  (li_err s = None -> forall l p, In (l, p) (li_loops s) -> p <> LEnded) /\
  (li_err s <> None -> li_done s = true) /\
  (li_cancel s = true -> li_loops s <> []) /\
  (forall e, li_main s = MReturned e -> e <> None).
Ltac nth_in := match goal with H : nth_error _ _ = Some _ |- _ => pose proof (nth_error_In _ _ H) end.
Ltac fin := solve [ discriminate | congruence | auto | tauto ].
Lemma I0_step s ev a s' e : I0 s ev -> lexec s a = Some (s', e) -> I0 s' (ev ++ e).
Proof.
  intros (A & B & C & D & F & G) E. unfold I0. lstep E.
  all: try (destruct (li_cancel s) eqn:Cs;
    [ specialize (B eq_refl); specialize (F eq_refl); clear A
    | destruct (A eq_refl) as (A1 & A2 & A3 & A4 & A5 & A6); clear A; rewrite A1 in *; try (destruct n; discriminate);
      try (destruct i; discriminate)]).
  all: try solve [destruct (A6) as [X|[X|[X|X]]]; discriminate X].
  all: split; [|split; [|split; [|split; [|split]]]].
  all: try fin.
  all: intros.
  all: try match goal with H : In _ (list_set _ _ _) |- _ => apply in_list_set in H; destruct H as [H|H] end.
  all: try fin.
  all: try solve [eapply C; eauto].
  all: try solve [split; discriminate].
  all: try (match goal with H : In _ (_ ++ _) |- _ => apply in_app_or in H; destruct H as [H|H]; [eapply C; eauto|] end).
  all: try solve [cbn in *; intuition congruence].
  all: try solve [destruct (li_loops s); discriminate].
  all: try solve [match goal with H : (_, _) = (_, _) |- _ => injection H as -> ->; discriminate end].
  all: try solve [apply list_set_nil; exact F].
  all: try solve [destruct (li_err s); congruence].
  - match goal with H : MReturned _ = MReturned _ |- _ => injection H as <- end. intros N. specialize (C N).
    destruct (li_loops s) as [|[l p] r] eqn:L; [congruence|]. unfold all_ended in *. cbn in Heqb0. apply andb_true_iff in Heqb0.
    destruct Heqb0 as [X _]. apply (C l p (or_introl eq_refl)). destruct p; congruence.
Qed.

(** ** Why the context is done *)
Definition I1 (s : life) (ev : list levent) : Prop :=
  (li_done s = true -> reason ev) /\
  (li_open s = false -> li_cancel s = true -> reason ev) /\
  (forall k p, nth_error (li_stops s) k = Some p -> reason ev).
Lemma reason_app ev e : reason ev -> reason (ev ++ e).
Proof. unfold reason. intros [H|[H|[H|H]]]; [left|right;left|right;right;left|right;right;right]; apply in_or_app; auto. Qed.
Lemma nth_list_set {A} : forall n (y : A) l k p, nth_error (list_set n y l) k = Some p -> exists q, nth_error l k = Some q.
Proof. induction n; destruct l, k; cbn; intros p H; try discriminate; eauto. Qed.
Lemma nth_snoc {A} (l : list A) x k p : nth_error (l ++ [x]) k = Some p -> nth_error l k = Some p \/ (k = List.length l /\ p = x).
Proof.
  intros H. destruct (Nat.lt_ge_cases k (List.length l)) as [L|L].
  - rewrite nth_error_app1 in H by exact L. auto.
  - rewrite nth_error_app2 in H by exact L. destruct (k - List.length l)%nat as [|m] eqn:K; cbn in H; [|destruct m; discriminate].
    injection H as <-. right. split; [lia|reflexivity].
Qed.
Lemma I1_step s ev a s' e : I0 s ev -> I1 s ev -> lexec s a = Some (s', e) -> I1 s' (ev ++ e).
Proof.
  intros (Z1 & Z2 & Z3 & Z4 & Z5 & Z6) (A & B & C) E. unfold I1. lstep E.
  all: split; [|split]; intros.
  all: repeat match goal with H : nth_error (list_set _ _ _) _ = Some _ |- _ => apply nth_list_set in H; destruct H as [? H] end.
  all: repeat match goal with H : nth_error (_ ++ [_]) _ = Some _ |- _ => apply nth_snoc in H; destruct H as [H|[-> ->]] end.
  all: try solve [apply reason_app; auto; eauto].
  all: try discriminate.
  all: try match goal with H : _ && _ = true |- _ => apply andb_true_iff in H; destruct H end.
  all: try solve [apply reason_app; auto; eauto].
  all: try solve [unfold reason; left; apply in_or_app; right; cbn; auto].
  all: try solve [unfold reason; right; left; apply in_or_app; right; cbn; auto].
  all: try match goal with H : with_panic _ ?g = Err _ |- _ => destruct g as [[]|]; cbn in H; repeat match type of H with context [match ?x with _ => _ end] => destruct x; try discriminate H end; try discriminate H end.
  all: try solve [unfold reason; right; right; left; apply in_or_app; right; cbn; auto].
  all: try solve [unfold reason; right; right; right; apply in_or_app; right; cbn; auto].
  all: try solve [apply reason_app, A, Z4; congruence].
  all: try solve [apply reason_app, B; auto; destruct (li_cancel s) eqn:Cs; auto; destruct (Z1 eq_refl) as (X & _); nth_in; rewrite X in *; contradiction].
  - apply reason_app, A, Z4. intros N. pose proof (Z3 N) as Z. destruct (li_cancel s) eqn:Cs.
    + specialize (Z5 eq_refl). destruct (li_loops s) as [|[l p] r] eqn:L; [congruence|]. unfold all_ended in *. cbn in Heqb0. apply andb_true_iff in Heqb0.
      destruct Heqb0 as [X _]. apply (Z l p (or_introl eq_refl)). destruct p; congruence.
    + destruct (Z1 eq_refl) as (_ & _ & _ & _ & _ & [X|[X|[X|X]]]); congruence.
Qed.

(** ** What Start returns *)
Definition I2 (s : life) (ev : list levent) : Prop := forall e, In (VReturned e) ev -> li_main s = MReturned e.
Lemma I2_step s ev a s' e : I2 s ev -> lexec s a = Some (s', e) -> I2 s' (ev ++ e).
Proof.
  intros A E x H. unfold I2 in A. apply in_app_or in H. lstep E.
  all: destruct H as [H|H]; [apply A in H; congruence|].
  all: cbn in H; repeat match goal with H : _ \/ _ |- _ => destruct H as [H|H] end; try contradiction; try discriminate H; try congruence.
  all: destruct (li_open s); cbn in H; intuition congruence.
Qed.

(** ** Announces *)
Definition I3 (s : life) (ev : list levent) : Prop :=
  (li_crashed s = false -> match li_main s with MLoad | MListen | MTracker => sent STARTED ev = 0%nat | _ => True end) /\
  (sent STARTED ev <= 1)%nat /\
  match li_main s with MAdd _ => In (VSent STARTED true) ev | _ => True end /\
  (forall p, In (LAnnounce, p) (li_loops s) -> In (VSent STARTED true) ev) /\
  (forall a b c, ev = a ++ VSent ANNOUNCE b :: c -> In (VSent STARTED true) a) /\
  sent COMPLETED ev = 0%nat.
Lemma split_app {A} (x : A) c : forall ev e a, ev ++ e = a ++ x :: c ->
  (exists c', ev = a ++ x :: c') \/ (exists a', a = ev ++ a' /\ e = a' ++ x :: c).
Proof.
  induction ev as [|y ev IH]; intros e a H.
  - right. exists a. split; [reflexivity|exact H].
  - destruct a as [|z a]; cbn in H; injection H as -> H.
    + left. exists ev. reflexivity.
    + destruct (IH _ _ H) as [(c' & ->)|(a' & -> & ->)]; [left; exists c'; reflexivity|right; exists a'; split; reflexivity].
Qed.
Lemma sent_app t a b : sent t (a ++ b) = (sent t a + sent t b)%nat.
Proof. apply count_app. Qed.
Lemma I3_step s ev a s' e : I3 s ev -> lexec s a = Some (s', e) -> I3 s' (ev ++ e).
Proof.
  intros (A & B & C & D & F & G) E. unfold I3. lstep E.
  all: try specialize (A eq_refl).
  all: repeat match goal with H : li_crashed _ = _ |- _ => rewrite ?H in * end; try specialize (A eq_refl).
  all: split; [|split; [|split; [|split; [|split]]]].
  all: try (rewrite sent_app; cbn; rewrite ?A, ?G; try lia; fail).
  all: try exact I; try (intros; exact I).
  all: try solve [intros _; rewrite sent_app, A; reflexivity].
  all: try solve [intros; congruence].
  all: try solve [rewrite sent_app; try rewrite A; destruct (li_open s); cbn; lia].
  all: try solve [intros _; destruct (li_main s); auto; rewrite sent_app, A; destruct (li_open s); reflexivity].
  all: try solve [intros; destruct (li_main s); auto; rewrite sent_app; cbn; lia].
  all: try solve [destruct (li_main s); auto; apply in_or_app; auto].
  all: try solve [apply in_or_app; right; cbn; auto].
  all: try solve [intros; apply in_or_app; left; eapply D; eauto].
  all: try solve [intros; apply in_or_app; left; nth_in; match goal with H : In _ (list_set _ _ _) |- _ => apply in_list_set in H; destruct H as [H|H] end; try discriminate; eapply D; eauto].
  all: try solve [intros; cbn in *; intuition congruence].
  all: try solve [intros x b c H; apply split_app in H; destruct H as [(c' & ->)|(a' & -> & H)]; [eapply F; reflexivity|];
    repeat (destruct a' as [|? a']; try discriminate H; cbn in H; try (injection H as ? H)); try discriminate;
    try solve [destruct (li_open s); repeat (destruct a' as [|? a']; try discriminate H; cbn in H; try (injection H as ? H)); try discriminate];
    rewrite app_nil_r; nth_in; eapply D; eauto].
  - intros p H. apply in_app_or in H. apply in_or_app. left. destruct H as [H|H]; [eapply D; eauto|exact C].
  - match goal with H : li_main s = _ |- _ => rewrite H end. exact I.
Qed.

(** ** The calls of Stop *)
Definition told (p : spc) : bool := match p with SReturned (Some CNotStarted) => false | SReturned _ => true | _ => false end.
Definition rejected (p : spc) : bool := match p with SReturned (Some CNotStarted) => true | _ => false end.
Definition nb (b : bool) : nat := if b then 1%nat else 0%nat.
Definition I4 (s : life) (ev : list levent) : Prop :=
  (li_crashed s = false -> sent STOPPED ev = List.length (filter told (li_stops s))) /\
  count is_rejection ev = List.length (filter rejected (li_stops s)) /\
  (List.length (li_stops s) + nb (li_watch s) = count is_call ev + nb (li_cancel s))%nat.
Lemma list_set_len {A} : forall n (y : A) l, List.length (list_set n y l) = List.length l.
Proof. induction n; destruct l; cbn; auto. Qed.
Lemma I4_step s ev a s' e : I0 s ev -> I4 s ev -> lexec s a = Some (s', e) -> I4 s' (ev ++ e).
Proof.
  intros (Z1 & Z2 & _) (A & B & C) E. unfold I4. lstep E.
  all: repeat match goal with H : li_crashed _ = _ |- _ => rewrite ?H in * end; try specialize (A eq_refl).
  all: rewrite ?sent_app, ?count_app, ?list_set_len, ?filter_app, ?app_length.
  all: split; [intros|split].
  all: try discriminate.
  all: try solve [destruct (li_open s); cbn; lia].
  all: try solve [erewrite filter_list_set by (eauto); cbn; lia].
  all: try solve [erewrite filter_list_set_up by (eauto); cbn; lia].
  - destruct (li_cancel s); [destruct (Z2 eq_refl); congruence|]. destruct (Z1 eq_refl) as (_ & _ & W & _). rewrite W in C. cbn in *. lia.
  - apply andb_true_iff in Heqb0. destruct Heqb0 as [W _]. rewrite W in C. unfold nb in *. cbn [List.length]. change (count is_call []) with 0%nat. lia.
  - rewrite Heqb1. change (count is_call []) with 0%nat. lia.
  - rewrite Heqb1. change (count is_call [VStop (Some CNotStarted)]) with 0%nat. lia.
Qed.

(** ** The lock and the listener *)
Definition I5 (s : life) (ev : list levent) : Prop :=
  (forall k, nth_error (li_stops s) k = Some STell <-> li_mu s = Some (HStop k)) /\
  (In STell (li_stops s) \/ (exists e, e <> Some CNotStarted /\ In (VStop e) ev) -> li_open s = false /\ li_done s = true /\ li_cancel s = true) /\
  (li_cancel s = true -> li_open s = false \/ li_watch s = true \/ In SLock (li_stops s)) /\
  (li_watch s = true -> li_cancel s = true) /\
  (forall e, li_main s = MReturned e -> li_cancel s = true -> li_done s = true).
Lemma nth_set_same {A} : forall n (y : A) l, (n < List.length l)%nat -> nth_error (list_set n y l) n = Some y.
Proof. induction n; destruct l; cbn; intros; try lia; auto. apply IHn. lia. Qed.
Lemma nth_set_other {A} : forall n (y : A) l k, k <> n -> nth_error (list_set n y l) k = nth_error l k.
Proof. induction n; destruct l, k; cbn; intros; try congruence; auto. Qed.
Lemma nth_set_iff {A} k (y z : A) l w j : nth_error l k = Some z ->
  (nth_error (list_set k y l) j = Some w <-> (j = k /\ y = w) \/ (j <> k /\ nth_error l j = Some w)).
Proof.
  intros N. destruct (Nat.eq_dec j k) as [->|J].
  - rewrite nth_set_same by (apply nth_error_Some; congruence). split; [intros H; injection H as ->; auto|intros [[_ ->]|[X _]]; congruence].
  - rewrite nth_set_other by exact J. split; [auto|intros [[X _]|[_ X]]; congruence].
Qed.
Lemma free_mu s : free s = true -> li_mu s = None.
Proof. unfold free. destruct (li_mu s); congruence. Qed.
Lemma I5_step s ev a s' e : I0 s ev -> I5 s ev -> lexec s a = Some (s', e) -> I5 s' (ev ++ e).
Proof.
  intros (Z1 & Z2 & _) (A & B & C & D & F) E. unfold I5.
  pose proof (fun H => B (or_introl H)) as B1. pose proof (fun x N H => B (or_intror (ex_intro _ x (conj N H)))) as B2. clear B.
  lstep E.
  all: repeat match goal with H : free _ = true |- _ => apply free_mu in H end.
  all: repeat match goal with H : li_mu _ = _ |- _ => rewrite H in * end.
  all: split; [|split; [|split; [|split]]].
  all: try fin.
  all: try solve [intros [H|(x & N & H)]; [try (apply in_list_set in H; destruct H as [H|H]; [discriminate|]); try (apply in_app_or in H; destruct H as [H|H]; [|cbn in H; intuition discriminate]); repeat match goal with H : _ = _ |- _ => rewrite H in * end; destruct (B1 H) as (? & ? & ?); repeat split; auto; congruence
     |apply in_app_or in H; destruct H as [H|H]; [destruct (B2 x N H) as (? & ? & ?); repeat split; auto; congruence|cbn in H; intuition congruence]]].
  all: try solve [match goal with N : nth_error (li_stops _) ?k = Some _ |- _ => intros j; pose proof (A j) as Aj; pose proof (A k) as Ak; rewrite (nth_set_iff _ _ _ _ _ _ N); rewrite N in Ak; clear A;
     split; [intros [[-> X]|[X Y]]; try congruence; try (apply Aj in Y; congruence); try (apply proj1 in Ak; specialize (Ak eq_refl); apply Aj in Y; congruence)
            |intros X; try discriminate X; injection X as ->; auto] end].
  all: try solve [match goal with N : nth_error (li_stops _) ?k = Some STell |- _ => destruct (B1 (nth_error_In _ _ N)) as (? & ? & ?); auto end].
  all: try solve [intros Hc; destruct (C Hc) as [|[|]]; auto; right; right; apply in_or_app; auto].
  all: try solve [intros j; pose proof (A j) as Aj; rewrite Aj; split; intros; congruence].
  { destruct (li_cancel s); [destruct (Z2 eq_refl); congruence|]. intros [H|(x & N & H)]; [apply B1 in H; intuition congruence|].
    rewrite app_nil_r in H. apply (B2 x N) in H. intuition congruence. }
  all: try solve [intros j; split; intros H; [apply nth_snoc in H; destruct H as [H|[_ H]]; [apply A; exact H|discriminate]|apply A in H; rewrite nth_error_app1; [exact H|apply nth_error_Some; congruence]]].
  all: try solve [intros; right; right; apply in_or_app; right; cbn; auto].
  all: try solve [intros H; apply D in H; congruence].
  all: try solve [intros H; pose proof (D H); congruence].
  all: try solve [intros Hc; destruct (C Hc) as [X|[X|X]]; auto; congruence].
Qed.

(** ** All together *)
Definition I6 (s : life) (ev : list levent) : Prop := forall l p, In (l, p) (li_loops s) -> is_every l = true \/ p = LSelect \/ p = LEnded.
Lemma I6_step s ev a s' e : I6 s ev -> lexec s a = Some (s', e) -> I6 s' (ev ++ e).
Proof.
  intros A E l p H. unfold I6 in A. lstep E.
  all: try match goal with H : In _ (list_set _ _ _) |- _ => apply in_list_set in H; destruct H as [H|H] end; try match goal with H : (_, _) = (_, _) |- _ => injection H as -> -> end.
  all: try solve [eapply A; eauto | cbn; auto].
  all: try (apply in_app_or in H; destruct H as [H|H]; [eapply A; eauto|]).
  all: cbn in H; intuition; match goal with H : (_, _) = (_, _) |- _ => injection H as <- <-; cbn; auto end.
Qed.
Definition LI (s : life) (ev : list levent) : Prop := I0 s ev /\ I1 s ev /\ I2 s ev /\ I3 s ev /\ I4 s ev /\ I5 s ev /\ I6 s ev.
Lemma LI_step s ev a s' e : LI s ev -> lexec s a = Some (s', e) -> LI s' (ev ++ e).
Proof.
  intros (A & B & C & D & F & G & H) E. unfold LI.
  split; [eapply I0_step; eauto|split; [eapply I1_step; eauto|split; [eapply I2_step; eauto|split; [eapply I3_step; eauto|split; [eapply I4_step; eauto|split; [eapply I5_step; eauto|eapply I6_step; eauto]]]]]].
Qed.
Lemma nth_nil {A} k : @nth_error A [] k = None.
Proof. destruct k; reflexivity. Qed.
Lemma LI_fresh : LI fresh_server [].
Proof.
  unfold LI, I0, I1, I2, I3, I4, I5, I6. cbn -[nth_error]. repeat apply conj; intros; try discriminate; auto; try contradiction; try congruence.
  all: rewrite ?nth_nil in *; try discriminate; try tauto; try (split; discriminate).
  all: try (destruct a; discriminate).
  all: match goal with H : _ \/ _ |- _ => destruct H as [[]|(x & _ & [])] end.
Qed.
Lemma LI_reached l s ev : lruns fresh_server l = Some (s, ev) -> LI s ev.
Proof. intros R. exact (lruns_inv LI LI_step l _ [] _ _ LI_fresh R). Qed.
Lemma LI_after l s ev l' s' e : lruns fresh_server l = Some (s, ev) -> lruns s l' = Some (s', e) -> LI s' (ev ++ e).
Proof. intros R R'. exact (lruns_inv LI LI_step l' _ ev _ _ (LI_reached _ _ _ R) R'). Qed.

(** ** Coming to rest *)
Section Rest.
Variable g : got gval unit.
Hypothesis Gs : use_start g <> Panic.
Hypothesis Ga : use_announce g <> Panic.
Notation quiet := (LifecycleSpec.quiet g).
Definition leads (s : life) (P : life -> Prop) : Prop :=
  exists l s' e, lruns s l = Some (s', e) /\ Forall quiet l /\ P s'.
Lemma leads_now s (P : life -> Prop) : P s -> leads s P.
Proof. intros H. exists [], s, []. auto. Qed.
Lemma leads_step a s s' e (P : life -> Prop) : lexec s a = Some (s', e) -> quiet a -> leads s' P -> leads s P.
Proof.
  intros E Q (l & s2 & e2 & R & F & H). exists (a :: l), s2, (e ++ e2). cbn [lruns]. rewrite E, R. auto.
Qed.
Lemma leads_trans s (P R : life -> Prop) : leads s P -> (forall s', P s' -> leads s' R) -> leads s R.
Proof.
  intros (l & s1 & e1 & E1 & F1 & H1) K. destruct (K _ H1) as (l2 & s2 & e2 & E2 & F2 & H2).
  exists (l ++ l2), s2, (e1 ++ e2). split; [eapply lruns_app; eassumption|]. split; [apply Forall_app; auto|exact H2].
Qed.

(** What is kept in between. *)
Record calm (s : life) : Prop := {
  ca_crash : li_crashed s = false; ca_done : li_done s = true; ca_mu : li_mu s = None;
  ca_every : forall l p, In (l, p) (li_loops s) -> is_every l = true \/ p = LSelect \/ p = LEnded;
  ca_cancel : li_cancel s = true;
  ca_tell : ~ In STell (li_stops s);
  ca_main : li_main s <> MLoad /\ li_main s <> MListen }.

Lemma list_set_set {A} : forall i (x y : A) l, list_set i x (list_set i y l) = list_set i x l.
Proof. induction i; destruct l; cbn; congruence. Qed.
Lemma list_set_same {A} : forall i (x : A) l, nth_error l i = Some x -> list_set i x l = l.
Proof. induction i; destruct l; cbn; intros H; try discriminate; [congruence|]. f_equal. auto. Qed.
Definition loop_at (s : life) (i : nat) (l : loop) (p : lpc) (s' : life) : Prop :=
  calm s' /\ li_main s' = li_main s /\ li_loops s' = list_set i (l, p) (li_loops s).
Lemma calm_goes s i l p : calm s -> (is_every l = true \/ p = LSelect \/ p = LEnded) -> calm (loop_goes i l p s).
Proof.
  intros [A B C D F G K] H. constructor; cbn; auto. intros l' p' I. apply in_list_set in I. destruct I as [I|I]; [|eauto].
  injection I as -> ->. exact H.
Qed.
Lemma calm_error c s : calm s -> calm (group_error c s).
Proof. intros [A B C D F G K]. constructor; cbn; auto. Qed.
Lemma end_select s i l : calm s -> nth_error (li_loops s) i = Some (l, LSelect) -> leads s (loop_at s i l LEnded).
Proof.
  intros H N. assert (exists c e, lexec s (AEnd i) = Some (group_error c (loop_goes i l LEnded s), e)) as (c & e & E).
  { unfold lexec, loop_end. rewrite (ca_crash _ H), N, (ca_done _ H). destruct l; do 2 eexists; reflexivity. }
  eapply leads_step; [exact E|exact I|]. apply leads_now. split; [apply calm_error, calm_goes; auto|]. split; reflexivity.
Qed.
Lemma loop_at_trans s i l p : (i < List.length (li_loops s))%nat ->
  leads s (loop_at s i l p) -> (forall s', calm s' -> nth_error (li_loops s') i = Some (l, p) -> leads s' (loop_at s' i l LEnded)) ->
  leads s (loop_at s i l LEnded).
Proof.
  intros Li A B. eapply leads_trans; [exact A|]. intros s1 (C1 & M1 & L1).
  assert (nth_error (li_loops s1) i = Some (l, p)) as N1 by (rewrite L1; apply nth_set_same; exact Li).
  destruct (B s1 C1 N1) as (w & s2 & e2 & R & F & C2 & M2 & L2). exists w, s2, e2. split; [exact R|]. split; [exact F|].
  split; [exact C2|]. split; [congruence|]. rewrite L2, L1. apply list_set_set.
Qed.
Lemma free_calm s : calm s -> free s = true.
Proof. intros H. unfold free. rewrite (ca_mu _ H). reflexivity. Qed.
Lemma end_after s i l : calm s -> is_every l = true -> nth_error (li_loops s) i = Some (l, LAfter) -> leads s (loop_at s i l LEnded).
Proof.
  intros H Ev N. eapply (loop_at_trans s i l LSelect); [apply nth_error_Some; congruence| |intros s' C' N'; apply end_select; auto].
  assert (lexec s (ALoop i) = Some (loop_goes i l LSelect s, [])) as E.
  { unfold lexec, loop_step. rewrite (ca_crash _ H), N, (free_calm _ H). destruct l; try discriminate; reflexivity. }
  eapply leads_step; [exact E|exact I|]. apply leads_now. split; [apply calm_goes; auto|]. split; reflexivity.
Qed.
Lemma end_loop s i l p : calm s -> nth_error (li_loops s) i = Some (l, p) -> leads s (loop_at s i l LEnded).
Proof.
  intros H N. pose proof (ca_every _ H _ _ (nth_error_In _ _ N)) as Ev.
  destruct p.
  - apply end_select; auto.
  - destruct Ev as [Ev|[Ev|Ev]]; try discriminate. destruct l; try discriminate.
    + eapply (loop_at_trans s i LUnchoke LAfter); [apply nth_error_Some; congruence| |intros s' C' N'; apply end_after; auto].
      assert (lexec s (ALoop i) = Some (loop_goes i LUnchoke LAfter s, [])) as E.
      { unfold lexec, loop_step. rewrite (ca_crash _ H), N, (free_calm _ H). reflexivity. }
      eapply leads_step; [exact E|exact I|]. apply leads_now. split; [apply calm_goes; auto|]. split; reflexivity.
    + destruct (use_announce g) as [u|u|] eqn:U; [| |contradiction].
      * eapply (loop_at_trans s i LAnnounce LAfter); [apply nth_error_Some; congruence| |intros s' C' N'; apply end_after; auto].
        assert (lexec s (AAnnounced i (Some g)) = Some (loop_goes i LAnnounce LAfter s, [VSent ANNOUNCE true])) as E.
        { unfold lexec. rewrite (ca_crash _ H), N. unfold with_panic. rewrite U. reflexivity. }
        eapply leads_step; [exact E|reflexivity|]. apply leads_now. split; [apply calm_goes; auto|]. split; reflexivity.
      * assert (lexec s (AAnnounced i (Some g)) = Some (group_error CTracker (loop_goes i LAnnounce LEnded s), [VSent ANNOUNCE (answered (Some g))])) as E.
        { unfold lexec. rewrite (ca_crash _ H), N. unfold with_panic. rewrite U. reflexivity. }
        eapply leads_step; [exact E|reflexivity|]. apply leads_now. split; [apply calm_error, calm_goes; auto|]. split; reflexivity.
  - destruct Ev as [Ev|[Ev|Ev]]; try discriminate. apply end_after; auto.
  - apply leads_now. split; [exact H|]. split; [reflexivity|]. rewrite list_set_same; auto.
Qed.
Definition ended (x : loop * lpc) : bool := match snd x with LEnded => true | _ => false end.
Definition loops_over (s s' : life) : Prop := calm s' /\ li_main s' = li_main s /\ all_ended (li_loops s') = true.
Lemma not_all_ended (l : list (loop * lpc)) : all_ended l = false -> exists i x p, nth_error l i = Some (x, p) /\ p <> LEnded.
Proof.
  induction l as [|[x p] l IH]; cbn; [discriminate|]. intros H. destruct (all_ended l) eqn:A.
  - unfold all_ended in A. rewrite A, andb_true_r in H. exists 0%nat, x, p. split; [reflexivity|]. destruct p; congruence.
  - destruct (IH eq_refl) as (i & y & q & N & Q). exists (S i), y, q. auto.
Qed.
Lemma end_loops : forall n s, (List.length (filter (fun x => negb (ended x)) (li_loops s)) <= n)%nat -> calm s -> leads s (loops_over s).
Proof.
  induction n; intros s Ln H.
  - apply leads_now. split; [exact H|]. split; [reflexivity|]. destruct (all_ended (li_loops s)) eqn:A; [reflexivity|].
    destruct (not_all_ended _ A) as (i & x & p & N & P). exfalso.
    assert (In (x, p) (filter (fun x => negb (ended x)) (li_loops s))) as IN.
    { apply filter_In. split; [eapply nth_error_In; eauto|]. unfold ended. cbn. destruct p; try reflexivity; congruence. }
    destruct (filter _ _); [contradiction|cbn in Ln; lia].
  - destruct (all_ended (li_loops s)) eqn:A; [apply leads_now; split; auto|].
    destruct (not_all_ended _ A) as (i & x & p & N & P).
    destruct (end_loop s i x p H N) as (w & s1 & e1 & R1 & F1 & C1 & M1 & L1).
    destruct (IHn s1) as (w2 & s2 & e2 & R2 & F2 & C2 & M2 & L2); [|exact C1|].
    + rewrite L1. assert (List.length (filter (fun x => negb (ended x)) (li_loops s)) =
        S (List.length (filter (fun x => negb (ended x)) (list_set i (x, LEnded) (li_loops s))))) as K; [|lia].
      rewrite <- (list_set_same i (x, p) (li_loops s) N) at 1. rewrite <- (list_set_set i (x, p) (x, LEnded) (li_loops s)).
      apply (filter_list_set_up _ _ _ _ (x, LEnded)); [apply nth_set_same, nth_error_Some; congruence| |reflexivity].
      unfold ended. cbn. destruct p; try reflexivity; congruence.
    + exists (w ++ w2), s2, (e1 ++ e2). split; [eapply lruns_app; eauto|]. split; [apply Forall_app; auto|].
      split; [exact C2|]. split; [congruence|exact L2].
Qed.

(** Start gets to eg.Wait or returns. *)
Definition start_over (s' : life) : Prop := calm s' /\ (li_main s' = MWait \/ exists e, li_main s' = MReturned e).
Lemma calm_main m s : calm s -> m <> MLoad /\ m <> MListen -> calm (set_main m s).
Proof. intros [A B C D F G K] M. constructor; cbn; auto. Qed.
Ltac go E C := eapply leads_step; [exact E|first [exact I|reflexivity]|].
Lemma from_unchoking s : calm s -> li_main s = MUnchoking -> leads s start_over.
Proof.
  intros H M. assert (lexec s (AStart true) = Some (set_main MWait s, [])) as E by (unfold lexec, start_step; rewrite (ca_crash _ H), M; reflexivity).
  eapply leads_step; [exact E|exact I|]. apply leads_now. split; [apply calm_main; [exact H|split; discriminate]|cbn; auto].
Qed.
Lemma from_unchoke s : calm s -> li_main s = MUnchoke -> leads s start_over.
Proof.
  intros H M. assert (lexec s (AStart true) = Some (set_main MUnchoking s, [])) as E by (unfold lexec, start_step; rewrite (ca_crash _ H), M, (free_calm _ H); reflexivity).
  eapply leads_step; [exact E|exact I|]. apply from_unchoking; [apply calm_main; [exact H|split; discriminate]|reflexivity].
Qed.
Lemma from_add s d : calm s -> li_main s = MAdd d -> leads s start_over.
Proof.
  intros H M. assert (lexec s (AStart true) = Some (set_main MUnchoke (set_loops (li_loops s ++ [(LAnnounce, LSelect)]) s), [])) as E by (unfold lexec, start_step; rewrite (ca_crash _ H), M, (free_calm _ H); reflexivity).
  eapply leads_step; [exact E|exact I|]. apply from_unchoke; [|reflexivity]. destruct H as [A B C D F G K]. constructor; cbn; auto; [|split; discriminate].
  intros l p I. apply in_app_or in I. destruct I as [I|[I|[]]]; [eauto|]. injection I as <- <-. auto.
Qed.
Lemma end_start s : calm s -> leads s start_over.
Proof.
  intros H. destruct (li_main s) eqn:M.
  - exfalso. destruct (ca_main _ H). congruence.
  - exfalso. destruct (ca_main _ H). congruence.
  - destruct (use_start g) as [d|u|] eqn:U; [| |contradiction].
    + assert (lexec s (AStarted (Some g)) = Some (set_main (MAdd d) s, [VSent STARTED true])) as E
        by (unfold lexec; rewrite (ca_crash _ H), M; unfold with_panic; rewrite U; reflexivity).
      eapply leads_step; [exact E|reflexivity|]. apply (from_add _ d); [apply calm_main; [exact H|split; discriminate]|reflexivity].
    + assert (exists e, lexec s (AStarted (Some g)) = Some (start_returns (Some CTracker) s, e)) as (e & E)
        by (unfold lexec; rewrite (ca_crash _ H), M; unfold with_panic; rewrite U; eexists; reflexivity).
      eapply leads_step; [exact E|reflexivity|]. apply leads_now. split; [|right; eexists; reflexivity].
      destruct H as [A B C D F G K]. constructor; cbn; auto. split; discriminate.
  - apply (from_add _ period); auto.
  - apply from_unchoke; auto.
  - apply from_unchoking; auto.
  - apply leads_now. split; auto.
  - apply leads_now. split; eauto.
Qed.
Definition start_done (s' : life) : Prop := calm s' /\ (exists e, li_main s' = MReturned e) /\ all_ended (li_loops s') = true.
Lemma finish_start s : calm s -> leads s start_done.
Proof.
  intros H. eapply leads_trans; [apply end_start, H|]. intros s1 (C1 & M1).
  eapply leads_trans; [exact (end_loops _ s1 (le_n _) C1)|]. intros s2 (C2 & M2 & L2).
  destruct M1 as [M1|(e & M1)]; [|apply leads_now; split; [exact C2|split; [exists e; congruence|exact L2]]].
  assert (lexec s2 (AStart true) = Some (start_returns (li_err s2) s2, [VReturned (li_err s2)])) as E
    by (unfold lexec, start_step; rewrite (ca_crash _ C2), M2, M1, L2; reflexivity).
  eapply leads_step; [exact E|exact I|]. apply leads_now. split; [|split; [eexists; reflexivity|exact L2]].
  destruct C2 as [A B C D F G K]. constructor; cbn; auto. split; discriminate.
Qed.

(** The calls of Stop return. *)
Definition stops_done (s' : life) : Prop := start_done s' /\ li_watch s' = false.
Lemma finish_watch s : start_done s -> leads s stops_done.
Proof.
  intros (H & M & L). destruct (li_watch s) eqn:W; [|apply leads_now; split; [split; auto|exact W]].
  assert (lexec s AWatch = Some (set_watch false (set_stops (li_stops s ++ [SLock]) s), [])) as E
    by (unfold lexec; rewrite (ca_crash _ H), W, (ca_done _ H); reflexivity).
  eapply leads_step; [exact E|exact I|]. apply leads_now. split; [|reflexivity]. split; [|split; [exact M|exact L]].
  destruct H as [A B C D F G K]. constructor; cbn; auto. intros I. apply in_app_or in I. destruct I as [I|[I|[]]]; [auto|discriminate].
Qed.
Definition waiting (p : spc) : bool := match p with SReturned _ => false | _ => true end.
Lemma waiting_found (l : list spc) : List.length (filter waiting l) <> 0%nat -> exists k p, nth_error l k = Some p /\ waiting p = true.
Proof.
  induction l as [|p l IH]; cbn; [congruence|]. destruct (waiting p) eqn:W; [intros _; exists 0%nat, p; auto|].
  intros H. destruct (IH H) as (k & q & N & Q). exists (S k), q. auto.
Qed.
Lemma finish_stops : forall n s, List.length (filter waiting (li_stops s)) = n -> stops_done s ->
  leads s (fun s' => stops_done s' /\ filter waiting (li_stops s') = []).
Proof.
  induction n; intros s Ln H.
  - apply leads_now. split; [exact H|]. destruct (filter _ _); [reflexivity|discriminate].
  - destruct H as ((H & M & L) & W). destruct (waiting_found (li_stops s)) as (k & p & N & Q); [lia|].
    assert (p = SLock) as -> by (destruct p; try discriminate Q; [reflexivity|]; exfalso; apply (ca_tell _ H); eapply nth_error_In; eauto).
    set (s1 := set_lmu (Some (HStop k)) (set_done true (set_open false (set_stops (list_set k STell (li_stops s)) s)))).
    assert (lexec s (ASStep k) = Some (s1, [])) as E1
      by (unfold lexec, stop_step; rewrite (ca_crash _ H), N, (free_calm _ H), (ca_cancel _ H); reflexivity).
    set (r := match g with GotErr _ => Some CTracker | _ => None end).
    set (s2 := set_lmu None (set_stops (list_set k (SReturned r) (li_stops s)) (set_done true (set_open false s)))).
    assert (exists e, lexec s1 (AStopped k (Some g)) = Some (s2, e)) as (e & E2).
    { unfold lexec, s1. cbn. rewrite (ca_crash _ H). cbn. rewrite nth_set_same by (apply nth_error_Some; congruence).
      eexists. unfold s2. rewrite list_set_set. reflexivity. }
    eapply leads_step; [exact E1|exact I|]. eapply leads_step; [exact E2|reflexivity|].
    eapply leads_trans; [apply (IHn s2)|].
    + unfold s2. cbn. assert (S (List.length (filter waiting (list_set k (SReturned r) (li_stops s)))) = S n) as K; [|lia].
      rewrite <- Ln. symmetry. rewrite <- (list_set_same k SLock (li_stops s) N) at 1.
      rewrite <- (list_set_set k SLock (SReturned r) (li_stops s)).
      apply (filter_list_set_up _ _ _ _ (SReturned r)); [apply nth_set_same, nth_error_Some; congruence|reflexivity|reflexivity].
    + split; [|exact W]. split; [|split; [exact M|exact L]]. destruct H as [A B C D F G K]. constructor; cbn; auto.
      intros I. apply in_list_set in I. destruct I as [I|I]; [discriminate|auto].
    + intros s3 H3. apply leads_now. exact H3.
Qed.
Lemma finish s : calm s -> leads s (fun s' => stops_done s' /\ filter waiting (li_stops s') = []).
Proof.
  intros H. eapply leads_trans; [apply finish_start, H|]. intros s1 H1. eapply leads_trans; [apply finish_watch, H1|].
  intros s2 H2. eapply finish_stops; [reflexivity|exact H2].
Qed.
(** The lock is released. *)
Lemma calm_down s ev : LI s ev -> li_crashed s = false -> li_done s = true -> leads s calm.
Proof.
  intros (A & B & C & D & F & G & H) Cr Dn.
  assert (li_cancel s = true) as Cs.
  { destruct (li_cancel s) eqn:X; [reflexivity|]. destruct A as (A & _). destruct (A X) as (_ & _ & _ & _ & Y & _). congruence. }
  assert (li_main s <> MLoad /\ li_main s <> MListen) as Mn by (destruct A as (_ & A & _); auto).
  assert (forall s', li_crashed s' = li_crashed s -> li_done s' = li_done s -> li_mu s' = None -> li_loops s' = li_loops s -> li_cancel s' = li_cancel s ->
          ~ In STell (li_stops s') -> li_main s' = li_main s -> calm s') as K.
  { intros s' E1 E2 E3 E4 E5 E6 E7. constructor; first [congruence | exact E6 | rewrite E4; exact H | rewrite E7; exact Mn]. }
  destruct G as (G & _). destruct (li_mu s) as [[k|]|] eqn:Mu.
  - assert (nth_error (li_stops s) k = Some STell) as N by (apply G; reflexivity).
    set (r := match g with GotErr _ => Some CTracker | _ => None end).
    assert (lexec s (AStopped k (Some g)) = Some (set_lmu None (set_stops (list_set k (SReturned r) (li_stops s)) s), [VSent STOPPED (answered (Some g)); VStop r])) as E
      by (unfold lexec; rewrite Cr, N; reflexivity).
    eapply leads_step; [exact E|reflexivity|]. apply leads_now. apply K; try reflexivity. cbn. intros I. apply In_nth_error in I. destruct I as [j I].
    apply (nth_set_iff _ _ _ _ _ _ N) in I. destruct I as [[_ I]|[J I]]; [discriminate|]. apply G in I. congruence.
  - assert (lexec s AOther = Some (set_lmu None s, [])) as E by (unfold lexec; rewrite Cr, Mu; reflexivity).
    eapply leads_step; [exact E|exact I|]. apply leads_now. apply K; try reflexivity. cbn. intros I. apply In_nth_error in I. destruct I as [j I]. apply G in I. congruence.
  - apply leads_now. apply K; auto. intros I. apply In_nth_error in I. destruct I as [j I]. apply G in I. congruence.
Qed.
Lemma comes_to_rest l s ev : lruns fresh_server l = Some (s, ev) -> li_crashed s = false -> li_done s = true -> leads s at_rest.
Proof.
  intros R Cr Dn. assert (leads s (fun s' => stops_done s' /\ filter waiting (li_stops s') = [])) as (w & s' & e & R' & Q & ((H & M & L) & W) & N).
  { eapply leads_trans; [eapply calm_down; eauto; exact (LI_reached _ _ _ R)|]. exact finish. }
  exists w, s', e. split; [exact R'|]. split; [exact Q|].
  assert (forall p, In p (li_stops s') -> exists x, p = SReturned x) as St.
  { intros p I. destruct p; try (eexists; reflexivity); exfalso; [assert (In SLock (filter waiting (li_stops s'))) as J by (apply filter_In; auto)|assert (In STell (filter waiting (li_stops s'))) as J by (apply filter_In; auto)]; rewrite N in J; contradiction. }
  split; [exact M|]. split; [|split; [exact St|split; [exact W|split; [|exact (ca_mu _ H)]]]].
  - intros x p I. unfold all_ended in L. rewrite forallb_forall in L. specialize (L _ I). destruct p; cbn in L; congruence.
  - destruct (LI_after _ _ _ _ _ _ R R') as (_ & _ & _ & _ & _ & (_ & _ & G & _) & _). destruct (G (ca_cancel _ H)) as [X|[X|X]]; [exact X|congruence|].
    apply St in X. destruct X. discriminate.
Qed.
End Rest.
