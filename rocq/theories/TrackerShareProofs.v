From Verif Require Import GoBase GoBaseProofs Multitracker MultitrackerSpec MultitrackerProofs TrackerShare TrackerShareSpec.

Section Share.
Context {T R E : Type}.
Notation share := (share T R E).
Notation gruns := (@gruns T R E).
Notation gexec := (@gexec T R E).

Lemma gruns_app (s : share) l l' : gruns s (l ++ l') = match gruns s l with
  | Some (s1, e1) => match gruns s1 l' with Some (s2, e2) => Some (s2, e1 ++ e2) | None => None end | None => None end.
Proof.
  revert s. induction l as [|a l IH]; intros s; cbn [app TrackerShare.gruns]; [destruct (gruns s l') as [[? ?]|]; reflexivity|].
  destruct (gexec s a) as [[s1 e1]|]; [|reflexivity]. rewrite IH. destruct (gruns s1 l) as [[s2 e2]|]; [|reflexivity].
  destruct (gruns s2 l') as [[s3 e3]|]; [|reflexivity]. now rewrite app_assoc.
Qed.
Lemma gruns_ind (P : share -> list (gevent T R E) -> Prop) s0 l s ev : P s0 [] -> (forall s ev a s' e, P s ev -> gexec s a = Some (s', e) -> P s' (ev ++ e)) ->
  gruns s0 l = Some (s, ev) -> P s ev.
Proof.
  intros P0 PS. revert s ev. induction l as [|a l IH] using rev_ind; intros s ev H; [injection H as <- <-; exact P0|].
  rewrite gruns_app in H. destruct (gruns s0 l) as [[s1 e1]|]; [|discriminate]. cbn [TrackerShare.gruns] in H. destruct (gexec s1 a) as [[s2 e2]|] eqn:X; [|discriminate].
  injection H as <- <-. rewrite app_nil_r. eapply PS; [apply IH; reflexivity|exact X].
Qed.
Definition upd (k : nat) (p : gpc T R E) (s : share) : share := {| sh_tiers := sh_tiers s; sh_calls := list_set k p (sh_calls s) |}.
Definition put (i : nat) (b : list T) (s : share) : share := {| sh_tiers := list_set i b (sh_tiers s); sh_calls := sh_calls s |}.
Inductive gstep (s : share) : gaction R E -> share -> list (gevent T R E) -> Prop :=
| gs_call : gstep s GCall {| sh_tiers := sh_tiers s; sh_calls := sh_calls s ++ [GTry 0 0 GotNothing] |} []
| gs_end k o i j last : nth_error (sh_calls s) k = Some (GTry i j last) -> nth_error (sh_tiers s) i = None -> gstep s (GStep k o) (upd k (GReturned last) s) [ERet k last]
| gs_next k o i j last b : nth_error (sh_calls s) k = Some (GTry i j last) -> nth_error (sh_tiers s) i = Some b -> nth_error b j = None -> gstep s (GStep k o) (upd k (GTry (S i) 0 last) s) []
| gs_ask k o i j last b t : nth_error (sh_calls s) k = Some (GTry i j last) -> nth_error (sh_tiers s) i = Some b -> nth_error b j = Some t -> gstep s (GStep k o) (upd k (GAsked i j t) s) [EAsk k t]
| gs_fail k e i j t : nth_error (sh_calls s) k = Some (GAsked i j t) -> gstep s (GStep k (inr e)) (upd k (GTry i (S j) (GotErr e)) s) [EFail k t]
| gs_ok k r i j t : nth_error (sh_calls s) k = Some (GAsked i j t) -> gstep s (GStep k (inl r)) (upd k (GCopy i j t r) s) [EOk k t]
| gs_copy k o i j t r b : nth_error (sh_calls s) k = Some (GCopy i j t r) -> nth_error (sh_tiers s) i = Some b -> gstep s (GStep k o) (upd k (GFront i t r) (put i (copy_down j b) s)) []
| gs_front k o i t r b : nth_error (sh_calls s) k = Some (GFront i t r) -> nth_error (sh_tiers s) i = Some b -> gstep s (GStep k o) (upd k (GReturned (GotRes r)) (put i (set_first t b) s)) [ERet k (GotRes r)].
Lemma gexec_step s a s' e : gexec s a = Some (s', e) -> gstep s a s' e.
Proof.
  destruct a as [|k o]; cbn; [intros [= <- <-]; constructor|]. destruct (nth_error (sh_calls s) k) as [[i j last|i j t|i j t r|i t r|g]|] eqn:K; try discriminate; cbn [call_step].
  - destruct (nth_error (sh_tiers s) i) as [b|] eqn:B; [destruct (nth_error b j) as [t|] eqn:J|]; intros [= <- <-]; econstructor; eassumption.
  - destruct o; intros [= <- <-]; econstructor; eassumption.
  - destruct (nth_error (sh_tiers s) i) as [b|] eqn:B; [|discriminate]. intros [= <- <-]. eapply gs_copy; eassumption.
  - destruct (nth_error (sh_tiers s) i) as [b|] eqn:B; [|discriminate]. intros [= <- <-]. eapply gs_front; eassumption.
Qed.

(** * Tiers keep their length and contain only their own trackers *)
Definition busy_ok (T0 : list (list T)) (p : gpc T R E) : Prop :=
  match p with
  | GAsked i j t | GCopy i j t _ => exists a, nth_error T0 i = Some a /\ (j < List.length a)%nat /\ In t a
  | GFront i t _ => exists a, nth_error T0 i = Some a /\ In t a
  | _ => True
  end.
Definition shape_ok (T0 : list (list T)) (s : share) : Prop :=
  List.length (sh_tiers s) = List.length T0 /\
  (forall i a b, nth_error T0 i = Some a -> nth_error (sh_tiers s) i = Some b -> List.length b = List.length a /\ incl b a) /\
  (forall p, In p (sh_calls s) -> busy_ok T0 p).
Lemma in_set {A} n (x y : A) l : In y (list_set n x l) -> y = x \/ In y l.
Proof. revert n. induction l as [|z l IH]; intros [|n]; cbn; try tauto; intros [->|I]; auto. destruct (IH _ I); auto. Qed.
Lemma nth_set_cases {A} n m (x : A) l y : nth_error (list_set n x l) m = Some y -> (n = m /\ y = x /\ (n < List.length l)%nat) \/ nth_error l m = Some y.
Proof.
  destruct (Nat.eq_dec n m) as [->|N]; [|rewrite list_set_nth_neq by exact N; auto].
  destruct (Nat.lt_ge_cases m (List.length l)) as [L|L]; [rewrite list_set_nth_eq by exact L; intros [= <-]; auto|].
  intros H. exfalso. assert (nth_error (list_set m x l) m = None) by (apply nth_error_None; rewrite list_set_length; lia). congruence.
Qed.
Lemma copy_down_shape j (b : list T) : (j < List.length b)%nat -> List.length (copy_down j b) = List.length b /\ incl (copy_down j b) b.
Proof.
  intros L. unfold copy_down. split.
  - rewrite !app_length, !firstn_length, skipn_length. lia.
  - intros x I. apply in_app_or in I as [I|I]; [|apply in_app_or in I as [I|I]].
    + rewrite <- (firstn_skipn 1 b). apply in_or_app. now left.
    + rewrite <- (firstn_skipn j b). apply in_or_app. now left.
    + rewrite <- (firstn_skipn (S j) b). apply in_or_app. now right.
Qed.
Lemma set_first_shape (t : T) (b a : list T) : In t a -> incl b a -> List.length (set_first t b) = List.length b /\ incl (set_first t b) a.
Proof. intros I S. destruct b as [|y b]; cbn; [split; [reflexivity|intros ? []]|]. split; [reflexivity|]. intros x [<-|X]; [exact I|]. apply S. now right. Qed.
Lemma nth_some {A} (l : list A) i m (l' : list A) b : nth_error l' i = Some b -> List.length l' = List.length l -> m = i -> exists a, nth_error l m = Some a.
Proof.
  intros H L ->. destruct (nth_error l i) eqn:Q; [eauto|]. apply nth_error_None in Q. assert (nth_error l' i <> None) as X by congruence. apply nth_error_Some in X. lia.
Qed.
Lemma shape_step T0 s a s' e : shape_ok T0 s -> gexec s a = Some (s', e) -> shape_ok T0 s'.
Proof.
  intros (L & B & C) H. apply gexec_step in H. destruct H as [|k o i j last K Q|k o i j last b K Q J|k o i j last b t K Q J|k x i j t K|k r i j t K|k o i j t r b K Q|k o i t r b K Q]; cbn [upd put sh_tiers sh_calls];
    try (split; [exact L|split; [exact B|]]; intros p I; (apply in_app_or in I as [I|[<-|[]]]; [apply C; exact I|exact Logic.I]) || (apply in_set in I as [->|I]; [|apply C; exact I]); try exact Logic.I).
  - destruct (nth_some T0 _ _ _ _ Q L eq_refl) as (a0 & A0). destruct (B _ _ _ A0 Q) as [L1 I1]. exists a0. split; [exact A0|]. split; [rewrite <- L1; apply nth_error_Some; congruence|apply I1; eapply nth_error_In; exact J].
  - exact (C _ (nth_error_In _ _ K)).
  - destruct (C _ (nth_error_In _ _ K)) as (a0 & A0 & J & I0). split; [cbn [upd put sh_tiers sh_calls]; now rewrite list_set_length|]. cbn [upd put sh_tiers sh_calls]. split.
    + intros m a b' A Q'. apply nth_set_cases in Q' as [(<- & -> & _)|Q']; [|eauto]. assert (a0 = a) as -> by congruence.
      destruct (B _ _ _ A Q) as [L1 I1]. destruct (copy_down_shape j b) as [L2 I2]; [lia|]. split; [congruence|]. eapply incl_tran; eassumption.
    + intros p I. apply in_set in I as [->|I]; [|auto]. cbn. eauto.
  - destruct (C _ (nth_error_In _ _ K)) as (a0 & A0 & I0). split; [cbn [upd put sh_tiers sh_calls]; now rewrite list_set_length|]. cbn [upd put sh_tiers sh_calls]. split.
    + intros m a b' A Q'. apply nth_set_cases in Q' as [(<- & -> & _)|Q']; [|eauto]. assert (a0 = a) as -> by congruence.
      destruct (B _ _ _ A Q) as [L1 I1]. destruct (set_first_shape t b a I0 I1) as [L2 I2]. split; [congruence|exact I2].
    + intros p I. apply in_set in I as [->|I]; [exact Logic.I|auto].
Qed.
Lemma shape_run T0 l s ev : gruns (new_share T0) l = Some (s, ev) -> shape_ok T0 s.
Proof.
  apply (gruns_ind (fun s _ => shape_ok T0 s)); [|intros; eapply shape_step; eassumption].
  split; [reflexivity|]. split; [cbn; intros i a b A B; assert (a = b) as -> by congruence; split; [reflexivity|apply incl_refl]|intros p []].
Qed.
Lemma forall2_nth {A B} (P : A -> B -> Prop) l l' : List.length l' = List.length l -> (forall i a b, nth_error l i = Some a -> nth_error l' i = Some b -> P a b) -> Forall2 P l l'.
Proof.
  revert l'. induction l as [|x l IH]; intros [|y l'] L H; try discriminate L; [constructor|]. constructor; [exact (H 0%nat _ _ eq_refl eq_refl)|].
  apply IH; [now injection L|]. intros i a b A0 B0. exact (H (S i) _ _ A0 B0).
Qed.
Theorem tiers_keep T0 l s ev : gruns (new_share T0) l = Some (s, ev) -> Forall2 (fun a b => List.length b = List.length a /\ incl b a) T0 (sh_tiers s).
Proof. intros H. destruct (shape_run _ _ _ _ H) as (L & B & _). apply forall2_nth; assumption. Qed.
(** A call that has not returned can go on. *)
Theorem never_stuck T0 l s ev k p : gruns (new_share T0) l = Some (s, ev) -> nth_error (sh_calls s) k = Some p -> (forall g, p <> GReturned g) ->
  forall o, exists s' e, gexec s (GStep k o) = Some (s', e).
Proof.
  intros H K N o. destruct (shape_run _ _ _ _ H) as (L & B & C). pose proof (C _ (nth_error_In _ _ K)) as BK. unfold TrackerShare.gexec. rewrite K. unfold call_step.
  destruct p as [i j last|i j t|i j t r|i t r|g]; cbn in BK.
  - destruct (nth_error (sh_tiers s) i) as [tier|]; [destruct (nth_error tier j)|]; eauto.
  - destruct o; eauto.
  - destruct BK as (a & A & _). destruct (nth_some (sh_tiers s) _ i _ _ A (eq_sym L) eq_refl) as (b & ->). eauto.
  - destruct BK as (a & A & _). destruct (nth_some (sh_tiers s) _ i _ _ A (eq_sym L) eq_refl) as (b & ->). eauto.
  - exfalso. now apply (N g).
Qed.

(** * A lost tracker *)
Lemma gone_step t s a s' e : gone s t -> gexec s a = Some (s', e) -> gone s' t /\ forall k, ~ In (EAsk k t) e.
Proof.
  intros [A B] H. apply gexec_step in H. destruct H as [|k o i j last K Q|k o i j last b K Q J|k o i j last b x K Q J|k x i j x' K|k r i j x K|k o i j x r b K Q|k o i x r b K Q]; unfold gone; cbn [upd put sh_tiers sh_calls].
  all: try pose proof (B _ (nth_error_In _ _ K)) as BK; cbn in BK || idtac.
  all: split; [split; [try exact A|intros p I; first [apply in_set in I as [->|I]|apply in_app_or in I as [I|[<-|[]]]]; [..|first [exact (B _ I)|exact Logic.I]]; try exact (B _ I); try exact Logic.I; try exact BK]|].
  all: try (intros kk [X|[]]; discriminate X). all: try (intros kk X; now destruct X).
  - intros ->. apply (A _ (nth_error_In _ _ Q)). eapply nth_error_In; exact J.
  - intros kz [X|[]]. injection X as _ ->. apply (A _ (nth_error_In _ _ Q)). eapply nth_error_In; exact J.
  - intros tier I. apply in_set in I as [->|I]; [|auto]. unfold copy_down. intros X. apply (A _ (nth_error_In _ _ Q)).
    apply in_app_or in X as [X|X]; [rewrite <- (firstn_skipn 1 b); apply in_or_app; now left|]. apply in_app_or in X as [X|X]; [rewrite <- (firstn_skipn j b)|rewrite <- (firstn_skipn (S j) b)]; apply in_or_app; auto.
  - intros tier I. apply in_set in I as [->|I]; [|auto]. intros X. destruct b as [|y b]; [exact X|]. destruct X as [X|X]; [exact (BK X)|]. apply (A _ (nth_error_In _ _ Q)). now right.
Qed.
Theorem gone_forever t s l s' ev : gone s t -> gruns s l = Some (s', ev) -> gone s' t /\ forall k, ~ In (EAsk k t) ev.
Proof.
  intros G. apply (gruns_ind (fun s ev => gone s t /\ forall k, ~ In (EAsk k t) ev)); [split; [exact G|intros k []]|].
  intros s1 e1 a s2 e2 [G1 N1] H. destruct (gone_step _ _ _ _ _ G1 H) as [G2 N2]. split; [exact G2|]. intros k I. apply in_app_or in I as [I|I]; [exact (N1 _ I)|exact (N2 _ I)].
Qed.

(** * As long as the first tracker answers *)
Definition front_ok (t : T) (p : gpc T R E) : Prop :=
  match p with
  | GTry i j last => i = 0%nat /\ j = 0%nat
  | GAsked i j x | GCopy i j x _ => i = 0%nat /\ j = 0%nat /\ x = t
  | GFront i x _ => i = 0%nat /\ x = t
  | GReturned g => exists r, g = GotRes r
  end.
Definition first_inv t ts rest (s : share) (ev : list (gevent T R E)) : Prop := (forall k, ~ In (EFail k t) ev) ->
  sh_tiers s = (t :: ts) :: rest /\ (forall p, In p (sh_calls s) -> front_ok t p) /\ (forall k x, In (EAsk k x) ev -> x = t) /\ (forall k g, In (ERet k g) ev -> exists r, g = GotRes r).
Lemma first_step t ts rest s ev a s' e : first_inv t ts rest s ev -> gexec s a = Some (s', e) -> first_inv t ts rest s' (ev ++ e).
Proof.
  intros V H NF. destruct (V ltac:(intros k I; apply (NF k), in_or_app; now left)) as (A & B & C & D). clear V.
  assert (forall k, ~ In (EFail k t) e) as NE by (intros k I; apply (NF k), in_or_app; now right). clear NF.
  apply gexec_step in H. destruct H as [|k o i j last K Q|k o i j last b K Q J|k o i j last b x K Q J|k x i j x' K|k r i j x K|k o i j x r b K Q|k o i x r b K Q]; cbn [upd put sh_tiers sh_calls].
  all: try pose proof (B _ (nth_error_In _ _ K)) as BK; cbn [front_ok] in BK || idtac.
  all: repeat match goal with X : _ /\ _ |- _ => destruct X end; subst; rewrite A in *; cbn [nth_error] in *; try discriminate.
  all: try match goal with X : Some _ = Some _ |- _ => injection X as <- end; cbn [nth_error] in *; try discriminate.
  all: try match goal with X : Some _ = Some _ |- _ => injection X as <- end.
  all: try (exfalso; eapply NE; left; reflexivity).
  all: split; [try exact A; try reflexivity|split; [intros p I; first [apply in_set in I as [->|I]|apply in_app_or in I as [I|[<-|[]]]]; try exact (B _ I); cbn; eauto|]].
  all: split; intros kk y I; apply in_app_or in I as [I|I]; eauto; cbn in I; repeat (destruct I as [I|I]; try discriminate I; try contradiction).
  all: try (injection I as _ <-; eauto).
  all: try contradiction.
Qed.
Theorem first_answers t ts rest l s ev : gruns (new_share ((t :: ts) :: rest)) l = Some (s, ev) -> (forall k, ~ In (EFail k t) ev) ->
  sh_tiers s = (t :: ts) :: rest /\ (forall k x, In (EAsk k x) ev -> x = t) /\ (forall k g, In (ERet k g) ev -> exists r, g = GotRes r).
Proof.
  intros H N. enough (first_inv t ts rest s ev) as V by (destruct (V N) as (A & _ & C & D); auto). revert H.
  apply (gruns_ind (first_inv t ts rest)); [|intros; eapply first_step; eassumption].
  intros _. split; [reflexivity|]. repeat split; intros; contradiction.
Qed.

(** * How often a call asks *)
Fixpoint lens (l : list (list T)) : nat := match l with [] => O | a :: l' => (List.length a + lens l')%nat end.
Lemma lens_concat l : lens l = List.length (concat l).
Proof. induction l as [|a l IH]; [reflexivity|]. cbn. now rewrite app_length, IH. Qed.
Lemma lens_firstn (l : list (list T)) i b : nth_error l i = Some b -> lens (firstn (S i) l) = (lens (firstn i l) + List.length b)%nat.
Proof.
  revert i. induction l as [|a l IH]; intros [|i]; try discriminate; [intros [= ->]; cbn; lia|]. intros H. cbn in H. specialize (IH _ H). rewrite !firstn_cons. cbn [lens]. rewrite IH. lia.
Qed.
Lemma lens_le (l : list (list T)) i : (lens (firstn i l) <= lens l)%nat.
Proof. revert i. induction l as [|a l IH]; intros [|i]; cbn; try lia. specialize (IH i). lia. Qed.
Definition pos (T0 : list (list T)) (p : gpc T R E) (n : nat) : Prop :=
  match p with
  | GTry i j _ => (n <= lens (firstn i T0) + j)%nat /\ (forall a, nth_error T0 i = Some a -> (j <= List.length a)%nat) /\ (nth_error T0 i = None -> j = O)
  | GAsked i j _ => (n <= lens (firstn i T0) + S j)%nat /\ exists a, nth_error T0 i = Some a /\ (j < List.length a)%nat
  | _ => (n <= lens T0)%nat
  end.
Definition pos_ok (T0 : list (list T)) (s : share) (ev : list (gevent T R E)) : Prop :=
  (forall k p, nth_error (sh_calls s) k = Some p -> pos T0 p (List.length (asks k ev))) /\ (forall k, (List.length (sh_calls s) <= k)%nat -> asks k ev = []).
Lemma asks_app k (ev e : list (gevent T R E)) : asks k (ev ++ e) = asks k ev ++ asks k e.
Proof. unfold asks. apply flat_map_app. Qed.
Lemma pos_le T0 p n : pos T0 p n -> (n <= lens T0)%nat.
Proof.
  destruct p as [i j last|i j t|i j t r|i t r|g]; cbn; auto.
  - intros (A & B & C). destruct (nth_error T0 i) as [a|] eqn:Q.
    + specialize (B _ eq_refl). pose proof (lens_firstn _ _ _ Q). pose proof (lens_le T0 (S i)). lia.
    + rewrite (C eq_refl) in A. pose proof (lens_le T0 i). lia.
  - intros (A & a & Q & L). pose proof (lens_firstn _ _ _ Q). pose proof (lens_le T0 (S i)). lia.
Qed.
Lemma pos_upd T0 s ev k p p' e : pos_ok T0 s ev -> nth_error (sh_calls s) k = Some p -> (forall m, m <> k -> asks m e = []) ->
  (pos T0 p (List.length (asks k ev)) -> pos T0 p' (List.length (asks k ev) + List.length (asks k e))) -> forall tiers, pos_ok T0 {| sh_tiers := tiers; sh_calls := list_set k p' (sh_calls s) |} (ev ++ e).
Proof.
  intros [A B] K O P tiers. assert (k < List.length (sh_calls s))%nat as LK by (apply nth_error_Some; congruence). split; cbn [sh_calls].
  - intros m q M. rewrite asks_app, app_length. destruct (Nat.eq_dec k m) as [<-|N].
    + rewrite list_set_nth_eq in M by exact LK. injection M as <-. auto.
    + rewrite list_set_nth_neq in M by exact N. rewrite (O m) by congruence. cbn. rewrite Nat.add_0_r. auto.
  - intros m L. rewrite list_set_length in L. rewrite asks_app, (B _ L), (O m) by lia. reflexivity.
Qed.
Lemma pos_step T0 s ev a s' e : shape_ok T0 s -> pos_ok T0 s ev -> gexec s a = Some (s', e) -> pos_ok T0 s' (ev ++ e).
Proof.
  intros (L & SH & C) P H. apply gexec_step in H. destruct H as [|k o i j last K Q|k o i j last b K Q J|k o i j last b x K Q J|k x i j x' K|k r i j x K|k o i j x r b K Q|k o i x r b K Q]; unfold upd, put; cbn [sh_tiers sh_calls].
  { rewrite app_nil_r. destruct P as [A B]. split; cbn [sh_calls].
    - intros k p K. destruct (Nat.lt_ge_cases k (List.length (sh_calls s))) as [LK|LK]; [rewrite nth_error_app1 in K by exact LK; auto|].
      rewrite nth_error_app2 in K by exact LK. rewrite (B _ LK). destruct (k - List.length (sh_calls s))%nat as [|m]; [|destruct m; discriminate]. injection K as <-. cbn. repeat split; intros; lia.
    - intros k LK. rewrite app_length in LK. apply B. cbn in LK. lia. }
  all: eapply pos_upd; [exact P|exact K| |].
  all: try (intros m N; cbn; rewrite ?(proj2 (Nat.eqb_neq m k)) by exact N; reflexivity).
  all: intros PK; cbn [asks flat_map app List.length]; rewrite ?Nat.eqb_refl, ?Nat.add_0_r; cbn [app List.length].
  - exact (pos_le _ _ _ PK).
  - destruct (nth_some T0 _ _ _ _ Q L eq_refl) as (a0 & A0). destruct (SH _ _ _ A0 Q) as [L1 _]. destruct PK as (N & J1 & _). specialize (J1 _ A0). apply nth_error_None in J. cbn [pos].
    rewrite (lens_firstn _ _ _ A0). repeat split; intros; lia.
  - destruct (nth_some T0 _ _ _ _ Q L eq_refl) as (a0 & A0). destruct (SH _ _ _ A0 Q) as [L1 _]. destruct PK as (N & _). assert (j < List.length b)%nat by (apply nth_error_Some; congruence).
    split; [lia|]. exists a0. split; [exact A0|lia].
  - destruct PK as (N & a0 & A0 & J0). split; [lia|]. split; [intros a A; assert (a = a0) as -> by congruence; lia|]. intros; congruence.
  - exact (pos_le _ _ _ PK).
  - exact PK.
  - exact PK.
Qed.
Theorem asks_bounded T0 l s ev k : gruns (new_share T0) l = Some (s, ev) -> (List.length (asks k ev) <= List.length (concat T0))%nat.
Proof.
  intros H. assert (shape_ok T0 s /\ pos_ok T0 s ev) as [_ [A B]].
  { revert H. apply (gruns_ind (fun s ev => shape_ok T0 s /\ pos_ok T0 s ev)).
    - split; [eapply (shape_run T0 []); reflexivity|]. split; [intros [|k0] p X; discriminate X|reflexivity].
    - intros s1 e1 a s2 e2 [V1 V2] X. split; [eapply shape_step; eassumption|eapply pos_step; eassumption]. }
  rewrite <- lens_concat. destruct (nth_error (sh_calls s) k) as [p|] eqn:K; [exact (pos_le _ _ _ (A _ _ K))|]. apply nth_error_None in K. rewrite (B _ K). cbn. lia.
Qed.

(** * A call during which no other call takes a step *)
Lemma tier_loop_ext (a a' : nat -> T -> R + E) tier todo : forall n j last asked, (forall m t, (n <= m)%nat -> a m t = a' m t) ->
  tier_loop a n tier j todo last asked = tier_loop a' n tier j todo last asked.
Proof.
  induction todo as [|t todo IH]; intros n j last asked X; [reflexivity|]. cbn [tier_loop]. rewrite (X n t) by lia. destruct (a' n t); [reflexivity|]. apply IH. intros m u L. apply X. lia.
Qed.
Lemma tier_loop_grows (a : nat -> T -> R + E) tier todo : forall n j last asked, (List.length asked <= List.length (fst (fst (tier_loop a n tier j todo last asked))))%nat.
Proof.
  induction todo as [|t todo IH]; intros n j last asked; [cbn; lia|]. cbn [tier_loop]. destruct (a n t); [cbn; rewrite app_length; lia|]. eapply Nat.le_trans; [|apply IH]. rewrite app_length. lia.
Qed.
Lemma tiers_loop_ext (a a' : nat -> T -> R + E) tiers : forall last asked, (forall m t, (List.length asked <= m)%nat -> a m t = a' m t) ->
  tiers_loop a tiers last asked = tiers_loop a' tiers last asked.
Proof.
  induction tiers as [|tier tiers IH]; intros last asked X; [reflexivity|]. cbn [tiers_loop]. rewrite (tier_loop_ext a a') by exact X.
  pose proof (tier_loop_grows a' tier tier (List.length asked) 0 last asked) as G. destruct (tier_loop a' (List.length asked) tier 0 tier last asked) as [[a1 g1] [t1|]]; [reflexivity|].
  cbn in G. rewrite (IH g1 a1); [reflexivity|]. intros m t L. apply X. lia.
Qed.
Definition loop_from (a : nat -> T -> R + E) (tiers : list (list T)) (i j : nat) (last : got R E) (asked : list T) : list T * got R E * list (list T) :=
  match nth_error tiers i with
  | None => (asked, last, tiers)
  | Some tier => match tier_loop a (List.length asked) tier j (skipn j tier) last asked with
                 | (a1, g, Some tier') => (a1, g, list_set i tier' tiers)
                 | (a1, g, None) => match tiers_loop a (skipn (S i) tiers) g a1 with (a2, g', ts) => (a2, g', firstn (S i) tiers ++ ts) end
                 end
  end.
Lemma loop_from_ext a a' tiers i j last asked : (forall m t, (List.length asked <= m)%nat -> a m t = a' m t) -> loop_from a tiers i j last asked = loop_from a' tiers i j last asked.
Proof.
  intros X. unfold loop_from. destruct (nth_error tiers i) as [tier|]; [|reflexivity]. rewrite (tier_loop_ext a a') by exact X.
  pose proof (tier_loop_grows a' tier (skipn j tier) (List.length asked) j last asked) as G. destruct (tier_loop a' (List.length asked) tier j (skipn j tier) last asked) as [[a1 g1] [t1|]]; [reflexivity|].
  cbn in G. rewrite (tiers_loop_ext a a'); [reflexivity|]. intros m t L. apply X. lia.
Qed.
Lemma skipn_none {A} (l : list A) j : nth_error l j = None -> skipn j l = [].
Proof. intros H. apply nth_error_None in H. now apply skipn_all2. Qed.
Lemma skipn_some {A} (l : list A) j x : nth_error l j = Some x -> skipn j l = x :: skipn (S j) l.
Proof. revert j. induction l as [|y l IH]; intros [|j]; try discriminate; [now intros [= ->]|]. intros H. cbn in H. rewrite !skipn_cons. now apply IH. Qed.
Lemma firstn_some {A} (l : list A) j x : nth_error l j = Some x -> firstn (S j) l = firstn j l ++ [x].
Proof. revert j. induction l as [|y l IH]; intros [|j]; try discriminate; [now intros [= ->]|]. intros H. cbn in H. rewrite !firstn_cons, (IH _ H). reflexivity. Qed.
Lemma set_split {A} (l : list A) i x y : nth_error l i = Some x -> list_set i y l = firstn i l ++ y :: skipn (S i) l.
Proof. revert i. induction l as [|z l IH]; intros [|i]; try discriminate; [reflexivity|]. intros H. cbn in H. cbn [list_set]. rewrite firstn_cons, skipn_cons, (IH _ H). reflexivity. Qed.
Lemma loop_next a tiers i j last asked b : nth_error tiers i = Some b -> nth_error b j = None -> loop_from a tiers i j last asked = loop_from a tiers (S i) 0 last asked.
Proof.
  intros Q J. unfold loop_from. rewrite Q, (skipn_none _ _ J). cbn [tier_loop]. destruct (nth_error tiers (S i)) as [b'|] eqn:Q'.
  - rewrite (skipn_some _ _ _ Q'). cbn [tiers_loop]. change (skipn 0 b') with b'. destruct (tier_loop a (List.length asked) b' 0 b' last asked) as [[a1 g1] [t1|]].
    + now rewrite (set_split _ _ _ _ Q').
    + destruct (tiers_loop a (skipn (S (S i)) tiers) g1 a1) as [[a2 g2] ts]. rewrite (firstn_some _ _ _ Q'), <- app_assoc. reflexivity.
  - rewrite (skipn_none _ _ Q'). cbn [tiers_loop]. apply nth_error_None in Q'. rewrite firstn_all2 by exact Q'. now rewrite app_nil_r.
Qed.
Lemma loop_fail a tiers i j last asked b t e : nth_error tiers i = Some b -> nth_error b j = Some t -> a (List.length asked) t = inr e ->
  loop_from a tiers i j last asked = loop_from a tiers i (S j) (GotErr e) (asked ++ [t]).
Proof.
  intros Q J X. unfold loop_from. rewrite Q, (skipn_some _ _ _ J). cbn [tier_loop]. rewrite X, app_length, Nat.add_1_r. reflexivity.
Qed.
Lemma loop_ok a tiers i j last asked b t r : nth_error tiers i = Some b -> nth_error b j = Some t -> a (List.length asked) t = inl r ->
  loop_from a tiers i j last asked = (asked ++ [t], GotRes r, list_set i (set_first t (copy_down j b)) tiers).
Proof. intros Q J X. unfold loop_from. rewrite Q, (skipn_some _ _ _ J). cbn [tier_loop]. now rewrite X. Qed.
Lemma list_set_twice {A} i (x y : A) l : list_set i y (list_set i x l) = list_set i y l.
Proof. revert i. induction l as [|z l IH]; intros [|i]; cbn; try reflexivity. now rewrite IH. Qed.

Lemma only_inv k (a : gaction R E) l : only k (a :: l) -> (exists o, a = GStep k o) /\ only k l.
Proof. intros O. split; [apply O; now left|]. intros b I. apply O. now right. Qed.
Lemma returned_done tiers calls k g l s ev : nth_error calls k = Some (GReturned g) -> only k l ->
  gruns {| sh_tiers := tiers; sh_calls := calls |} l = Some (s, ev) -> s = {| sh_tiers := tiers; sh_calls := calls |} /\ ev = [].
Proof.
  intros K O H. destruct l as [|a l]; [injection H as <- <-; auto|]. destruct (only_inv _ _ _ O) as [[o ->] _]. cbn in H. rewrite K in H. discriminate H.
Qed.
Lemma gruns_cons s a l : gruns s (a :: l) = match gexec s a with Some (s1, e1) => match gruns s1 l with Some (s2, e2) => Some (s2, e1 ++ e2) | None => None end | None => None end.
Proof. reflexivity. Qed.
Lemma alone_from n : forall l tiers calls k i j last s ev g asked, (List.length l <= n)%nat -> nth_error calls k = Some (GTry i j last) -> only k l ->
  gruns {| sh_tiers := tiers; sh_calls := calls |} l = Some (s, ev) -> nth_error (sh_calls s) k = Some (GReturned g) ->
  exists f : nat -> R + E, loop_from (fun m _ => f m) tiers i j last asked = (asked ++ asks k ev, g, sh_tiers s).
Proof.
  induction n as [|n IH]; intros l tiers calls k i j last s ev g asked L K O H G.
  { destruct l; [|cbn in L; lia]. injection H as <- <-. cbn in G. congruence. }
  assert (LK : (k < List.length calls)%nat) by (apply nth_error_Some; congruence).
  destruct l as [|x l]; [injection H as <- <-; cbn in G; congruence|]. destruct (only_inv _ _ _ O) as [[o ->] O1]. rewrite gruns_cons in H.
  unfold TrackerShare.gexec at 1 in H. cbn [sh_calls sh_tiers] in H. rewrite K in H. cbn [call_step] in H.
  destruct (nth_error tiers i) as [b|] eqn:Q; [destruct (nth_error b j) as [t|] eqn:J|].
  - destruct (gruns _ l) as [[s2 e2]|] eqn:H1 in H; [|discriminate]. injection H as <- <-.
    destruct l as [|x l]; [injection H1 as <- <-; cbn in G; rewrite list_set_nth_eq in G by exact LK; discriminate|]. destruct (only_inv _ _ _ O1) as [[o1 ->] O2].
    rewrite gruns_cons in H1. unfold TrackerShare.gexec at 1 in H1. cbn [sh_calls sh_tiers] in H1. rewrite list_set_nth_eq in H1 by exact LK. cbn [call_step] in H1.
    destruct o1 as [r|e]; rewrite list_set_twice in H1.
    + destruct (gruns _ l) as [[s3 e3]|] eqn:H2 in H1; [|discriminate]. injection H1 as <- <-.
      destruct l as [|x l]; [injection H2 as <- <-; cbn in G; rewrite list_set_nth_eq in G by exact LK; discriminate|]. destruct (only_inv _ _ _ O2) as [[o2 ->] O3].
      rewrite gruns_cons in H2. unfold TrackerShare.gexec at 1 in H2. cbn [sh_calls sh_tiers] in H2. rewrite list_set_nth_eq in H2 by exact LK. cbn [call_step] in H2. rewrite Q, list_set_twice in H2.
      destruct (gruns _ l) as [[s4 e4]|] eqn:H3 in H2; [|discriminate]. injection H2 as <- <-.
      destruct l as [|x l]; [injection H3 as <- <-; cbn in G; rewrite list_set_nth_eq in G by exact LK; discriminate|]. destruct (only_inv _ _ _ O3) as [[o3 ->] O4].
      assert (LI : (i < List.length tiers)%nat) by (apply nth_error_Some; congruence).
      rewrite gruns_cons in H3. unfold TrackerShare.gexec at 1 in H3. cbn [sh_calls sh_tiers] in H3. rewrite list_set_nth_eq in H3 by exact LK. cbn [call_step] in H3. rewrite (list_set_nth_eq i _ tiers) in H3 by exact LI. rewrite !list_set_twice in H3.
      destruct (gruns _ l) as [[s5 e5]|] eqn:H4 in H3; [|discriminate]. injection H3 as <- <-.
      destruct (returned_done _ _ _ (GotRes r) _ _ _ ltac:(apply list_set_nth_eq; exact LK) O4 H4) as [-> ->]. cbn [sh_calls sh_tiers] in *. rewrite list_set_nth_eq in G by exact LK. injection G as <-.
      exists (fun _ => inl r). rewrite (loop_ok _ _ _ _ _ _ b t r Q J eq_refl). cbn. now rewrite Nat.eqb_refl.
    + destruct (gruns _ l) as [[s3 e3]|] eqn:H2 in H1; [|discriminate]. injection H1 as <- <-.
      destruct (IH l _ _ k i (S j) (GotErr e) _ _ g (asked ++ [t]) ltac:(cbn in L; lia) ltac:(apply list_set_nth_eq; exact LK) O2 H2 G) as [f F].
      exists (fun m => if Nat.eqb m (List.length asked) then inr e else f m). rewrite (loop_fail _ _ _ _ _ _ b t e Q J) by now rewrite Nat.eqb_refl.
      rewrite (loop_from_ext _ (fun m _ => f m)).
      * rewrite F. cbn. rewrite Nat.eqb_refl. cbn. now rewrite <- app_assoc.
      * intros m _ LM. rewrite app_length in LM. cbn in LM. rewrite (proj2 (Nat.eqb_neq m (List.length asked))) by lia. reflexivity.
  - destruct (gruns _ l) as [[s2 e2]|] eqn:H1 in H; [|discriminate]. injection H as <- <-.
    destruct (IH l _ _ k (S i) 0%nat last _ _ g asked ltac:(cbn in L; lia) ltac:(apply list_set_nth_eq; exact LK) O1 H1 G) as [f F].
    exists f. now rewrite (loop_next _ _ _ _ _ _ b Q J).
  - destruct (gruns _ l) as [[s2 e2]|] eqn:H1 in H; [|discriminate]. injection H as <- <-.
    destruct (returned_done _ _ _ last _ _ _ ltac:(apply list_set_nth_eq; exact LK) O1 H1) as [-> ->]. cbn [sh_calls sh_tiers] in *. rewrite list_set_nth_eq in G by exact LK. injection G as <-.
    exists (fun _ => o). unfold loop_from. rewrite Q. cbn. now rewrite app_nil_r.
Qed.
Lemma loop_from_get (a : nat -> T -> R + E) tiers : loop_from a tiers 0 0 GotNothing [] = mt_get a tiers.
Proof.
  unfold loop_from, mt_get. destruct tiers as [|b tiers]; [reflexivity|]. cbn [nth_error]. rewrite !skipn_cons. change (skipn 0 b) with b. change (skipn 0 tiers) with tiers. cbn [tiers_loop].
  change (firstn 1 (b :: tiers)) with [b]. destruct (tier_loop a (List.length (@nil T)) b 0 b GotNothing []) as [[a1 g1] [t1|]]; [reflexivity|]. now destruct (tiers_loop a tiers g1 a1) as [[a2 g2] ts].
Qed.
Theorem alone (s0 : share) l s ev g : gruns s0 (GCall :: l) = Some (s, ev) -> only (List.length (sh_calls s0)) l -> nth_error (sh_calls s) (List.length (sh_calls s0)) = Some (GReturned g) ->
  exists ask : nat -> T -> R + E, mt_get ask (sh_tiers s0) = (asks (List.length (sh_calls s0)) ev, g, sh_tiers s).
Proof.
  intros H O G. rewrite gruns_cons in H. cbn [TrackerShare.gexec] in H. destruct (gruns _ l) as [[s2 e2]|] eqn:H1 in H; [|discriminate]. injection H as <- <-. cbn [app].
  assert (nth_error (sh_calls s0 ++ [GTry 0 0 GotNothing]) (List.length (sh_calls s0)) = Some (GTry 0 0 GotNothing)) as K by (rewrite nth_error_app2 by apply le_n; now rewrite Nat.sub_diag).
  destruct (alone_from (List.length l) l _ _ (List.length (sh_calls s0)) 0 0 GotNothing _ _ g [] (le_n _) K O H1 G) as [f F].
  exists (fun m _ => f m). rewrite <- loop_from_get. exact F.
Qed.
Theorem alone_outcome (s0 : share) l s ev g : gruns s0 (GCall :: l) = Some (s, ev) -> only (List.length (sh_calls s0)) l -> nth_error (sh_calls s) (List.length (sh_calls s0)) = Some (GReturned g) ->
  (exists before x r, promoted (sh_tiers s0) before x (sh_tiers s) /\ asks (List.length (sh_calls s0)) ev = before ++ [x] /\ g = GotRes r) \/
  (asks (List.length (sh_calls s0)) ev = concat (sh_tiers s0) /\ sh_tiers s = sh_tiers s0 /\ match concat (sh_tiers s0) with [] => g = GotNothing | _ => exists e, g = GotErr e end).
Proof.
  intros H O G. destruct (alone _ _ _ _ _ H O G) as [ask A]. destruct (get_spec ask _ _ _ _ A) as [(b & x & r & P & Q & _ & _ & V)|(P & _ & Q & V)]; [left; eauto 7|right].
  split; [exact P|]. split; [exact Q|]. rewrite P in V. destruct (concat (sh_tiers s0)) as [|t l0]; [exact V|]. destruct (rev (t :: l0)) as [|u m] eqn:RV; [apply (f_equal (@rev T)) in RV; rewrite rev_involutive in RV; discriminate RV|].
  destruct V as (e & _ & V). eauto.
Qed.

(** * What a call returns *)
Definition out_ok (k : nat) (p : gpc T R E) (ev : list (gevent T R E)) : Prop :=
  let none_ok := forall t, ~ In (EOk k t) ev in
  match p with
  | GTry _ _ GotNothing => none_ok /\ asks k ev = []
  | GTry _ _ (GotErr _) => none_ok /\ asks k ev <> []
  | GTry _ _ (GotRes _) => False
  | GAsked _ _ t => none_ok /\ asks k ev <> []
  | GCopy _ _ t _ | GFront _ t _ => In (EOk k t) ev
  | GReturned GotNothing => none_ok /\ asks k ev = []
  | GReturned (GotErr _) => none_ok /\ asks k ev <> []
  | GReturned (GotRes _) => exists t, In (EOk k t) ev
  end.
Definition outs_ok (s : share) (ev : list (gevent T R E)) : Prop :=
  (forall k p, nth_error (sh_calls s) k = Some p -> out_ok k p ev) /\ (forall k, (List.length (sh_calls s) <= k)%nat -> asks k ev = [] /\ forall t, ~ In (EOk k t) ev).
Lemma out_other k p ev (e : list (gevent T R E)) : asks k e = [] -> (forall t, ~ In (EOk k t) e) -> out_ok k p ev -> out_ok k p (ev ++ e).
Proof.
  intros A N. assert (X : (forall t, ~ In (EOk k t) ev) -> forall t, ~ In (EOk k t) (ev ++ e)) by (intros Y t I; apply in_app_or in I as [I|I]; [exact (Y _ I)|exact (N _ I)]).
  destruct p as [i j [|r|x]|i j t|i j t r|i t r|[|r|x]]; cbn; rewrite ?asks_app, ?A, ?app_nil_r; try tauto; try (intros [U V]; split; auto; fail); try (intros I; apply in_or_app; now left).
  intros [t I]. exists t. apply in_or_app. now left.
Qed.
Lemma outs_upd s ev k p p' e : outs_ok s ev -> nth_error (sh_calls s) k = Some p -> (forall m, m <> k -> asks m e = [] /\ forall t, ~ In (EOk m t) e) ->
  (out_ok k p ev -> out_ok k p' (ev ++ e)) -> forall tiers, outs_ok {| sh_tiers := tiers; sh_calls := list_set k p' (sh_calls s) |} (ev ++ e).
Proof.
  intros [A B] K O P tiers. assert (k < List.length (sh_calls s))%nat as LK by (apply nth_error_Some; congruence). split; cbn [sh_calls].
  - intros m q M. destruct (Nat.eq_dec k m) as [<-|N].
    + rewrite list_set_nth_eq in M by exact LK. injection M as <-. auto.
    + rewrite list_set_nth_neq in M by exact N. destruct (O m) as [O1 O2]; [congruence|]. apply out_other; auto.
  - intros m L. rewrite list_set_length in L. destruct (B _ L) as [B1 B2]. destruct (O m) as [O1 O2]; [lia|]. rewrite asks_app, B1, O1. split; [reflexivity|]. intros t I. apply in_app_or in I as [I|I]; [exact (B2 _ I)|exact (O2 _ I)].
Qed.
Lemma outs_step s ev a s' e : outs_ok s ev -> gexec s a = Some (s', e) -> outs_ok s' (ev ++ e).
Proof.
  intros P H. apply gexec_step in H. destruct H as [|k o i j last K Q|k o i j last b K Q J|k o i j last b x K Q J|k x i j x' K|k r i j x K|k o i j x r b K Q|k o i x r b K Q]; unfold upd, put; cbn [sh_tiers sh_calls].
  { rewrite app_nil_r. destruct P as [A B]. split; cbn [sh_calls].
    - intros k p K. destruct (Nat.lt_ge_cases k (List.length (sh_calls s))) as [LK|LK]; [rewrite nth_error_app1 in K by exact LK; auto|].
      rewrite nth_error_app2 in K by exact LK. destruct (B _ LK) as [B1 B2]. destruct (k - List.length (sh_calls s))%nat as [|m]; [|destruct m; discriminate]. injection K as <-. cbn. auto.
    - intros k LK. rewrite app_length in LK. apply B. cbn in LK. lia. }
  all: eapply outs_upd; [exact P|exact K| |].
  all: try (intros m N; split; [cbn; rewrite ?(proj2 (Nat.eqb_neq m k)) by exact N; reflexivity|]; intros tt0 I; cbn in I; try contradiction; destruct I as [I|[]]; try discriminate I; injection I as I1 _; congruence).
  all: assert (NA : forall tt0, ~ In (EOk k tt0) ev -> forall e0, (forall u, ~ In (EOk k u) e0) -> ~ In (EOk k tt0) (ev ++ e0)) by (intros tt0 N0 e0 N1 I; apply in_app_or in I as [I|I]; [exact (N0 I)|exact (N1 _ I)]).
  - destruct last as [|r|y]; cbn; [|tauto|]; intros [N A]; rewrite asks_app; cbn; rewrite app_nil_r; (split; [|exact A]); intros tt0; apply NA; auto; intros u [X|[]]; discriminate X.
  - destruct last as [|r|y]; cbn; rewrite ?app_nil_r; tauto.
  - intros V. cbn. rewrite asks_app. cbn. rewrite Nat.eqb_refl. split; [|destruct (asks k ev); discriminate]. assert (forall t, ~ In (EOk k t) ev) as N by (destruct last; cbn in V; tauto). intros tt0. apply NA; auto. intros u [X|[]]; discriminate X.
  - cbn. intros [N A]. rewrite asks_app. cbn. rewrite app_nil_r. split; [|exact A]. intros tt0. apply NA; auto. intros u [X|[]]; discriminate X.
  - cbn. intros _. apply in_or_app. right. now left.
  - cbn. rewrite app_nil_r. auto.
  - cbn. intros I. exists x. apply in_or_app. now left.
Qed.
Theorem outcomes T0 l s ev k g : gruns (new_share T0) l = Some (s, ev) -> nth_error (sh_calls s) k = Some (GReturned g) ->
  match g with
  | GotRes r => exists t, In (EOk k t) ev
  | GotErr e => asks k ev <> [] /\ forall t, ~ In (EOk k t) ev
  | GotNothing => asks k ev = []
  end.
Proof.
  intros H K. assert (outs_ok s ev) as [A _].
  { revert H. apply (gruns_ind outs_ok); [|intros; eapply outs_step; eassumption]. split; [intros [|k0] p X; discriminate X|]. intros k0 _. split; [reflexivity|intros t []]. }
  specialize (A _ _ K). destruct g; cbn in A; tauto.
Qed.
End Share.
