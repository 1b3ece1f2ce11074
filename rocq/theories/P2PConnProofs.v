(** Invariants of the connection model. *)
From Verif Require Import GoBase GoBaseProofs GoMap PeerWire P2PServerProofs P2PConn P2PConnSpec.

(** * Steps *)
Lemma breq_iff (a b : breq) : breq_eqb a b = true <-> a = b.
Proof.
  destruct a as [[i x] l], b as [[j y] k]. cbn. rewrite !andb_true_iff, !Z.eqb_eq. split; [intros [[-> ->] ->]; reflexivity|intros [= -> -> ->]; auto].
Qed.
Lemma flag_iff f g : flag_eqb f g = true <-> f = g. Proof. destruct f, g; cbn; split; congruence. Qed.
Ltac kopen H :=
  unfold kexec, step_serve, step_pull, step_ask, step_flag, step_send, handle_message, take_lock, finish_write in H;
  brk H; injection H as <- <-.
Ltac kfields := cbn [kgoto kspawn set_krchoked set_kchoked set_kinterested set_kmu set_kinflight set_kcancelled set_kfuts set_kthreads set_kcrashed
  k_rchoked k_choked k_interested k_mu k_inflight k_cancelled k_futs k_threads k_crashed].
Ltac kfields_in H := cbn [kgoto kspawn set_krchoked set_kchoked set_kinterested set_kmu set_kinflight set_kcancelled set_kfuts set_kthreads set_kcrashed
  k_rchoked k_choked k_interested k_mu k_inflight k_cancelled k_futs k_threads k_crashed] in H.
Lemma kruns_app s l l' : kruns s (l ++ l') =
  match kruns s l with
  | Some (s1, e1) => match kruns s1 l' with Some (s2, e2) => Some (s2, e1 ++ e2) | None => None end
  | None => None
  end.
Proof.
  revert s. induction l as [|a l IH]; intros s; cbn [kruns app].
  - destruct (kruns s l') as [[? ?]|]; reflexivity.
  - destruct (kexec s a) as [[s1 e1]|]; [|reflexivity]. rewrite IH. destruct (kruns s1 l) as [[s2 e2]|]; [|reflexivity].
    destruct (kruns s2 l') as [[s3 e3]|]; [|reflexivity]. now rewrite app_assoc.
Qed.
Lemma kruns_ind (P : kstate -> list kevent -> Prop) s0 l s ev :
  P s0 [] -> (forall s ev a s' e, P s ev -> kexec s a = Some (s', e) -> P s' (ev ++ e)) -> kruns s0 l = Some (s, ev) -> P s ev.
Proof.
  intros P0 PS. assert (forall l s1 ev1, P s1 ev1 -> forall s ev, kruns s1 l = Some (s, ev) -> P s (ev1 ++ ev)) as G.
  { clear l s ev. induction l as [|a l IH]; intros s1 ev1 P1 s ev; cbn [kruns]; [intros [= <- <-]; now rewrite app_nil_r|].
    destruct (kexec s1 a) as [[s2 e]|] eqn:E; [|discriminate]. destruct (kruns s2 l) as [[s3 e3]|] eqn:F; [|discriminate]. intros [= <- <-].
    rewrite app_assoc. eapply IH; [|exact F]. eapply PS; eauto. }
  intros R. apply (G l s0 [] P0 s ev R).
Qed.

(** * Futures *)
Definition futs_ok (s : kstate) : Prop :=
  NoDup (map fst (k_inflight s)) /\
  (forall r f, mget breq_eqb r (k_inflight s) = Some f -> nth_error (k_futs s) f = Some None) /\
  (forall r r' f, mget breq_eqb r (k_inflight s) = Some f -> mget breq_eqb r' (k_inflight s) = Some f -> r = r').
(** All fields but inflightRequests and the futures. *)
Definition same_but_futs (s s' : kstate) : Prop :=
  k_rchoked s' = k_rchoked s /\ k_choked s' = k_choked s /\ k_interested s' = k_interested s /\ k_mu s' = k_mu s /\
  k_cancelled s' = k_cancelled s /\ k_threads s' = k_threads s /\ k_crashed s' = k_crashed s.
Lemma complete_spec o s r : futs_ok s -> let s' := complete o s r in
  futs_ok s' /\ same_but_futs s s' /\
  (forall r', mget breq_eqb r' (k_inflight s') = if breq_eqb r r' then None else mget breq_eqb r' (k_inflight s)) /\
  (forall f, mget breq_eqb r (k_inflight s) = Some f -> nth_error (k_futs s') f = Some (Some o)) /\
  (forall f, mget breq_eqb r (k_inflight s) <> Some f -> nth_error (k_futs s') f = nth_error (k_futs s) f).
Proof.
  intros (ND & U & I). cbv zeta. unfold complete. destruct (mget breq_eqb r (k_inflight s)) as [f|] eqn:E.
  - pose proof (U _ _ E) as Uf. rewrite Uf. unfold futs_ok, same_but_futs. kfields.
    assert (f < List.length (k_futs s))%nat as Lf by (apply nth_error_Some; congruence).
    assert (forall r', mget breq_eqb r' (mdel breq_eqb r (k_inflight s)) = if breq_eqb r r' then None else mget breq_eqb r' (k_inflight s)) as G by (intros; apply mget_del; exact breq_iff).
    split; [|split; [tauto|split; [exact G|split]]].
    + split; [apply mdel_keys; exact ND|]. split.
      * intros r' f' H. rewrite G in H. destruct (breq_eqb r r') eqn:N; [discriminate|]. rewrite list_set_nth_neq; [eauto|].
        intros <-. rewrite (I _ _ _ E H) in N. rewrite (proj2 (breq_iff r' r') eq_refl) in N. discriminate.
      * intros r1 r2 f'. rewrite !G. destruct (breq_eqb r r1), (breq_eqb r r2); try discriminate. apply I.
    + intros f' [= <-]. now apply list_set_nth_eq.
    + intros f' N. apply list_set_nth_neq. congruence.
  - split; [split; [exact ND|split; assumption]|]. split; [unfold same_but_futs; tauto|]. split; [|split; [discriminate|reflexivity]].
    intros r'. destruct (breq_eqb r r') eqn:N; [|reflexivity]. apply breq_iff in N as <-. exact E.
Qed.
Lemma complete_all_spec o ks : forall s, futs_ok s -> let s' := fold_left (complete o) ks s in
  futs_ok s' /\ same_but_futs s s' /\
  (forall r, mget breq_eqb r (k_inflight s') = if smem breq_eqb r ks then None else mget breq_eqb r (k_inflight s)) /\
  (forall r f, mget breq_eqb r (k_inflight s) = Some f -> In r ks -> nth_error (k_futs s') f = Some (Some o)) /\
  (forall f, (forall r, In r ks -> mget breq_eqb r (k_inflight s) <> Some f) -> nth_error (k_futs s') f = nth_error (k_futs s) f).
Proof.
  induction ks as [|r0 ks IH]; intros s F; cbv zeta; cbn [fold_left].
  - split; [exact F|]. split; [unfold same_but_futs; tauto|]. split; [reflexivity|]. split; [intros ? ? ? []|reflexivity].
  - destruct (complete_spec o s r0 F) as (F1 & S1 & G1 & D1 & N1). destruct (IH _ F1) as (F2 & S2 & G2 & D2 & N2). clear IH.
    split; [exact F2|]. split; [unfold same_but_futs in *; intuition congruence|]. split; [|split].
    + intros r. rewrite G2, G1. cbn [smem existsb]. fold (smem breq_eqb r ks). destruct (smem breq_eqb r ks); [now rewrite orb_true_r|]. rewrite orb_false_r.
      destruct (breq_eqb r0 r) eqn:A, (breq_eqb r r0) eqn:B; try reflexivity.
      * apply breq_iff in A as ->. rewrite (proj2 (breq_iff r r) eq_refl) in B. discriminate.
      * apply breq_iff in B as ->. rewrite (proj2 (breq_iff r0 r0) eq_refl) in A. discriminate.
    + intros r f E I. destruct (breq_eqb r0 r) eqn:A.
      * apply breq_iff in A as ->. rewrite N2; [eauto|]. intros r' I' H. rewrite G1 in H. destruct (breq_eqb r r') eqn:B; [discriminate|].
        pose proof (proj2 (proj2 F) _ _ _ E H) as ->. rewrite (proj2 (breq_iff r' r') eq_refl) in B. discriminate.
      * destruct I as [->|I]; [rewrite (proj2 (breq_iff r r) eq_refl) in A; discriminate|]. apply (D2 r); [|exact I]. now rewrite G1, A.
    + intros f H. rewrite N2; [apply N1; apply H; now left|]. intros r I. rewrite G1. destruct (breq_eqb r0 r); [discriminate|]. apply H. now right.
Qed.
(** Receive with a CHOKE. *)
Lemma choke_all_spec s : futs_ok s -> let s' := fold_left (complete (Some EChoked)) (map fst (k_inflight s)) s in
  futs_ok s' /\ same_but_futs s s' /\ (forall r, mget breq_eqb r (k_inflight s') = None) /\
  (forall r f, mget breq_eqb r (k_inflight s) = Some f -> nth_error (k_futs s') f = Some (Some (Some EChoked))) /\
  (forall f, (forall r, mget breq_eqb r (k_inflight s) <> Some f) -> nth_error (k_futs s') f = nth_error (k_futs s) f).
Proof.
  intros F. cbv zeta. destruct (complete_all_spec (Some EChoked) (map fst (k_inflight s)) s F) as (F2 & S2 & G2 & D2 & N2).
  split; [exact F2|]. split; [exact S2|]. split; [|split].
  - intros r. rewrite G2. destruct (smem breq_eqb r (map fst (k_inflight s))) eqn:E; [reflexivity|]. apply (mget_none _ breq_iff).
    intros I. apply (smem_in _ breq_iff) in I. congruence.
  - intros r f E. apply (D2 r f E). apply (mget_in _ breq_iff) in E. apply in_map_iff. now exists (r, f).
  - intros f H. apply N2. intros r _. apply H.
Qed.

(** * Locks, threads *)
Definition writing (th : kthread) : bool :=
  match th with
  | TServe (CInterest SWrite | CPiece _ _ SWrite) | TAsk _ (QSend _ SWrite) | TFlag _ (Some SWrite) | TSend _ SWrite => true
  | _ => false
  end.
(** Nothing panics; whoever writes holds the lock; goroutine 0 is the only one in serve. *)
Definition base_ok (s : kstate) : Prop :=
  futs_ok s /\ k_crashed s = false /\
  (forall t th, nth_error (k_threads s) t = Some th -> writing th = true -> k_mu s = Some t) /\
  (exists h, nth_error (k_threads s) 0 = Some (TServe h)) /\
  (forall t h, nth_error (k_threads s) t = Some (TServe h) -> t = O).
Lemma threads_set t x l u y : nth_error (list_set t x l) u = Some y -> (u = t /\ y = x /\ exists z : kthread, nth_error l t = Some z) \/ (u <> t /\ nth_error l u = Some y).
Proof.
  intros H. destruct (Nat.eq_dec u t) as [->|N].
  - left. assert (t < List.length l)%nat as L by (rewrite <- (list_set_length t x l); apply nth_error_Some; congruence).
    rewrite list_set_nth_eq in H by easy. injection H as <-. split; [easy|]. split; [easy|]. destruct (nth_error l t) as [z|] eqn:E; [eauto|]. apply nth_error_None in E. lia.
  - right. rewrite list_set_nth_neq in H by congruence. auto.
Qed.
Lemma threads_app (x : kthread) l u y : nth_error (l ++ [x]) u = Some y -> (u = List.length l /\ y = x) \/ nth_error l u = Some y.
Proof.
  intros H. destruct (Nat.lt_ge_cases u (List.length l)) as [L|L]; [right; now rewrite nth_error_app1 in H|].
  rewrite nth_error_app2 in H by easy. destruct (u - List.length l)%nat as [|k] eqn:E; [|destruct k; discriminate]. injection H as <-. left. split; [lia|easy].
Qed.
Ltac swaps := repeat match goal with X : swap ?f ?s = Some _ |- _ => unfold swap in X; destruct f; brk X; injection X as <- end.
(** Split a hypothesis about a goroutine of the new state. *)
Ltac thread_in H :=
  lazymatch type of H with
  | nth_error (list_set _ _ _ ++ [_]) _ = Some _ => apply threads_app in H as [[? ?]|H]; [|thread_in H]
  | nth_error (_ ++ [_]) _ = Some _ => apply threads_app in H as [[? ?]|H]
  | nth_error (list_set _ _ _) _ = Some _ => apply threads_set in H as [[? [? [? ?]]]|[? H]]
  | _ => idtac
  end.
Lemma same_futs s s' : k_inflight s' = k_inflight s -> k_futs s' = k_futs s -> futs_ok s -> futs_ok s'.
Proof. unfold futs_ok. intros -> ->. auto. Qed.
Lemma serve0_set l h0 t old th : nth_error l 0 = Some (TServe h0) -> nth_error l t = Some old -> (exists h, th = TServe h) \/ (forall h, old <> TServe h) ->
  exists h, nth_error (list_set t th l) 0 = Some (TServe h).
Proof.
  intros H E C. destruct (Nat.eq_dec t 0) as [->|N].
  - destruct C as [[h ->]|C]; [|rewrite H in E; injection E as <-; now destruct (C h0)]. exists h. apply list_set_nth_eq. apply nth_error_Some. congruence.
  - exists h0. now rewrite list_set_nth_neq.
Qed.
Lemma serve0_app l h0 (x : kthread) : nth_error l 0 = Some (TServe h0) -> exists h, nth_error (l ++ [x]) 0 = Some (TServe h).
Proof. intros H. exists h0. rewrite nth_error_app1; [exact H|]. apply nth_error_Some. congruence. Qed.
Lemma base_step s a s' e : base_ok s -> kexec s a = Some (s', e) -> base_ok s'.
Proof.
  intros (F & C & L & (h0 & H0) & Z) H. unfold base_ok.
  assert (futs_ok s' /\ k_crashed s' = false) as [F' C'].
  { kopen H; swaps; kfields; (split; [|try assumption]); try (apply (same_futs s); [reflexivity|reflexivity|exact F]).
    - destruct (complete_spec None s (brought m) F) as (Fc & _). apply (same_futs (complete None s (brought m))); [reflexivity|reflexivity|exact Fc].
    - destruct (complete_spec None s (brought m) F) as (_ & Sc & _). destruct Sc as (_ & _ & _ & _ & _ & _ & ->). assumption.
    - destruct (choke_all_spec s F) as (Fc & _). eapply same_futs; [| |exact Fc]; reflexivity.
    - destruct (choke_all_spec s F) as (_ & Sc & _). destruct Sc as (_ & _ & _ & _ & _ & _ & ->). assumption.
    - destruct F as (ND & U & I). unfold futs_ok. kfields. split; [apply mput_keys; [exact breq_iff|exact ND]|].
      assert (forall r' f, mget breq_eqb r' (mput breq_eqb r (List.length (k_futs s)) (k_inflight s)) = Some f -> (r' = r /\ f = List.length (k_futs s)) \/ mget breq_eqb r' (k_inflight s) = Some f) as G.
      { intros r' f. rewrite mget_put, (mget_del _ breq_iff). destruct (breq_eqb r r') eqn:Q; [apply breq_iff in Q as ->; intros [= <-]; auto|auto]. }
      assert (forall r' f, mget breq_eqb r' (k_inflight s) = Some f -> (f < List.length (k_futs s))%nat) as Lt by (intros r' f Hf; apply nth_error_Some; rewrite (U _ _ Hf); discriminate).
      split.
      + intros r' f Hf. apply G in Hf as [[-> ->]|Hf]; [rewrite nth_error_app2, Nat.sub_diag by lia; reflexivity|]. rewrite nth_error_app1 by eauto. eauto.
      + intros r1 r2 f G1 G2. apply G in G1 as [[-> ->]|G1]; apply G in G2 as [[-> E2]|G2]; try reflexivity; [apply Lt in G2; lia|apply Lt in G1; lia|eauto].
    - destruct F as (ND & U & I). unfold futs_ok. kfields. split; [apply mdel_keys; exact ND|].
      split; [intros r' f Hf|intros r1 r2 f]; rewrite !(mget_del _ breq_iff) in *; [destruct (breq_eqb r r'); [discriminate|eauto]|].
      destruct (breq_eqb r r1), (breq_eqb r r2); try discriminate. apply I. }
  split; [exact F'|]. split; [exact C'|]. clear F' C'.
  assert (forall m, k_threads (complete None s (brought m)) = k_threads s /\ k_mu (complete None s (brought m)) = k_mu s) as CC
    by (intros m; destruct (complete_spec None s (brought m) F) as (_ & Sc & _); destruct Sc as (_ & _ & _ & ? & _ & ? & _); auto).
  assert (k_threads (fold_left (complete (Some EChoked)) (map fst (k_inflight s)) s) = k_threads s /\ k_mu (fold_left (complete (Some EChoked)) (map fst (k_inflight s)) s) = k_mu s) as [CA CB]
    by (destruct (choke_all_spec s F) as (_ & Sc & _); destruct Sc as (_ & _ & _ & ? & _ & ? & _); auto).
  kopen H; swaps; kfields; rewrite ?(proj1 (CC _)), ?(proj2 (CC _)), ?CA, ?CB; (split; [|split]).
  all: try (eapply serve0_set; [exact H0|eassumption|first [left; eexists; reflexivity|right; discriminate]]).
  all: try (eapply serve0_app; exact H0).
  all: try (intros u ? Hu; thread_in Hu; subst; try discriminate; solve [eauto | match goal with X : _ = TServe _ |- _ => injection X as <- end; eauto]).
  all: try (intros u th Hu W; thread_in Hu; subst; try discriminate W; try reflexivity; kfields;
    first [exact (L _ _ Hu W) | pose proof (L _ _ Hu W); congruence |
      match goal with N : ?x <> ?t, E : nth_error (k_threads _) ?t = Some _ |- _ => pose proof (L _ _ E eq_refl); pose proof (L _ _ Hu W); congruence end]).
  all: eauto.
  edestruct serve0_set as [h1 H1]; [exact H0|exact Heqo|right; discriminate|]. eapply serve0_app. exact H1.
Qed.
Lemma base_start : base_ok kstart.
Proof.
  unfold base_ok, futs_ok, kstart. kfields. split; [split; [constructor|split; discriminate]|]. split; [reflexivity|].
  split; [intros [|[|t]] th [= <-]; discriminate|]. split; [eexists; reflexivity|]. intros [|[|t]] h [=]. reflexivity.
Qed.
Lemma base_run l s ev : krun_of l s ev -> base_ok s.
Proof. intros R. apply (kruns_ind (fun s _ => base_ok s) kstart l s ev); [exact base_start| |exact R]. intros. eapply base_step; eauto. Qed.
Lemma krun_inv (P : kstate -> list kevent -> Prop) l s ev : P kstart [] ->
  (forall s ev a s' e, base_ok s -> P s ev -> kexec s a = Some (s', e) -> P s' (ev ++ e)) -> krun_of l s ev -> P s ev.
Proof.
  intros P0 PS R. apply (kruns_ind (fun s ev => base_ok s /\ P s ev) kstart l s ev); [split; [exact base_start|exact P0]| |exact R].
  intros s1 ev1 a s2 e [B P1] E. split; [eapply base_step; eauto|eauto].
Qed.

(** * Flags and cancels *)
Lemma fold_snoc {A B} (f : B -> A -> B) l x b : fold_left f (l ++ [x]) b = f (fold_left f l b) x.
Proof. now rewrite fold_left_app. Qed.
Definition flags_ok (s : kstate) (ev : list kevent) : Prop :=
  k_rchoked s = they_choke ev /\ k_choked s = we_choke ev /\ k_interested s = we_want ev /\ (forall r, smem breq_eqb r (k_cancelled s) = cancel_waits r ev).
Lemma smem_add r x l : smem breq_eqb r (sadd breq_eqb x l) = breq_eqb x r || smem breq_eqb r l.
Proof.
  apply eq_true_iff_eq. rewrite orb_true_iff, !(smem_in _ breq_iff), (sadd_in _ breq_iff), breq_iff. intuition congruence.
Qed.
Lemma smem_del r x l : smem breq_eqb r (sdel breq_eqb x l) = negb (breq_eqb x r) && smem breq_eqb r l.
Proof.
  apply eq_true_iff_eq. rewrite andb_true_iff, negb_true_iff, !(smem_in _ breq_iff), (sdel_in _ breq_iff). split; intros [A B]; split; auto.
  - apply not_true_iff_false. rewrite breq_iff. congruence.
  - intros ->. rewrite (proj2 (breq_iff x x) eq_refl) in *. discriminate.
Qed.
Lemma they_choke_snoc ev e : they_choke (ev ++ [e]) = if handled CHOKE e then true else if handled UNCHOKE e then false else they_choke ev.
Proof. unfold they_choke. now rewrite fold_snoc. Qed.
Lemma we_choke_snoc ev e : we_choke (ev ++ [e]) = if changed FChoke e then true else if changed FUnchoke e then false else we_choke ev.
Proof. unfold we_choke, flag_now. now rewrite fold_snoc. Qed.
Lemma we_want_snoc ev e : we_want (ev ++ [e]) = if changed FInterest e then true else if changed FNotInterest e then false else we_want ev.
Proof. unfold we_want, flag_now. now rewrite fold_snoc. Qed.
Lemma cancel_waits_snoc r ev e : cancel_waits r (ev ++ [e]) =
  match e with
  | KHandled m => if is_type CANCEL m && breq_eqb (asked m) r then true else cancel_waits r ev
  | KSuppressed r' => if breq_eqb r' r then false else cancel_waits r ev
  | _ => cancel_waits r ev
  end.
Proof. unfold cancel_waits. now rewrite fold_snoc. Qed.
(** What is known of the type of a message. *)
Ltac types := unfold handled, sent, failed, is_type in *;
  repeat match goal with
  | X : _ || _ = true |- _ => apply orb_true_iff in X as [X|X]
  | X : _ || _ = false |- _ => apply orb_false_iff in X as [X ?]
  | X : (m_type ?m =? ?t) = true |- _ => apply Z.eqb_eq in X; rewrite X in *
  | X : (m_type ?m =? ?t) = false |- _ => rewrite X in *
  end.
Lemma flags_step s ev a s' e : base_ok s -> flags_ok s ev -> kexec s a = Some (s', e) -> flags_ok s' (ev ++ e).
Proof.
  intros (F & _) (A & B & C & D) H. unfold flags_ok in *.
  assert (forall m, same_but_futs s (complete None s (brought m))) as CC by (intros m; apply (complete_spec None s (brought m) F)).
  assert (same_but_futs s (fold_left (complete (Some EChoked)) (map fst (k_inflight s)) s)) as CA by (apply (choke_all_spec s F)).
  unfold same_but_futs in CC, CA. destruct CA as (A1 & A2 & A3 & A4 & A5 & A6 & A7).
  assert (forall m r, smem breq_eqb r (k_cancelled (complete None s (brought m))) = cancel_waits r ev /\ smem breq_eqb r (k_cancelled (fold_left (complete (Some EChoked)) (map fst (k_inflight s)) s)) = cancel_waits r ev) as DD.
  { intros m r. destruct (CC m) as (_ & _ & _ & _ & -> & _). rewrite A5. auto. }
  kopen H; swaps; kfields; rewrite ?app_nil_r; try (split; [congruence|split; [congruence|split; [congruence|exact D]]]);
  rewrite they_choke_snoc, we_choke_snoc, we_want_snoc; try setoid_rewrite cancel_waits_snoc; cbn [handled changed flag_eqb];
  try (split; [congruence|split; [congruence|split; [congruence|exact D]]]).
  all: try (destruct (CC m) as (C1 & C2 & C3 & _); rewrite C1, C2, C3; split; [congruence|split; [congruence|split; [congruence|intros r; apply DD]]]).
  all: try (rewrite A1, A2, A3; split; [congruence|split; [congruence|split; [congruence|intros r; apply (DD m)]]]).
  all: try (split; [types; cbn; congruence|]; split; [congruence|]; split; [congruence|]; intros r'; types; cbn; rewrite <- ?D, ?smem_add, ?smem_del; try reflexivity; try apply D).
  destruct (breq_eqb r r'); reflexivity.
Qed.
Lemma flags_run l s ev : krun_of l s ev -> flags_ok s ev.
Proof. apply (krun_inv flags_ok); [repeat split|exact flags_step]. Qed.

(** * Counting *)
Definition b2z (b : bool) : Z := if b then 1 else 0.
Lemma tally_nil p : tally p [] = 0. Proof. reflexivity. Qed.
Lemma tally_app p a b : tally p (a ++ b) = tally p a + tally p b.
Proof. unfold tally. now rewrite filter_app, zlen_app. Qed.
Lemma tally_cons p e a : tally p (e :: a) = b2z (p e) + tally p a.
Proof. unfold tally. cbn [filter]. destruct (p e); [now rewrite zlen_cons|reflexivity]. Qed.
Lemma tally_ge0 p a : 0 <= tally p a. Proof. apply zlen_nonneg. Qed.
Lemma tally_0 p a : tally p a = 0 <-> forall e, In e a -> p e = false.
Proof.
  induction a as [|x a IH]; [easy|]. rewrite tally_cons. pose proof (tally_ge0 p a) as G. split.
  - intros H e I. assert (p x = false /\ tally p a = 0) as [E T] by (destruct (p x); cbn [b2z] in H; lia). destruct I as [<-|I]; [exact E|]. now apply (proj1 IH T).
  - intros H. rewrite (proj2 IH) by (intros; apply H; now right). now rewrite (H x) by now left.
Qed.
Definition count (p : kthread -> bool) (l : list kthread) : Z := zlen (filter p l).
Lemma count_app p a b : count p (a ++ b) = count p a + count p b.
Proof. unfold count. now rewrite filter_app, zlen_app. Qed.
Lemma count_one p x : count p [x] = b2z (p x).
Proof. unfold count. cbn. destruct (p x); reflexivity. Qed.
Lemma count_cons p e a : count p (e :: a) = b2z (p e) + count p a.
Proof. unfold count. cbn [filter]. destruct (p e); [now rewrite zlen_cons|reflexivity]. Qed.
Lemma count_set p l : forall t x old, nth_error l t = Some old -> count p (list_set t x l) = count p l - b2z (p old) + b2z (p x).
Proof.
  induction l as [|y l IH]; intros [|t] x old; cbn [nth_error list_set]; try discriminate.
  - intros [= ->]. rewrite !count_cons. lia.
  - intros E. rewrite !count_cons, (IH t x old E). lia.
Qed.
Lemma count_ge0 p a : 0 <= count p a. Proof. apply zlen_nonneg. Qed.
Lemma count_0 p l : count p l = 0 <-> forall th, In th l -> p th = false.
Proof.
  induction l as [|x a IH]; [easy|]. rewrite count_cons. pose proof (count_ge0 p a) as G. split.
  - intros H e I. assert (p x = false /\ count p a = 0) as [E T] by (destruct (p x); cbn [b2z] in H; lia). destruct I as [<-|I]; [exact E|]. now apply (proj1 IH T).
  - intros H. rewrite (proj2 IH) by (intros; apply H; now right). now rewrite (H x) by now left.
Qed.
Lemma complete_threads o s r : futs_ok s -> k_threads (complete o s r) = k_threads s /\ k_mu (complete o s r) = k_mu s.
Proof. intros F. destruct (complete_spec o s r F) as (_ & Sc & _). destruct Sc as (_ & _ & _ & ? & _ & ? & _); auto. Qed.
Lemma choke_all_threads s : futs_ok s -> let s' := fold_left (complete (Some EChoked)) (map fst (k_inflight s)) s in k_threads s' = k_threads s /\ k_mu s' = k_mu s.
Proof. intros F. destruct (choke_all_spec s F) as (_ & Sc & _). destruct Sc as (_ & _ & _ & ? & _ & ? & _); auto. Qed.

(** * The messages of the flags *)
Definition mid (f : flag) (th : kthread) : bool :=
  match th with TFlag g (Some _) => flag_eqb f g | TServe (CInterest _) => flag_eqb f FInterest | _ => false end.
Definition kinds_ok (s : kstate) : Prop :=
  forall t m p, nth_error (k_threads s) t = Some (TSend m p) -> existsb (Z.eqb (m_type m)) [HAVE; BITFIELD; KEEPALIVE] = true.
Lemma kinds_step s a s' e : base_ok s -> kinds_ok s -> kexec s a = Some (s', e) -> kinds_ok s'.
Proof.
  intros (F & _) K H. unfold kinds_ok in *. 
  pose proof (fun m => proj1 (complete_threads None s (brought m) F)) as CC. pose proof (proj1 (choke_all_threads s F)) as CA.
  kopen H; swaps; kfields; rewrite ?CC, ?CA; intros u m1 p1 Hu; thread_in Hu; subst; try discriminate; eauto.
  all: repeat match goal with X : TSend _ _ = TSend _ _ |- _ => injection X as -> -> end; eauto.
Qed.
Lemma kinds_run l s ev : krun_of l s ev -> kinds_ok s.
Proof. apply (krun_inv (fun s _ => kinds_ok s)); [intros [|[|t]]; discriminate|]. intros. eapply kinds_step; eauto. Qed.
Lemma flag_type f g : is_type (ftype f) (flag_message g) = flag_eqb f g.
Proof. destruct f, g; reflexivity. Qed.
Lemma piece_type t i b d : is_type t (mk_piece i b d) = (PIECE =? t). Proof. reflexivity. Qed.
Lemma request_type t r : is_type t (request_of r) = (REQUEST =? t). Proof. destruct r as [[i b] l]. reflexivity. Qed.
Lemma other_type t m : existsb (Z.eqb (m_type m)) [HAVE; BITFIELD; KEEPALIVE] = true -> existsb (Z.eqb t) [HAVE; BITFIELD; KEEPALIVE] = false -> is_type t m = false.
Proof. intros A B. unfold is_type. destruct (m_type m =? t) eqn:E; [|reflexivity]. apply Z.eqb_eq in E. rewrite E, B in A. discriminate. Qed.
Lemma bits_kind m m' : (m_type m =? BITFIELD) && (m_type m' =? BITFIELD) = true -> existsb (Z.eqb (m_type m')) [HAVE; BITFIELD; KEEPALIVE] = true.
Proof. intros E. apply andb_true_iff in E as [_ E]. apply Z.eqb_eq in E. rewrite E. reflexivity. Qed.
Ltac other_kind K t N :=
  match goal with
  | E : (m_type ?m =? BITFIELD) && (m_type ?m' =? BITFIELD) = true |- _ => rewrite (other_type t m' (bits_kind m m' E) N)
  | E : nth_error _ _ = Some (TSend ?m _) |- _ => rewrite (other_type t m (K _ _ _ E) N)
  end.
Lemma ftype_not f : (PIECE =? ftype f) = false /\ (REQUEST =? ftype f) = false /\ existsb (Z.eqb (ftype f)) [HAVE; BITFIELD; KEEPALIVE] = false.
Proof. destruct f; repeat split. Qed.
Lemma flag_other f : is_type REQUEST (flag_message f) = false /\ is_type PIECE (flag_message f) = false. Proof. destruct f; split; reflexivity. Qed.
Definition moved (f : flag) (s : kstate) (ev : list kevent) : Prop :=
  tally (changed f) ev = tally (sent (ftype f)) ev + tally (failed (ftype f)) ev + count (mid f) (k_threads s).
Lemma moved_step f s ev a s' e : base_ok s -> kinds_ok s -> moved f s ev -> kexec s a = Some (s', e) -> moved f s' (ev ++ e).
Proof.
  intros (F & _) K M H. unfold moved in *. 
  pose proof (fun m => proj1 (complete_threads None s (brought m) F)) as CC. pose proof (proj1 (choke_all_threads s F)) as CA. rewrite !tally_app.
  kopen H; swaps; kfields; rewrite ?CC, ?CA, ?count_app; try (erewrite !count_set by eassumption); rewrite ?count_one, ?tally_cons, ?tally_nil; cbn [mid changed sent failed b2z flag_eqb]; try lia.
  all: rewrite ?flag_type, ?piece_type, ?request_type; destruct (ftype_not f) as (N1 & N2 & N3); rewrite ?N1, ?N2; cbn [b2z]; try lia.
  all: other_kind K (ftype f) N3; cbn [b2z]; lia.
Qed.
Lemma moved_run f l s ev : krun_of l s ev -> moved f s ev.
Proof.
  intros R. apply (krun_inv (fun s ev => kinds_ok s /\ moved f s ev) l s ev); [|intros s1 ev1 a s2 e B [K M] E; split; [eapply kinds_step; eauto|eapply moved_step; eauto]|exact R].
  split; [intros [|[|t]]; discriminate|reflexivity].
Qed.
(** Changes alternate. *)
Lemma alternate l s ev : krun_of l s ev ->
  tally (changed FUnchoke) ev - tally (changed FChoke) ev = b2z (negb (k_choked s)) /\
  tally (changed FInterest) ev - tally (changed FNotInterest) ev = b2z (k_interested s).
Proof.
  apply (krun_inv (fun s ev => tally (changed FUnchoke) ev - tally (changed FChoke) ev = b2z (negb (k_choked s)) /\
    tally (changed FInterest) ev - tally (changed FNotInterest) ev = b2z (k_interested s))); [split; reflexivity|].
  clear l s ev. intros s ev a s' e (F & _) [A B] H.
  assert (forall m, same_but_futs s (complete None s (brought m))) as CC by (intros m; apply (complete_spec None s (brought m) F)).
  assert (same_but_futs s (fold_left (complete (Some EChoked)) (map fst (k_inflight s)) s)) as CA by (apply (choke_all_spec s F)).
  unfold same_but_futs in CC, CA. destruct CA as (A1 & A2 & A3 & A4 & A5 & A6 & A7).
  assert (forall m, k_choked (complete None s (brought m)) = k_choked s /\ k_interested (complete None s (brought m)) = k_interested s) as DD by (intros m; specialize (CC m); tauto).
  rewrite !tally_app. kopen H; swaps; kfields; rewrite ?A2, ?A3, ?(proj1 (DD _)), ?(proj2 (DD _)), ?tally_cons, ?tally_nil; cbn [changed b2z flag_eqb negb] in *; try lia;
  repeat match goal with X : k_choked s = _ |- _ => rewrite X in * | X : k_interested s = _ |- _ => rewrite X in * end; cbn [b2z negb] in *; lia.
Qed.

(** * Requests while choked *)
(** Requests that are being written. *)
Definition asking (th : kthread) : bool := match th with TAsk _ (QSend _ SWrite) => true | _ => false end.
Lemma asking_one s : base_ok s -> count asking (k_threads s) <= 1.
Proof.
  intros (_ & _ & L & _). assert (forall l, (forall t u th th', nth_error l t = Some th -> nth_error l u = Some th' -> asking th = true -> asking th' = true -> t = u) -> count asking l <= 1) as G.
  { induction l as [|x l IH]; intros U; [cbn; lia|]. rewrite count_cons. destruct (asking x) eqn:A; cbn [b2z].
    - rewrite (proj2 (count_0 asking l)); [lia|]. intros th I. apply In_nth_error in I as [n N]. destruct (asking th) eqn:Q; [|reflexivity]. now specialize (U O (S n) x th eq_refl N A Q).
    - assert (count asking l <= 1); [|lia]. apply IH. intros t u th th' T1 T2 Q1 Q2. specialize (U (S t) (S u) th th' T1 T2 Q1 Q2). congruence. }
  apply G. intros t u th th' T1 T2 Q1 Q2. assert (forall th, asking th = true -> writing th = true) as W by (intros [| |? []| | |]; try discriminate; now destruct p).
  pose proof (L _ _ T1 (W _ Q1)). pose proof (L _ _ T2 (W _ Q2)). congruence.
Qed.
Lemma asking_step s a s' e : base_ok s -> kinds_ok s -> k_rchoked s = true -> kexec s a = Some (s', e) ->
  tally (tried REQUEST) e + count asking (k_threads s') <= count asking (k_threads s) /\ (k_rchoked s' = true \/ 0 < tally (handled UNCHOKE) e).
Proof.
  intros (F & _) K C H.
  pose proof (fun m => proj1 (complete_threads None s (brought m) F)) as CC. pose proof (proj1 (choke_all_threads s F)) as CA.
  assert (forall m, k_rchoked (complete None s (brought m)) = k_rchoked s) as C1 by (intros m; apply (complete_spec None s (brought m) F)).
  assert (k_rchoked (fold_left (complete (Some EChoked)) (map fst (k_inflight s)) s) = k_rchoked s) as C2 by (apply (choke_all_spec s F)).
  kopen H; swaps; kfields; rewrite ?CC, ?CA, ?C1, ?C2, ?count_app; try (erewrite !count_set by eassumption); rewrite ?count_one, ?tally_cons, ?tally_nil;
    unfold tried; cbn [sent failed asking b2z handled]; rewrite ?piece_type, ?request_type, ?(proj1 (flag_other _)); cbn [orb b2z Z.eqb]; try (split; [lia|tauto]).
  all: try (match goal with X : (m_type _ =? UNCHOKE) = true |- _ => unfold is_type; rewrite X end; cbn [b2z]; split; [lia|right; lia]).
  all: try (other_kind K REQUEST (eq_refl false); cbn [b2z orb]; split; [lia|now left]).
  all: first [discriminate C|rewrite ?C; change (PIECE =? REQUEST) with false; change (REQUEST =? REQUEST) with true; cbn [orb b2z]; split; [lia|now left]].
Qed.
Lemma step_events s a s' e : kexec s a = Some (s', e) -> e = [] \/ exists x, e = [x].
Proof. intros H. kopen H; eauto. Qed.
Lemma runs_split l : forall s0 s e1 e2, kruns s0 l = Some (s, e1 ++ e2) -> exists l1 l2 s1, l = l1 ++ l2 /\ kruns s0 l1 = Some (s1, e1) /\ kruns s1 l2 = Some (s, e2).
Proof.
  induction l as [|a l IH]; intros s0 s e1 e2 H.
  - cbn in H. injection H as <- H. symmetry in H. apply app_eq_nil in H as [-> ->]. exists [], [], s0. auto.
  - destruct e1 as [|x e1]; [exists [], (a :: l), s0; auto|]. cbn [kruns] in H. destruct (kexec s0 a) as [[s1 e]|] eqn:E; [|discriminate].
    destruct (kruns s1 l) as [[s2 e']|] eqn:R; [|discriminate]. injection H as -> H. destruct (step_events _ _ _ _ E) as [->|[y ->]].
    + cbn in H. subst e'. destruct (IH s1 s (x :: e1) e2 R) as (l1 & l2 & s3 & -> & R1 & R2). exists (a :: l1), l2, s3. cbn [kruns app]. rewrite E, R1. auto.
    + cbn in H. injection H as -> ->. destruct (IH s1 s e1 e2 R) as (l1 & l2 & s3 & -> & R1 & R2). exists (a :: l1), l2, s3. cbn [kruns app]. rewrite E, R1. auto.
Qed.
Lemma run_split l s e1 e2 : krun_of l s (e1 ++ e2) -> exists l1 l2 s1, l = l1 ++ l2 /\ krun_of l1 s1 e1 /\ kgoes_on s1 l2 s e2.
Proof. apply runs_split. Qed.
Lemma goes_on_run l1 s1 e1 l2 s2 e2 : krun_of l1 s1 e1 -> kgoes_on s1 l2 s2 e2 -> krun_of (l1 ++ l2) s2 (e1 ++ e2).
Proof. unfold krun_of, kgoes_on. intros A B. now rewrite kruns_app, A, B. Qed.
(** An invariant from a state that was reached. *)
Lemma kgoes_inv (P : kstate -> list kevent -> Prop) l1 s1 e1 l2 s2 e2 : krun_of l1 s1 e1 -> P s1 [] ->
  (forall l s ev a s' e, krun_of l s (e1 ++ ev) -> P s ev -> kexec s a = Some (s', e) -> P s' (ev ++ e)) -> kgoes_on s1 l2 s2 e2 -> P s2 e2.
Proof.
  intros R P0 PS G. apply (kruns_ind (fun s ev => P s ev /\ exists l, krun_of l s (e1 ++ ev)) s1 l2 s2 e2); [| |exact G].
  - split; [exact P0|]. exists l1. now rewrite app_nil_r.
  - intros s ev a s' e [P1 [l L]] E. split; [eapply PS; eauto|]. exists (l ++ [a]). unfold krun_of in *. rewrite kruns_app, L. cbn [kruns]. rewrite E. now rewrite !app_nil_r, app_assoc.
Qed.
Lemma requests_from l1 s1 e1 l2 s e2 : krun_of l1 s1 e1 -> kgoes_on s1 l2 s e2 -> they_choke e1 = true -> tally (handled UNCHOKE) e2 = 0 ->
  tally (tried REQUEST) e2 + count asking (k_threads s) <= count asking (k_threads s1).
Proof.
  intros R1 G C U.
  enough (tally (handled UNCHOKE) e2 = 0 -> k_rchoked s = true /\ tally (tried REQUEST) e2 + count asking (k_threads s) <= count asking (k_threads s1)) as P by now apply P.
  apply (kgoes_inv (fun s ev => tally (handled UNCHOKE) ev = 0 -> k_rchoked s = true /\ tally (tried REQUEST) ev + count asking (k_threads s) <= count asking (k_threads s1)) l1 s1 e1 l2 s e2 R1); [| |exact G].
  - intros _. split; [rewrite <- C; apply (flags_run _ _ _ R1)|cbn; lia].
  - intros l s0 ev a s' e R0 P E. rewrite !tally_app. intros Z0. pose proof (tally_ge0 (handled UNCHOKE) ev). pose proof (tally_ge0 (handled UNCHOKE) e).
    destruct P as [P1 P2]; [lia|]. destruct (asking_step _ _ _ _ (base_run _ _ _ R0) (kinds_run _ _ _ R0) P1 E) as [A [B|B]]; [|lia]. split; [exact B|lia].
Qed.
Lemma requests_choked l s e1 e2 : krun_of l s (e1 ++ e2) -> they_choke e1 = true -> tally (handled UNCHOKE) e2 = 0 ->
  tally (tried REQUEST) e2 <= 1 /\ (e1 = [] -> tally (tried REQUEST) e2 = 0).
Proof.
  intros R C U. pose proof (count_ge0 asking (k_threads s)) as G0. pose proof (tally_ge0 (tried REQUEST) e2) as T0. split.
  - destruct (run_split _ _ _ _ R) as (l1 & l2 & s1 & -> & R1 & G). pose proof (requests_from _ _ _ _ _ _ R1 G C U). pose proof (asking_one s1 (base_run _ _ _ R1)). lia.
  - intros ->. assert (krun_of [] kstart []) as R0 by reflexivity. pose proof (requests_from _ _ _ l s e2 R0 R eq_refl U) as P.
    change (count asking (k_threads kstart)) with 0 in P. lia.
Qed.

(** * Blocks for the remote *)
Definition serving (th : kthread) : bool := match th with TServe (CCheck _ | CBlock _ | CPiece _ _ _) => true | _ => false end.
Lemma serving_one s : base_ok s -> count serving (k_threads s) <= 1.
Proof.
  intros (_ & _ & _ & [h H] & U). destruct (k_threads s) as [|x l] eqn:E; [discriminate|]. rewrite count_cons, (proj2 (count_0 serving l)); [destruct (serving x); cbn; lia|].
  intros th I. apply In_nth_error in I as [n N]. destruct th as [h'| | | | |]; try reflexivity. specialize (U (S n) h' N). discriminate.
Qed.
Lemma serving_step s a s' e : base_ok s -> kinds_ok s -> k_choked s = true -> kexec s a = Some (s', e) ->
  tally (tried PIECE) e + count serving (k_threads s') <= count serving (k_threads s) /\ (k_choked s' = true \/ 0 < tally (changed FUnchoke) e).
Proof.
  intros (F & _) K C H.
  pose proof (fun m => proj1 (complete_threads None s (brought m) F)) as CC. pose proof (proj1 (choke_all_threads s F)) as CA.
  assert (forall m, k_choked (complete None s (brought m)) = k_choked s) as C1 by (intros m; apply (complete_spec None s (brought m) F)).
  assert (k_choked (fold_left (complete (Some EChoked)) (map fst (k_inflight s)) s) = k_choked s) as C2 by (apply (choke_all_spec s F)).
  kopen H; swaps; kfields; rewrite ?CC, ?CA, ?C1, ?C2, ?count_app; try (erewrite !count_set by eassumption); rewrite ?count_one, ?tally_cons, ?tally_nil;
    unfold tried; cbn [sent failed serving b2z handled changed flag_eqb]; rewrite ?piece_type, ?request_type, ?(proj2 (flag_other _)); cbn [orb b2z Z.eqb]; try (split; [lia|tauto]).
  all: try (split; [lia|right; lia]).
  all: try (other_kind K PIECE (eq_refl false); cbn [b2z orb]; split; [lia|now left]).
  all: first [discriminate C|rewrite ?C; change (REQUEST =? PIECE) with false; change (PIECE =? PIECE) with true; cbn [orb b2z]; split; [lia|now left]].
Qed.
Lemma pieces_choked l s e1 e2 : krun_of l s (e1 ++ e2) -> we_choke e1 = true -> tally (changed FUnchoke) e2 = 0 ->
  tally (tried PIECE) e2 <= 1 /\ (e1 = [] -> tally (tried PIECE) e2 = 0).
Proof.
  assert (forall l1 s1 e1 l2 s e2, krun_of l1 s1 e1 -> kgoes_on s1 l2 s e2 -> we_choke e1 = true -> tally (changed FUnchoke) e2 = 0 ->
    tally (tried PIECE) e2 + count serving (k_threads s) <= count serving (k_threads s1)) as Q.
  { clear. intros l1 s1 e1 l2 s e2 R1 G C U.
    enough (tally (changed FUnchoke) e2 = 0 -> k_choked s = true /\ tally (tried PIECE) e2 + count serving (k_threads s) <= count serving (k_threads s1)) as P by now apply P.
    apply (kgoes_inv (fun s ev => tally (changed FUnchoke) ev = 0 -> k_choked s = true /\ tally (tried PIECE) ev + count serving (k_threads s) <= count serving (k_threads s1)) l1 s1 e1 l2 s e2 R1); [| |exact G].
    - intros _. split; [rewrite <- C; apply (flags_run _ _ _ R1)|cbn; lia].
    - intros l s0 ev a s' e R0 P E. rewrite !tally_app. intros Z0. pose proof (tally_ge0 (changed FUnchoke) ev). pose proof (tally_ge0 (changed FUnchoke) e).
      destruct P as [P1 P2]; [lia|]. destruct (serving_step _ _ _ _ (base_run _ _ _ R0) (kinds_run _ _ _ R0) P1 E) as [A [B|B]]; [|lia]. split; [exact B|lia]. }
  intros R C U. pose proof (count_ge0 serving (k_threads s)) as G0. pose proof (tally_ge0 (tried PIECE) e2) as T0. split.
  - destruct (run_split _ _ _ _ R) as (l1 & l2 & s1 & -> & R1 & G). pose proof (Q _ _ _ _ _ _ R1 G C U). pose proof (serving_one s1 (base_run _ _ _ R1)). lia.
  - intros ->. assert (krun_of [] kstart []) as R0 by reflexivity. pose proof (Q _ _ _ l s e2 R0 R eq_refl U) as P.
    change (count serving (k_threads kstart)) with 0 in P. lia.
Qed.

(** * The service of requests *)
Definition stage (h : hpc) (q : message) (e1 e2 : list kevent) : Prop :=
  match h with
  | CCheck r => is_type REQUEST q = true /\ asked q = r /\ we_choke e1 = false /\ quiet e2
  | CBlock r => is_type REQUEST q = true /\ asked q = r /\ we_choke e1 = false /\ cancel_waits r e1 = false /\ quiet e2
  | CPiece r d _ => is_type REQUEST q = true /\ asked q = r /\ we_choke e1 = false /\ cancel_waits r e1 = false /\
      exists ea eb, e2 = ea ++ KLooked r :: eb /\ quiet ea /\ quiet eb
  | CRead | CTake _ | CHandle _ => is_type REQUEST q = true -> done_request q e1 e2
  | CHaves | CInterest _ | CPut => is_type REQUEST q = false
  | CEnd => True
  end.
Definition waiting_first (h : hpc) : Prop := match h with CRead | CTake _ | CHandle _ | CEnd => True | _ => False end.
Definition service_ok (s : kstate) (ev : list kevent) : Prop :=
  exists h, nth_error (k_threads s) 0 = Some (TServe h) /\
    ((tally of_service ev = 0 /\ waiting_first h) \/
     exists q e1 e2, ev = e1 ++ KHandled q :: e2 /\ tally any_handled e2 = 0 /\ stage h q e1 e2).
Lemma quiet_app a b : quiet a -> quiet b -> quiet (a ++ b).
Proof. unfold quiet. rewrite tally_app. lia. Qed.
Lemma quiet_handled a : quiet a -> tally any_handled a = 0.
Proof. unfold quiet. rewrite !tally_0. intros H e I. specialize (H e I). now destruct e. Qed.
Lemma done_quiet q e1 e2 e : quiet e -> done_request q e1 e2 -> done_request q e1 (e2 ++ e).
Proof.
  intros Q (A & [(B & ea & eb & -> & Q1 & Q2)|(B & ea & eb & d & ec & -> & Q1 & Q2 & Q3)]); (split; [exact A|]).
  - left. split; [exact B|]. exists ea, (eb ++ e). rewrite <- app_assoc. cbn [app]. repeat split; try assumption. now apply quiet_app.
  - right. split; [exact B|]. exists ea, eb, d, (ec ++ e). rewrite <- app_assoc. cbn [app]. rewrite <- app_assoc. cbn [app]. repeat split; try assumption. now apply quiet_app.
Qed.
Lemma stage_quiet h q e1 e2 e : quiet e -> stage h q e1 e2 -> stage h q e1 (e2 ++ e).
Proof.
  intros Q. destruct h; cbn [stage]; try tauto.
  all: try (intros H T; now apply done_quiet, H).
  - intros (A & B & C & D). repeat split; try assumption. now apply quiet_app.
  - intros (A & B & C & D & G). repeat split; try assumption. now apply quiet_app.
  - intros (A & B & C & D & ea & eb & -> & Q1 & Q2). repeat split; try assumption. exists ea, (eb ++ e). rewrite <- app_assoc. cbn [app]. repeat split; try assumption. now apply quiet_app.
Qed.
Lemma service_quiet s s' ev e : service_ok s ev -> nth_error (k_threads s') 0 = nth_error (k_threads s) 0 -> quiet e -> service_ok s' (ev ++ e).
Proof.
  intros (h & H & C) E Q. exists h. split; [congruence|]. destruct C as [[Z0 W]|(q & e1 & e2 & -> & N & St)].
  - left. split; [|exact W]. rewrite tally_app. unfold quiet in Q. lia.
  - right. exists q, e1, (e2 ++ e). rewrite <- app_assoc. cbn [app]. split; [reflexivity|]. split; [rewrite tally_app; apply quiet_handled in Q; lia|now apply stage_quiet].
Qed.
Lemma other_step s t c th s' e : base_ok s -> kinds_ok s -> nth_error (k_threads s) t = Some th -> (forall h, th <> TServe h) -> kexec s (KGo t c) = Some (s', e) ->
  nth_error (k_threads s') 0 = nth_error (k_threads s) 0 /\ quiet e.
Proof.
  intros (F & _ & _ & [h0 H0] & _) K E N H. assert (t <> O) as T by (intros ->; rewrite E in H0; injection H0 as ->; now apply (N h0)).
  assert (0 < List.length (k_threads s))%nat as P by (apply nth_error_Some; congruence).
  unfold kexec in H. rewrite E in H. destruct th as [h| | | | |]; [now destruct (N h)| | | | |destruct (k_crashed s); discriminate].
  all: kopen H; swaps; kfields; (split; [rewrite ?nth_error_app1 by (rewrite ?list_set_length; lia); now rewrite ?list_set_nth_neq by congruence|]).
  all: unfold quiet; rewrite ?tally_cons, ?tally_nil; cbn [of_service]; rewrite ?request_type, ?(proj2 (flag_other _)); try reflexivity.
  all: other_kind K PIECE (eq_refl false); reflexivity.
Qed.
Lemma service_move h h' ev e : (tally of_service ev = 0 /\ waiting_first h) \/ (exists q e1 e2, ev = e1 ++ KHandled q :: e2 /\ tally any_handled e2 = 0 /\ stage h q e1 e2) ->
  quiet e -> (waiting_first h -> waiting_first h') -> (forall q e1 e2, stage h q e1 e2 -> stage h' q e1 e2) ->
  (tally of_service (ev ++ e) = 0 /\ waiting_first h') \/ (exists q e1 e2, ev ++ e = e1 ++ KHandled q :: e2 /\ tally any_handled e2 = 0 /\ stage h' q e1 e2).
Proof.
  intros [[Z0 W]|(q & e1 & e2 & -> & N & St)] Q M1 M2.
  - left. split; [rewrite tally_app; unfold quiet in Q; lia|auto].
  - right. exists q, e1, (e2 ++ e). rewrite <- app_assoc. cbn [app]. split; [reflexivity|]. split; [rewrite tally_app; apply quiet_handled in Q; lia|]. apply M2. now apply stage_quiet.
Qed.
Lemma cancel_quiet r e1 e2 : quiet e2 -> cancel_waits r (e1 ++ e2) = cancel_waits r e1.
Proof.
  revert e1. induction e2 as [|x e2 IH]; intros e1 Q; [now rewrite app_nil_r|]. unfold quiet in Q. rewrite tally_cons in Q. pose proof (tally_ge0 of_service e2).
  assert (of_service x = false /\ quiet e2) as [X Q2] by (unfold quiet; destruct (of_service x); cbn [b2z] in Q; split; auto; lia).
  change (x :: e2) with ([x] ++ e2). rewrite app_assoc, (IH _ Q2), cancel_waits_snoc. destruct x; try reflexivity; discriminate X.
Qed.
Lemma cancel_after q r e1 e2 : is_type REQUEST q = true -> quiet e2 -> cancel_waits r (e1 ++ KHandled q :: e2) = cancel_waits r e1.
Proof.
  intros A Q. change (KHandled q :: e2) with ([KHandled q] ++ e2). rewrite app_assoc, (cancel_quiet _ _ _ Q), cancel_waits_snoc. unfold is_type in *. apply Z.eqb_eq in A. now rewrite A.
Qed.
Lemma service_step s ev a s' e : base_ok s -> kinds_ok s -> flags_ok s ev -> service_ok s ev -> kexec s a = Some (s', e) -> service_ok s' (ev ++ e).
Proof.
  intros B K FL S H. destruct a as [t c|l|f|m].
  2,3,4: assert (0 < List.length (k_threads s))%nat as P by (destruct B as (_ & _ & _ & [h0 H0] & _); apply nth_error_Some; congruence);
    apply (service_quiet s _ _ _ S); kopen H; kfields; try reflexivity; now rewrite nth_error_app1.
  destruct (nth_error (k_threads s) t) as [th|] eqn:E; [|unfold kexec in H; rewrite E in H; destruct (k_crashed s); discriminate].
  destruct th as [h| | | | |]. 2-6: (destruct (other_step s t c _ s' e B K E ltac:(discriminate) H) as [A Q]; now apply (service_quiet s)).
  assert (t = O) as -> by (destruct B as (_ & _ & _ & _ & U); eauto).
  assert (0 < List.length (k_threads s))%nat as P by (apply nth_error_Some; congruence).
  destruct S as (h' & E' & C). rewrite E in E'. injection E' as <-. destruct B as (F & _). destruct FL as (_ & Ck & _ & Cw).
  pose proof (fun m => proj1 (complete_threads None s (brought m) F)) as CC. pose proof (proj1 (choke_all_threads s F)) as CA.
  unfold kexec in H. rewrite E in H. kopen H; unfold service_ok; kfields; rewrite ?CC, ?CA.
  all: try (eexists; split; [now apply list_set_nth_eq|]).
  all: try (eexists; split; [exact E|rewrite app_nil_r; exact C]).
  (* a message is handled *)
  all: try (right; exists m, ev, []; split; [reflexivity|]; split; [reflexivity|]; cbn [stage]; types; try exact I; try (intros; discriminate); try reflexivity;
    repeat split; solve [reflexivity|congruence]).
  (* nothing of interest *)
  all: try (eapply service_move; [exact C|reflexivity|cbn; tauto|cbn [stage]; intros; solve [tauto|congruence]]).
  all: destruct C as [[_ W]|(q & e1 & e2 & -> & N & St)]; [now destruct W|]; right; exists q, e1; cbn [stage] in St.
  all: rewrite ?app_nil_r; try (eexists; rewrite <- app_assoc; cbn [app]; split; [reflexivity|]; split; [rewrite tally_app, N; reflexivity|exact I]).
  - destruct St as (A & <- & B & Q). eexists. rewrite <- app_assoc. cbn [app]. split; [reflexivity|]. split; [rewrite tally_app, N; reflexivity|]. intros _.
    split; [exact B|]. left. rewrite Cw, (cancel_after _ _ _ _ A Q) in Heqb0. split; [exact Heqb0|]. exists e2, []. repeat split. exact Q.
  - destruct St as (A & <- & B & Q). exists e2. split; [reflexivity|]. split; [exact N|]. rewrite Cw, (cancel_after _ _ _ _ A Q) in Heqb0. cbn [stage]. auto.
  - destruct St as (A & <- & B & D & Q). eexists. rewrite <- app_assoc. cbn [app]. split; [reflexivity|]. split; [rewrite tally_app, N; reflexivity|].
    cbn [stage]. repeat split; try assumption. exists e2, []. repeat split. exact Q.
  - destruct St as (A & Aq & B & D & ea & eb & -> & Q1 & Q2). eexists. rewrite <- app_assoc. cbn [app]. split; [reflexivity|]. split; [rewrite tally_app, N; reflexivity|].
    intros _. split; [exact B|]. right. change (named q) with (asked q). rewrite Aq. split; [exact D|]. exists ea, eb, d, []. rewrite <- app_assoc. cbn [app]. unfold answer_to. unfold asked in Aq. injection Aq as Ai Ab Al. subst.
    repeat split; assumption.
Qed.
Lemma service_run l s ev : krun_of l s ev -> service_ok s ev.
Proof.
  intros R. apply (krun_inv (fun s ev => kinds_ok s /\ flags_ok s ev /\ service_ok s ev) l s ev); [| |exact R].
  - split; [intros [|[|t]]; discriminate|]. split; [repeat split|]. exists CRead. split; [reflexivity|]. left. split; [reflexivity|exact I].
  - intros s1 ev1 a s2 e B (K & FL & S) E. split; [eapply kinds_step; eauto|]. split; [eapply flags_step; eauto|eapply service_step; eauto].
Qed.
(** The step at which an event happened. *)
Lemma runs_event l : forall s0 s x e, kruns s0 l = Some (s, x :: e) -> exists l1 s1 a s2 l2, l = l1 ++ a :: l2 /\ kruns s0 l1 = Some (s1, []) /\ kexec s1 a = Some (s2, [x]) /\ kruns s2 l2 = Some (s, e).
Proof.
  induction l as [|a l IH]; intros s0 s x e H; cbn [kruns] in H; [discriminate|]. destruct (kexec s0 a) as [[s1 e1]|] eqn:E; [|discriminate].
  destruct (kruns s1 l) as [[s2 e2]|] eqn:R; [|discriminate]. injection H as -> H. destruct (step_events _ _ _ _ E) as [->|[y ->]]; cbn [app] in H.
  - subst e2. destruct (IH _ _ _ _ R) as (l1 & s3 & b & s4 & l2 & -> & R1 & E1 & R2). exists (a :: l1), s3, b, s4, l2. cbn [kruns app]. rewrite E, R1. auto.
  - injection H as -> ->. exists [], s0, a, s1, l. auto.
Qed.
Lemma run_event l s e1 x e2 : krun_of l s (e1 ++ x :: e2) ->
  exists l1 s1 a s2 l2, l = l1 ++ a :: l2 /\ krun_of l1 s1 e1 /\ kexec s1 a = Some (s2, [x]) /\ kgoes_on s2 l2 s e2.
Proof.
  intros R. destruct (run_split _ _ _ _ R) as (l1 & l2 & s1 & -> & R1 & G). destruct (runs_event _ _ _ _ _ G) as (m1 & s2 & a & s3 & m2 & -> & Rm & E & G2).
  exists (l1 ++ m1), s2, a, s3, m2. rewrite <- app_assoc. split; [reflexivity|]. split; [|auto]. rewrite <- (app_nil_r e1). eapply goes_on_run; eauto.
Qed.
Lemma zeros_cons p e l : tally p (e :: l) = 0 -> p e = false /\ tally p l = 0.
Proof. rewrite tally_cons. pose proof (tally_ge0 p l). destruct (p e); cbn [b2z]; split; auto; lia. Qed.
Lemma last_handled q e1 e2 q' e1' e2' : e1 ++ KHandled q :: e2 = e1' ++ KHandled q' :: e2' -> tally any_handled e2 = 0 -> tally any_handled e2' = 0 -> e1 = e1' /\ q = q' /\ e2 = e2'.
Proof.
  revert e1'. induction e1 as [|x e1 IH]; intros [|y e1'] H N N'; cbn [app] in H.
  - injection H as <- <-. auto.
  - injection H as <- ->. rewrite tally_app, tally_cons in N. cbn [any_handled b2z] in N. pose proof (tally_ge0 any_handled e1'). lia.
  - injection H as -> <-. rewrite tally_app, tally_cons in N'. cbn [any_handled b2z] in N'. pose proof (tally_ge0 any_handled e1). lia.
  - injection H as -> H. destruct (IH _ H N N') as (-> & -> & ->). auto.
Qed.
Ltac at_step H := match type of H with kexec ?s ?a = Some (?s2, [?x]) =>
  let ev := fresh in remember [x] as ev eqn:Eev; kopen H; try discriminate Eev; try (injection Eev as Eev) end.
Lemma pieces_answer l s e1 m e2 : krun_of l s (e1 ++ KSent m :: e2) -> is_type PIECE m = true ->
  exists q e0 ea eb d, e1 = e0 ++ KHandled q :: ea ++ KLooked (asked q) :: eb /\ m = answer_to q d /\ is_type REQUEST q = true /\
    we_choke e0 = false /\ cancel_waits (asked q) e0 = false /\ quiet ea /\ quiet eb.
Proof.
  intros R T. destruct (run_event _ _ _ _ _ R) as (l1 & s1 & a & s2 & l2 & -> & R1 & E & G). pose proof (service_run _ _ _ R1) as (h & H & C).
  destruct (base_run _ _ _ R1) as (_ & _ & _ & _ & U). pose proof (kinds_run _ _ _ R1) as K.
  at_step E; subst m; try discriminate T.
  - rewrite (U _ _ Heqo) in Heqo. rewrite Heqo in H. injection H as <-. destruct C as [[_ []]|(q & e0 & e3 & -> & N & A & Aq & B & D & ea & eb & -> & Q1 & Q2)].
    exists q, e0, ea, eb, d. unfold answer_to. rewrite <- Aq in *. unfold asked in Aq. injection Aq as Ai Ab Al. subst. repeat split; try assumption.
  - rewrite request_type in T. discriminate.
  - rewrite (proj2 (flag_other _)) in T. discriminate.
  - rewrite (other_type PIECE _ (K _ _ _ Heqo) eq_refl) in T. discriminate.
  - match goal with E : (m_type ?a =? BITFIELD) && (m_type ?b =? BITFIELD) = true |- _ => rewrite (other_type PIECE b (bits_kind a b E) eq_refl) in T end. discriminate.
Qed.
Lemma requests_served l s e1 q e2 m e3 : krun_of l s (e1 ++ KHandled q :: e2 ++ KHandled m :: e3) -> tally any_handled e2 = 0 -> is_type REQUEST q = true -> done_request q e1 e2.
Proof.
  intros R N T. assert (krun_of l s ((e1 ++ KHandled q :: e2) ++ KHandled m :: e3)) as R' by (rewrite <- app_assoc; exact R).
  destruct (run_event _ _ _ _ _ R') as (l1 & s1 & a & s2 & l2 & -> & R1 & E & G). pose proof (service_run _ _ _ R1) as (h & H & C).
  destruct (base_run _ _ _ R1) as (_ & _ & _ & _ & U).
  assert (h = CHandle m) as ->.
  { at_step E; subst; match goal with X : nth_error (k_threads s1) _ = Some (TServe _) |- _ => rewrite (U _ _ X) in X; rewrite X in H; injection H as <- end; reflexivity. }
  destruct C as [[Z0 _]|(q' & e1' & e2' & Q & N' & St)].
  - rewrite tally_app, tally_cons in Z0. cbn [of_service b2z] in Z0. pose proof (tally_ge0 of_service e1). pose proof (tally_ge0 of_service e2). lia.
  - destruct (last_handled _ _ _ _ _ _ Q N N') as (-> & -> & ->). exact (St T).
Qed.
Lemma dropped_cancelled l s e1 r e2 : krun_of l s (e1 ++ KSuppressed r :: e2) ->
  cancel_waits r e1 = true /\ exists q ea eb, e1 = ea ++ KHandled q :: eb /\ is_type REQUEST q = true /\ asked q = r /\ quiet eb.
Proof.
  intros R. destruct (run_event _ _ _ _ _ R) as (l1 & s1 & a & s2 & l2 & -> & R1 & E & G). pose proof (service_run _ _ _ R1) as (h & H & C).
  destruct (base_run _ _ _ R1) as (_ & _ & _ & _ & U). destruct (flags_run _ _ _ R1) as (_ & _ & _ & Cw).
  at_step E; subst. rewrite (U _ _ Heqo) in Heqo. rewrite Heqo in H. injection H as <-. rewrite Cw in Heqb0. split; [exact Heqb0|].
  destruct C as [[_ []]|(q & e0 & e3 & -> & N & A & Aq & B & Q)]. exists q, e0, e3. auto.
Qed.
Lemma looked_not_cancelled l s e1 r e2 : krun_of l s (e1 ++ KLooked r :: e2) ->
  cancel_waits r e1 = false /\ exists q ea eb, e1 = ea ++ KHandled q :: eb /\ is_type REQUEST q = true /\ asked q = r /\ we_choke ea = false /\ quiet eb.
Proof.
  intros R. destruct (run_event _ _ _ _ _ R) as (l1 & s1 & a & s2 & l2 & -> & R1 & E & G). pose proof (service_run _ _ _ R1) as (h & H & C).
  destruct (base_run _ _ _ R1) as (_ & _ & _ & _ & U).
  at_step E; subst; rewrite (U _ _ Heqo) in Heqo; rewrite Heqo in H; injection H as <-;
  destruct C as [[_ []]|(q & e0 & e3 & -> & N & A & Aq & B & D & Q)]; (split; [now rewrite (cancel_after _ _ _ _ A Q)|]); exists q, e0, e3; auto.
Qed.

(** * The order of the messages of the flags *)
Definition lag (f : flag) (ev : list kevent) : Z := tally (changed f) ev - tally (sent (ftype f)) ev.
Lemma lag_snoc f ev x : lag f (ev ++ [x]) = lag f ev + b2z (changed f x) - b2z (sent (ftype f) x).
Proof. unfold lag. rewrite !tally_app, !tally_cons, !tally_nil. lia. Qed.
Lemma flag_refl f : flag_eqb f f = true. Proof. now destruct f. Qed.
Lemma told_in_turn up down b ev : up <> down -> (forall p q f, ev = p ++ q -> 0 <= lag f p) -> in_turn up down ev ->
  (lag up ev = 0 /\ lag down ev = 0 /\ flag_told up down b ev = flag_now up down b ev) \/
  (exists f e1 e2, In f [up; down] /\ (lag up ev = b2z (flag_eqb f up) /\ lag down ev = b2z (flag_eqb f down)) /\ flag_now up down b ev = flag_eqb f up /\
    ev = e1 ++ KChange f :: e2 /\ tally (sent (ftype f)) e2 = 0).
Proof.
  intros ND. assert (flag_eqb up down = false /\ flag_eqb down up = false) as [UD DU].
  { split; apply not_true_iff_false; rewrite flag_iff; congruence. }
  assert (forall m, is_type (ftype up) m = true -> is_type (ftype down) m = false) as TX.
  { intros m A. unfold is_type in *. apply Z.eqb_eq in A. rewrite A. destruct up, down; try reflexivity; discriminate. }
  induction ev as [|x ev IH] using rev_ind; intros P IT; [left; repeat split|].
  destruct IH as [(L1 & L2 & Q)|(f & e1 & e2 & If & (L1 & L2) & Nw & -> & S0)].
  { intros p q f ->. apply (P p (q ++ [x]) f). now rewrite app_assoc. }
  { intros e1 f e2 g e3 -> I1 I2. apply (IT e1 f e2 g (e3 ++ [x])); [|exact I1|exact I2]. rewrite <- !app_assoc. cbn [app]. now rewrite <- !app_assoc. }
  - pose proof (P (ev ++ [x]) [] up (eq_sym (app_nil_r _))) as P1. pose proof (P (ev ++ [x]) [] down (eq_sym (app_nil_r _))) as P2. rewrite lag_snoc in P1, P2.
    rewrite !lag_snoc. unfold flag_told, flag_now in *. rewrite !fold_snoc.
    destruct (changed up x) eqn:CU; [|destruct (changed down x) eqn:CD].
    + right. destruct x; try discriminate CU. cbn [changed] in CU. apply flag_iff in CU as <-. exists up, ev, []. cbn [changed sent b2z]. rewrite flag_refl, UD, DU. cbn [b2z]. repeat split; try (left; reflexivity); lia.
    + right. destruct x; try discriminate CD. cbn [changed] in CD. apply flag_iff in CD as <-. exists down, ev, []. cbn [changed sent b2z]. rewrite flag_refl, DU. cbn [b2z]. repeat split; try (right; left; reflexivity); lia.
    + cbn [b2z] in *. left. destruct (sent (ftype up) x) eqn:SU; cbn [b2z] in *; [lia|]. destruct (sent (ftype down) x) eqn:SD; cbn [b2z] in *; [lia|]. repeat split; try lia. exact Q.
  - pose proof (P _ [] up (eq_sym (app_nil_r _))) as P1. pose proof (P _ [] down (eq_sym (app_nil_r _))) as P2. rewrite lag_snoc in P1, P2.
    assert (changed up x = false /\ changed down x = false) as [CU CD].
    { destruct x as [| |g| | | | | | | | |]; try (split; reflexivity). assert (~ In g [up; down]) as N.
      { intros I. specialize (IT e1 f e2 g [] ltac:(now rewrite <- app_assoc) If I). lia. }
      split; apply not_true_iff_false; cbn [changed]; rewrite flag_iff; intros <-; apply N; cbn; tauto. }
    rewrite !lag_snoc, CU, CD in *. cbn [b2z] in *. unfold flag_told, flag_now in *. rewrite !fold_snoc, CU, CD in *.
    destruct (sent (ftype f) x) eqn:SF.
    + left. destruct If as [<-|[<-|[]]].
      * rewrite flag_refl, UD in *. rewrite SF. cbn [b2z] in *. destruct (sent (ftype down) x) eqn:SD; cbn [b2z] in *; [lia|]. repeat split; try lia. congruence.
      * rewrite flag_refl, DU in *. rewrite SF. cbn [b2z] in *. destruct (sent (ftype up) x) eqn:SD; cbn [b2z] in *; [lia|]. repeat split; try lia. congruence.
    + right. exists f, e1, (e2 ++ [x]). rewrite <- app_assoc. cbn [app]. rewrite tally_app, tally_cons, tally_nil, SF, S0. cbn [b2z].
      assert (sent (ftype up) x = false /\ sent (ftype down) x = false) as [SU SD].
      { destruct If as [<-|[<-|[]]]; rewrite flag_refl, ?UD, ?DU in *; cbn [b2z] in *.
        - split; [exact SF|]. destruct (sent (ftype down) x); cbn [b2z] in *; [lia|reflexivity].
        - split; [|exact SF]. destruct (sent (ftype up) x); cbn [b2z] in *; [lia|reflexivity]. }
      rewrite SU, SD. cbn [b2z]. repeat split; try assumption; try lia.
Qed.
Lemma flags_told up down b l s ev : krun_of l s ev -> up <> down -> in_turn up down ev -> tally (failed (ftype up)) ev = 0 -> tally (failed (ftype down)) ev = 0 -> settled_flags s ->
  flag_told up down b ev = flag_now up down b ev.
Proof.
  intros R ND IT F1 F2 S.
  assert (forall f, count (mid f) (k_threads s) = 0) as M0.
  { intros f. apply count_0. intros th I. destruct (S th I) as [A B]. destruct th as [[]| | |g [p|]| |]; try reflexivity; exfalso; [now apply (B p)|now apply (A g p)]. }
  assert (forall p q f, ev = p ++ q -> 0 <= tally (changed f) p - tally (sent (ftype f)) p) as P.
  { intros p q f ->. destruct (run_split _ _ _ _ R) as (l1 & l2 & s1 & -> & R1 & _). pose proof (moved_run f _ _ _ R1) as M. unfold moved in M.
    pose proof (count_ge0 (mid f) (k_threads s1)). pose proof (tally_ge0 (failed (ftype f)) p). lia. }
  destruct (told_in_turn up down b ev ND P IT) as [(_ & _ & Q)|(f & e1 & e2 & If & (L1 & L2) & _)]; [exact Q|exfalso].
  pose proof (moved_run up _ _ _ R) as M1. pose proof (moved_run down _ _ _ R) as M2. unfold moved in M1, M2. rewrite M0 in M1, M2. unfold lag in L1, L2.
  destruct If as [<-|[<-|[]]]; rewrite flag_refl in *; cbn [b2z] in *; lia.
Qed.

(** * Calls of requestBlock *)
Definition call_ok (t : nat) (s : kstate) (ev : list kevent) : Prop :=
  let n := (tally (ev_pending t) ev, tally (ev_returned t) ev, tally (ev_refused t) ev) in
  match nth_error (k_threads s) t with
  | Some (TAsk r QDone) => n = (1, 1, 0) \/ n = (0, 0, 1)
  | Some (TAsk r (QSend _ _ | QWait _ | QLeave _)) => n = (1, 0, 0)
  | _ => n = (0, 0, 0)
  end.
Lemma call_same t s s' ev e : call_ok t s ev -> nth_error (k_threads s') t = nth_error (k_threads s) t ->
  tally (ev_pending t) e = 0 -> tally (ev_returned t) e = 0 -> tally (ev_refused t) e = 0 -> call_ok t s' (ev ++ e).
Proof. unfold call_ok. intros C -> A B D. cbv zeta. rewrite !tally_app, A, B, D, !Z.add_0_r. exact C. Qed.
Lemma call_spawn u x s ev e : call_ok u s ev -> match x with TAsk _ QFirst => true | TAsk _ _ => false | _ => true end = true ->
  tally (ev_pending u) e = 0 -> tally (ev_returned u) e = 0 -> tally (ev_refused u) e = 0 -> call_ok u (kspawn x s) (ev ++ e).
Proof.
  unfold call_ok. intros P X A B D. kfields. cbv zeta. rewrite !tally_app, A, B, D, !Z.add_0_r. destruct (Nat.lt_ge_cases u (List.length (k_threads s))) as [L|L]; [now rewrite nth_error_app1|].
  rewrite nth_error_app2 by easy. rewrite (proj2 (nth_error_None _ _) L) in P. destruct (u - List.length (k_threads s))%nat as [|k]; [|destruct k; exact P].
  cbn [nth_error]. destruct x as [| |? []| | |]; try discriminate X; exact P.
Qed.
Lemma call_step s ev a s' e : base_ok s -> (forall t, call_ok t s ev) -> kexec s a = Some (s', e) -> forall t, call_ok t s' (ev ++ e).
Proof.
  intros (F & _) P H u. specialize (P u).
  pose proof (fun m => proj1 (complete_threads None s (brought m) F)) as CC. pose proof (proj1 (choke_all_threads s F)) as CA.
  assert (forall v y, nth_error (k_threads s) v = Some y -> (v < List.length (k_threads s))%nat) as Lt by (intros v y Hv; apply nth_error_Some; congruence).
  kopen H; swaps.
  (* threads that are there *)
  all: try (destruct (Nat.eq_dec u t) as [->|N];
    [|apply (call_same u s); [exact P|kfields; rewrite ?CC, ?CA, ?list_set_nth_neq by congruence; reflexivity| | |]; rewrite ?tally_cons, ?tally_nil; cbn [ev_pending ev_returned ev_refused];
      rewrite ?(proj2 (Nat.eqb_neq t u)) by congruence; reflexivity]).
  all: try (apply (call_same u s); [exact P|reflexivity|reflexivity|reflexivity|reflexivity]).
  all: try (unfold call_ok in *; kfields; rewrite ?CC, ?CA; rewrite list_set_nth_eq by eauto;
    match goal with X : nth_error (k_threads _) _ = Some _ |- _ => rewrite X in P end; cbv zeta in *; rewrite !tally_app, ?tally_cons, ?tally_nil; cbn [ev_pending ev_returned ev_refused];
    rewrite ?Nat.eqb_refl; cbn [b2z]; try (left; congruence);
    injection P as P1 P2 P3; rewrite P1, P2, P3; solve [reflexivity|left; reflexivity|right; reflexivity]).
  - rewrite app_nil_r. exact P.
  - apply call_spawn; try reflexivity. rewrite <- (app_nil_r ev). destruct (Nat.eq_dec u t) as [->|N].
    + unfold call_ok in *. kfields. rewrite list_set_nth_eq by eauto. rewrite Heqo in P. now rewrite app_nil_r.
    + apply (call_same u s); [exact P|kfields; now rewrite list_set_nth_neq by congruence| | |]; reflexivity.
  - now apply call_spawn.
  - now apply call_spawn.
  - now apply call_spawn.
Qed.
Lemma call_run l s ev : krun_of l s ev -> forall t, call_ok t s ev.
Proof. apply (krun_inv (fun s ev => forall t, call_ok t s ev)); [intros [|[|t]]; reflexivity|]. intros. eapply call_step; eauto. Qed.

(** * Futures and answers *)
Lemma first_app r a b : first_answer r (a ++ b) = match first_answer r a with Some v => Some v | None => first_answer r b end.
Proof. induction a as [|x a IH]; [reflexivity|]. destruct x; cbn [first_answer app]; try exact IH. destruct (_ && _); [reflexivity|]. destruct (is_type CHOKE m); [reflexivity|exact IH]. Qed.
Definition of_recv (e : kevent) : bool := match e with KRecv _ => true | _ => false end.
Lemma first_quiet r b : tally of_recv b = 0 -> first_answer r b = None.
Proof. induction b as [|x b IH]; [reflexivity|]. intros Z0. apply zeros_cons in Z0 as [A B]. destruct x; try discriminate A; cbn [first_answer]; auto. Qed.
(** The future f of a call for r, with the events e2 since the call was entered. *)
Definition live (s : kstate) (e2 : list kevent) (r : breq) (f : nat) : Prop :=
  (f < List.length (k_futs s))%nat /\
  (forall v, nth_error (k_futs s) f = Some (Some v) -> first_answer r e2 = Some v) /\
  (mget breq_eqb r (k_inflight s) = Some f -> first_answer r e2 = None) /\
  (forall r', mget breq_eqb r' (k_inflight s) = Some f -> r' = r) /\
  (tally (returned_of r) e2 = 0 -> match first_answer r e2 with None => mget breq_eqb r (k_inflight s) = Some f | Some v => nth_error (k_futs s) f = Some (Some v) end).
Lemma live_frame0 s s' e2 e r f : live s e2 r f -> k_inflight s' = k_inflight s -> k_futs s' = k_futs s -> first_answer r e = None -> live s' (e2 ++ e) r f.
Proof.
  unfold live. intros (A & B & C & D & G) -> -> Q. rewrite first_app, Q.
  assert (forall x : option (option cerr), match x with Some v => Some v | None => None end = x) as X by (now intros []). rewrite !X.
  split; [exact A|]. split; [exact B|]. split; [exact C|]. split; [exact D|]. rewrite tally_app. pose proof (tally_ge0 (returned_of r) e2). pose proof (tally_ge0 (returned_of r) e). intros Z0. apply G. lia.
Qed.
Lemma live_frame s s' e2 e r f : live s e2 r f -> k_inflight s' = k_inflight s -> k_futs s' = k_futs s -> tally of_recv e = 0 -> live s' (e2 ++ e) r f.
Proof. intros L A B Q. apply (live_frame0 s); auto. now apply first_quiet. Qed.
Lemma breq_refl r : breq_eqb r r = true. Proof. now apply breq_iff. Qed.
Lemma complete_length o s r : List.length (k_futs (complete o s r)) = List.length (k_futs s).
Proof.
  unfold complete. destruct (mget breq_eqb r (k_inflight s)) as [f|]; [|reflexivity]. destruct (nth_error (k_futs s) f) as [[v|]|]; try reflexivity.
  kfields. apply list_set_length.
Qed.
Lemma live_keep s a s' e e2 r f : base_ok s -> kexec s a = Some (s', e) -> live s e2 r f -> live s' (e2 ++ e) r f.
Proof.
  intros (F & _) H LV. kopen H; swaps; try (apply (live_frame s _ _ _ _ _ LV); reflexivity).
  - (* PIECE *) destruct LV as (A & B & C & D & G). destruct (complete_spec None s (brought m) F) as (F' & _ & M1 & M2 & M3). destruct F as (ND & Un & In1).
    unfold live. kfields. rewrite first_app. cbn [first_answer]. unfold is_type. rewrite Heqb0. cbn [andb]. rewrite tally_app, tally_cons, tally_nil. cbn [returned_of b2z]. change same with breq_eqb. change (carried m) with (brought m).
    assert (List.length (k_futs (complete None s (brought m))) = List.length (k_futs s)) as Ln
      by (apply complete_length).
    rewrite Ln. split; [exact A|]. rewrite !M1. destruct (breq_eqb (brought m) r) eqn:Q.
    + apply breq_iff in Q. rewrite Q in *. split; [|split; [discriminate|split; [|]]].
      * intros v Hv. destruct (mget breq_eqb r (k_inflight s)) as [f0|] eqn:E0.
        -- destruct (Nat.eq_dec f0 f) as [->|N]; [rewrite (M2 f eq_refl) in Hv; injection Hv as <-; now rewrite (C eq_refl)|]. rewrite M3 in Hv by congruence. now rewrite (B _ Hv).
        -- rewrite M3 in Hv by discriminate. now rewrite (B _ Hv).
      * intros r'. rewrite M1. destruct (breq_eqb r r'); [discriminate|apply D].
      * intros Z0. specialize (G ltac:(lia)). destruct (first_answer r e2) as [v|] eqn:E1.
        -- rewrite M3; [exact G|]. intros E0. rewrite (Un _ _ E0) in G. discriminate.
        -- now apply M2.
    + assert (forall x, match first_answer r e2 with Some v => Some v | None => if m_type m =? CHOKE then Some (Some EChoked) else None end = x -> first_answer r e2 = x) as X.
      { intros x. apply Z.eqb_eq in Heqb0. rewrite Heqb0. cbn. now destruct (first_answer r e2). }
      assert (match first_answer r e2 with Some v => Some v | None => if m_type m =? CHOKE then Some (Some EChoked) else None end = first_answer r e2) as Y by (symmetry; now apply X). rewrite Y. clear X Y.
      assert (nth_error (k_futs (complete None s (brought m))) f = nth_error (k_futs s) f) as Nf.
      { apply M3. intros E0. apply D in E0. rewrite E0, breq_refl in Q. discriminate. }
      rewrite Nf. split; [exact B|]. split; [exact C|]. split; [intros r'; rewrite M1; destruct (breq_eqb (brought m) r'); [discriminate|apply D]|]. intros Z0. apply G. lia.
  - (* CHOKE *) destruct LV as (A & B & C & D & G). destruct (choke_all_spec s F) as (F' & _ & M1 & M2 & M3). destruct F as (ND & Un & In1).
    unfold live. kfields. rewrite first_app. cbn [first_answer]. unfold is_type. rewrite Heqb0, Heqb1. cbn [andb]. rewrite tally_app, tally_cons, tally_nil. cbn [returned_of b2z]. change same with breq_eqb. change (carried m) with (brought m).
    assert (forall ks s0, List.length (k_futs (fold_left (complete (Some EChoked)) ks s0)) = List.length (k_futs s0)) as Ln.
    { induction ks as [|k0 ks IH]; intros s0; cbn [fold_left]; [reflexivity|]. rewrite IH. apply complete_length. }
    rewrite Ln. split; [exact A|]. rewrite M1. split; [|split; [discriminate|split; [intros r'; rewrite M1; discriminate|]]].
    + intros v Hv. destruct (first_answer r e2) as [v'|] eqn:E1.
      * rewrite M3 in Hv; [exact (B _ Hv)|]. intros r' E0. pose proof (D _ E0) as ->. specialize (C E0). congruence.
      * destruct (mget breq_eqb r (k_inflight s)) as [f0|] eqn:E0; [destruct (Nat.eq_dec f0 f) as [->|N]|].
        -- rewrite (M2 _ _ E0) in Hv. congruence.
        -- rewrite M3 in Hv; [now apply B in Hv|]. intros r' E2. pose proof (D _ E2). subst r'. congruence.
        -- rewrite M3 in Hv; [now apply B in Hv|]. intros r' E2. pose proof (D _ E2). subst r'. congruence.
    + intros Z0. specialize (G ltac:(lia)). destruct (first_answer r e2) as [v|] eqn:E1.
      * rewrite M3; [exact G|]. intros r' E0. rewrite (Un _ _ E0) in G. discriminate.
      * now apply (M2 r).
  - (* another message *) apply (live_frame0 s _ _ _ _ _ LV); try reflexivity. cbn [first_answer]. unfold is_type. now rewrite Heqb0, Heqb1.
  - (* a new future *) destruct LV as (A & B & C & D & G).
    unfold live. kfields. rewrite first_app, tally_app, tally_cons, tally_nil. cbn [first_answer returned_of b2z]. change same with breq_eqb.
    assert (forall x : option (option cerr), match x with Some v => Some v | None => None end = x) as X by (now intros []). rewrite !X.
    rewrite app_length. split; [cbn; lia|]. rewrite nth_error_app1 by easy. split; [exact B|].
    rewrite mget_put, (mget_del _ breq_iff). destruct (breq_eqb r0 r) eqn:Q.
    + apply breq_iff in Q as ->. split; [intros [= <-]; lia|]. split.
      * intros r'. rewrite mget_put, (mget_del _ breq_iff). destruct (breq_eqb r r') eqn:Q; [intros [= <-]; lia|apply D].
      * intros Z0. specialize (G ltac:(lia)). destruct (first_answer r e2); [exact G|congruence].
    + split; [exact C|]. split; [|intros Z0; specialize (G ltac:(lia)); exact G].
      intros r'. rewrite mget_put, (mget_del _ breq_iff). destruct (breq_eqb r0 r') eqn:Q'; [intros [= <-]; lia|apply D].
  - (* a return *) destruct LV as (A & B & C & D & G).
    unfold live. kfields. rewrite first_app, tally_app, tally_cons, tally_nil. cbn [first_answer returned_of]. change same with breq_eqb.
    assert (forall x : option (option cerr), match x with Some v => Some v | None => None end = x) as X by (now intros []). rewrite !X.
    split; [exact A|]. split; [exact B|]. rewrite (mget_del _ breq_iff). destruct (breq_eqb r0 r) eqn:Q; cbn [b2z].
    + split; [discriminate|]. split; [|pose proof (tally_ge0 (returned_of r) e2); lia]. intros r'. rewrite (mget_del _ breq_iff). destruct (breq_eqb r0 r'); [discriminate|apply D].
    + split; [exact C|]. split; [|intros Z0; apply G; lia]. intros r'. rewrite (mget_del _ breq_iff). destruct (breq_eqb r0 r'); [discriminate|apply D].
Qed.
Definition after_pending (t : nat) (r : breq) (ev e1 e2 : list kevent) : Prop := ev = e1 ++ KPending t r :: e2.
Definition ans_ok (s : kstate) (ev : list kevent) : Prop :=
  forall t r q, nth_error (k_threads s) t = Some (TAsk r q) ->
  match q with
  | QSend f _ => exists e1 e2, after_pending t r ev e1 e2 /\ live s e2 r f
  | QWait f => exists e1 e2, after_pending t r ev e1 e2 /\ live s e2 r f /\ In (KSent (request_of r)) e2
  | QLeave o => exists e1 e2, after_pending t r ev e1 e2 /\ outcome r (e1 ++ [KPending t r]) e2 o
  | _ => True
  end.
Lemma after_more t r ev e1 e2 e : after_pending t r ev e1 e2 -> after_pending t r (ev ++ e) e1 (e2 ++ e).
Proof. unfold after_pending. intros ->. now rewrite <- app_assoc. Qed.
Lemma outcome_more r e1 e2 e o : outcome r e1 e2 o -> outcome r e1 (e2 ++ e) o.
Proof.
  destruct o as [[]|]; cbn [outcome].
  - intros [A|(ea & eb & -> & A)]; [left; now rewrite first_app, A|]. right. exists ea, (eb ++ e). now rewrite app_assoc.
  - rewrite in_app_iff. auto.
  - rewrite in_app_iff. auto.
  - intros A. now rewrite first_app, A.
Qed.
(** Calls that do not move. *)
Lemma ans_keep s ev a s' e t r q : base_ok s -> ans_ok s ev -> kexec s a = Some (s', e) -> nth_error (k_threads s) t = Some (TAsk r q) ->
  match q with
  | QSend f _ => exists e1 e2, after_pending t r (ev ++ e) e1 e2 /\ live s' e2 r f
  | QWait f => exists e1 e2, after_pending t r (ev ++ e) e1 e2 /\ live s' e2 r f /\ In (KSent (request_of r)) e2
  | QLeave o => exists e1 e2, after_pending t r (ev ++ e) e1 e2 /\ outcome r (e1 ++ [KPending t r]) e2 o
  | _ => True
  end.
Proof.
  intros B A H E. specialize (A t r q E). destruct q; try exact I; destruct A as (e1 & e2 & A & L); exists e1, (e2 ++ e); (split; [now apply after_more|]).
  - eapply live_keep; eauto.
  - destruct L as [L W]. split; [eapply live_keep; eauto|]. rewrite in_app_iff. auto.
  - now apply outcome_more.
Qed.
Lemma live_new s r f : futs_ok s -> mget breq_eqb r (k_inflight s) = Some f -> live s [] r f.
Proof.
  intros (ND & Un & In1) E. unfold live. cbn [first_answer]. split; [apply nth_error_Some; rewrite (Un _ _ E); discriminate|]. rewrite (Un _ _ E).
  split; [discriminate|]. split; [reflexivity|]. split; [intros r' H; eapply In1; eauto|]. intros _. exact E.
Qed.
Lemma first_values r ev v : first_answer r ev = Some v -> v = None \/ v = Some EChoked.
Proof.
  induction ev as [|x ev IH]; [discriminate|]. destruct x; cbn [first_answer]; try exact IH. destruct (_ && _); [intros [= <-]; auto|]. destruct (is_type CHOKE m); [intros [= <-]; auto|exact IH].
Qed.
Lemma ans_step s ev a s' e : base_ok s -> flags_ok s ev -> ans_ok s ev -> kexec s a = Some (s', e) -> ans_ok s' (ev ++ e).
Proof.
  intros B FL A H t r q E. pose proof (base_step _ _ _ _ B H) as B'. pose proof H as H'.
  assert (forall q0, nth_error (k_threads s) t = Some (TAsk r q0) -> q0 = q -> match q with
  | QSend f _ => exists e1 e2, after_pending t r (ev ++ e) e1 e2 /\ live s' e2 r f
  | QWait f => exists e1 e2, after_pending t r (ev ++ e) e1 e2 /\ live s' e2 r f /\ In (KSent (request_of r)) e2
  | QLeave o => exists e1 e2, after_pending t r (ev ++ e) e1 e2 /\ outcome r (e1 ++ [KPending t r]) e2 o
  | _ => True
  end) as Keep by (intros q0 E0 <-; exact (ans_keep s ev a s' e t r q0 B A H' E0)).
  assert (futs_ok s) as F by apply B.
  pose proof (fun m => proj1 (complete_threads None s (brought m) F)) as CC. pose proof (proj1 (choke_all_threads s F)) as CA.
  kopen H; swaps; kfields_in E; rewrite ?CC, ?CA in E; thread_in E; try discriminate; try (eapply Keep; [eassumption|reflexivity]).
  all: match goal with X : TAsk _ _ = TAsk _ _ |- _ => injection X as -> -> end; try exact I; subst.
  - exists ev, []. split; [reflexivity|]. apply live_new; [apply B'|exact Heqo1].
  - exists ev, []. split; [reflexivity|]. apply live_new; [apply B'|]. kfields. now rewrite mget_put, breq_refl.
  - destruct (A _ _ _ Heqo) as (e1 & e2 & P & L). exists e1, (e2 ++ []). split; [now apply after_more|]. cbn [outcome]. right. exists e2, []. split; [reflexivity|].
    destruct FL as (Fc & _). unfold after_pending in P. rewrite <- app_assoc. cbn [app]. rewrite <- P. congruence.
  - destruct (A _ _ _ Heqo) as (e1 & e2 & P & L). exists e1, (e2 ++ []). split; [now apply after_more|]. exact (live_keep _ _ _ _ _ _ _ B H' L).
  - destruct (A _ _ _ Heqo) as (e1 & e2 & P & L). eexists e1, (e2 ++ _). split; [apply after_more; exact P|]. split; [exact (live_keep _ _ _ _ _ _ _ B H' L)|]. rewrite in_app_iff. right. now left.
  - destruct (A _ _ _ Heqo) as (e1 & e2 & P & L). eexists e1, (e2 ++ _). split; [apply after_more; exact P|]. cbn [outcome]. rewrite in_app_iff. right. now left.
  - destruct (A _ _ _ Heqo) as (e1 & e2 & P & L & W). exists e1, (e2 ++ []). split; [now apply after_more|]. rewrite app_nil_r. destruct L as (_ & L & _). apply L in Heqo0.
    destruct (first_values _ _ _ Heqo0) as [->| ->]; cbn [outcome]; auto.
  - destruct (A _ _ _ Heqo) as (e1 & e2 & P & L & W). exists e1, (e2 ++ []). split; [now apply after_more|]. rewrite app_nil_r. exact W.
Qed.
Lemma ans_run l s ev : krun_of l s ev -> ans_ok s ev.
Proof.
  intros R. apply (krun_inv (fun s ev => flags_ok s ev /\ ans_ok s ev) l s ev); [| |exact R].
  - split; [repeat split|]. intros [|[|t]]; discriminate.
  - intros s1 ev1 a s2 e B (FL & S) E. split; [eapply flags_step; eauto|eapply ans_step; eauto].
Qed.
(** Pending calls are entered once. *)
Lemma pending_once t r r' ev e1 e2 e1' e2' : tally (ev_pending t) ev = 1 -> after_pending t r ev e1 e2 -> after_pending t r' ev e1' e2' -> e1 = e1' /\ r = r' /\ e2 = e2'.
Proof.
  unfold after_pending. intros N -> . revert e1' N. induction e1 as [|x e1 IH]; intros [|y e1'] N H; cbn [app] in H.
  - injection H as <- <-. auto.
  - injection H as <- ->. cbn [app] in N. rewrite tally_cons, tally_app, tally_cons in N. cbn [ev_pending] in N. rewrite Nat.eqb_refl in N. cbn [b2z] in N.
    pose proof (tally_ge0 (ev_pending t) e1'). pose proof (tally_ge0 (ev_pending t) e2'). lia.
  - injection H as -> <-. cbn [app] in N. rewrite tally_cons, tally_app, tally_cons in N. cbn [ev_pending] in N. rewrite Nat.eqb_refl in N. cbn [b2z] in N.
    pose proof (tally_ge0 (ev_pending t) e1). pose proof (tally_ge0 (ev_pending t) e2). lia.
  - injection H as -> H. cbn [app] in N. rewrite tally_cons in N. assert (y <> KPending t r) as Y.
    { intros ->. rewrite tally_app, tally_cons in N. cbn [ev_pending] in N. rewrite Nat.eqb_refl in N. cbn [b2z] in N. pose proof (tally_ge0 (ev_pending t) e1). pose proof (tally_ge0 (ev_pending t) e2). lia. }
    destruct (ev_pending t y) eqn:Ey.
    + exfalso. rewrite tally_app, tally_cons in N. cbn [ev_pending b2z] in N. rewrite Nat.eqb_refl in N. cbn [b2z] in N. pose proof (tally_ge0 (ev_pending t) e1). pose proof (tally_ge0 (ev_pending t) e2). lia.
    + cbn [b2z] in N. destruct (IH e1' ltac:(lia) H) as (-> & -> & ->). auto.
Qed.
(** The results of requestBlock. *)
Lemma returned_outcome l s ev t r o e3 : krun_of l s (ev ++ KReturned t r o :: e3) -> exists e1 e2, ev = e1 ++ KPending t r :: e2 /\ outcome r (e1 ++ [KPending t r]) e2 o.
Proof.
  intros R. destruct (run_event _ _ _ _ _ R) as (l1 & s1 & a & s2 & l2 & -> & R1 & E & G). pose proof (ans_run _ _ _ R1) as A.
  remember [KReturned t r o] as x eqn:Eev. kopen E; try discriminate Eev. injection Eev as -> -> ->.
  match goal with X : nth_error _ _ = Some (TAsk _ _) |- _ => exact (A _ _ _ X) end.
Qed.

(** * One requestPiece at a time *)
Lemma one_prefix ev e : one_at_a_time (ev ++ e) -> one_at_a_time ev.
Proof.
  intros [A B]. split.
  - intros e1 t l e2 ->. apply (A e1 t l (e2 ++ e)). now rewrite <- app_assoc.
  - intros e1 t l e2 t' l' e3 ->. apply (B e1 t l e2 t' l' (e3 ++ e)). rewrite <- app_assoc. cbn [app]. now rewrite <- app_assoc.
Qed.
Definition pull_ok (s : kstate) (ev : list kevent) : Prop :=
  (forall p todo kids, nth_error (k_threads s) p = Some (TPull todo kids) ->
    (exists rs, Forall2 (fun t r => exists q, nth_error (k_threads s) t = Some (TAsk r q)) kids rs /\ NoDup (rs ++ todo)) /\
    (exists l, In (KPulled p l) ev) /\ ~ In (KPullEnd p) ev) /\
  (forall t r q, nth_error (k_threads s) t = Some (TAsk r q) -> q <> QDone -> exists p todo kids, nth_error (k_threads s) p = Some (TPull todo kids) /\ In t kids) /\
  (forall p todo kids p' todo' kids', nth_error (k_threads s) p = Some (TPull todo kids) -> nth_error (k_threads s) p' = Some (TPull todo' kids') -> p = p') /\
  (forall p, In (KPullEnd p) ev -> (p < List.length (k_threads s))%nat).
Lemma kids_mono (s s' : kstate) kids rs : (forall t r q, nth_error (k_threads s) t = Some (TAsk r q) -> exists q', nth_error (k_threads s') t = Some (TAsk r q')) ->
  Forall2 (fun t r => exists q, nth_error (k_threads s) t = Some (TAsk r q)) kids rs -> Forall2 (fun t r => exists q, nth_error (k_threads s') t = Some (TAsk r q)) kids rs.
Proof. intros M F. induction F as [|t r kids rs [q Q] F IH]; constructor; [eauto|exact IH]. Qed.
(** Steps of goroutines other than requestPiece. *)
Lemma asks_stay s a s' e : base_ok s -> kexec s a = Some (s', e) -> forall t r q, nth_error (k_threads s) t = Some (TAsk r q) ->
  exists q', nth_error (k_threads s') t = Some (TAsk r q') /\ (q = QDone -> q' = QDone).
Proof.
  intros (F & _) H t r q E.
  pose proof (fun m => proj1 (complete_threads None s (brought m) F)) as CC. pose proof (proj1 (choke_all_threads s F)) as CA.
  assert (t < List.length (k_threads s))%nat as Lt by (apply nth_error_Some; congruence).
  kopen H; swaps; kfields; rewrite ?CC, ?CA; rewrite ?nth_error_app1 by (rewrite ?list_set_length; exact Lt); try (exists q; split; [exact E|auto]; fail).
  all: match goal with |- context [list_set ?u _ _] => destruct (Nat.eq_dec u t) as [->|N]; [|rewrite list_set_nth_neq by congruence; exists q; split; [exact E|auto]] end.
  all: try congruence. all: rewrite list_set_nth_eq by exact Lt.
  all: match goal with X : nth_error _ _ = Some (TAsk _ _) |- _ => rewrite X in E; injection E as <- <- end; eexists; split; [reflexivity|discriminate].
Qed.
Lemma one_call l s ev : krun_of l s ev -> one_at_a_time ev -> pull_ok s ev.
Proof.
  apply (krun_inv (fun s ev => one_at_a_time ev -> pull_ok s ev)).
  - intros _. split; [intros [|[|p]]; discriminate|]. split; [intros [|[|p]]; discriminate|]. split; [intros [|[|p]]; discriminate|intros p []].
  - clear. intros s ev a s' e B P H O. specialize (P (one_prefix _ _ O)). pose proof (asks_stay _ _ _ _ B H) as AS. pose proof H as H'.
    destruct P as (P1 & P2 & P3 & P4). destruct B as (F & _).
    pose proof (fun m => proj1 (complete_threads None s (brought m) F)) as CC. pose proof (proj1 (choke_all_threads s F)) as CA.
    assert (forall t r q, nth_error (k_threads s) t = Some (TAsk r q) -> exists q', nth_error (k_threads s') t = Some (TAsk r q')) as AS' by (intros t r q Q; destruct (AS t r q Q) as (q' & Q' & _); eauto).
    (* steps that leave requestPiece alone *)
    assert ((forall p todo kids, nth_error (k_threads s') p = Some (TPull todo kids) <-> nth_error (k_threads s) p = Some (TPull todo kids)) ->
      (forall t r q, nth_error (k_threads s') t = Some (TAsk r q) -> q <> QDone -> exists q0, nth_error (k_threads s) t = Some (TAsk r q0) /\ q0 <> QDone) ->
      (forall p, ~ In (KPullEnd p) e) -> (List.length (k_threads s) <= List.length (k_threads s'))%nat -> pull_ok s' (ev ++ e)) as Frame.
    { intros X Y Z0 L. split; [|split; [|split]].
      - intros p todo kids Q. apply X in Q. destruct (P1 _ _ _ Q) as ((rs & R1 & R2) & (l0 & R3) & R4). split; [exists rs; split; [exact (kids_mono s s' kids rs AS' R1)|exact R2]|].
        split; [exists l0; rewrite in_app_iff; auto|]. rewrite in_app_iff. intros [W|W]; [auto|now apply Z0 in W].
      - intros t r q Q N. destruct (Y _ _ _ Q N) as (q0 & Q0 & N0). destruct (P2 _ _ _ Q0 N0) as (p & todo & kids & Hp & Hk). exists p, todo, kids. split; [now apply X|exact Hk].
      - intros p todo kids p' todo' kids' Q1 Q2. apply X in Q1. apply X in Q2. eauto.
      - intros p. rewrite in_app_iff. intros [W|W]; [apply P4 in W; lia|now apply Z0 in W]. }
    assert (forall t x y, nth_error (k_threads s) t = Some x -> (forall a b, x <> TPull a b) -> (forall a b, y <> TPull a b) ->
      forall p todo kids, nth_error (list_set t y (k_threads s)) p = Some (TPull todo kids) <-> nth_error (k_threads s) p = Some (TPull todo kids)) as Same.
    { intros t x y X NX NY p todo kids. destruct (Nat.eq_dec t p) as [->|N]; [|rewrite list_set_nth_neq by congruence; tauto].
      rewrite list_set_nth_eq by (apply nth_error_Some; congruence). rewrite X. split; intros [= W]; [now apply NY in W|now apply NX in W]. }
    assert (forall t x y, nth_error (k_threads s) t = Some x -> (forall r q, y = TAsk r q -> q <> QDone -> exists q0, x = TAsk r q0 /\ q0 <> QDone) ->
      forall u r q, nth_error (list_set t y (k_threads s)) u = Some (TAsk r q) -> q <> QDone -> exists q0, nth_error (k_threads s) u = Some (TAsk r q0) /\ q0 <> QDone) as Asks.
    { intros t x y X NY u r q Hu N. apply threads_set in Hu as [(-> & <- & _)|(_ & Hu)]; [|eauto]. destruct (NY r q eq_refl N) as (q0 & -> & N0). eauto. }
    kopen H; swaps; kfields; rewrite ?CC, ?CA.
    all: try (apply Frame; [kfields; rewrite ?CC, ?CA; eapply Same; [eassumption|discriminate|discriminate]
      |kfields; rewrite ?CC, ?CA; eapply Asks; [eassumption|intros r1 q1 W NQ; first [discriminate W|injection W as <- <-; eexists; split; [reflexivity|discriminate]]]
      |intros p1 W; cbn [In] in W; intuition discriminate|kfields; rewrite ?CC, ?CA, ?list_set_length; lia]; fail).
    + apply Frame; [tauto|eauto|intros p1 []|lia].
    + (* requestPiece ends *) assert (forall t0, In t0 kids -> forall r q, nth_error (k_threads s) t0 = Some (TAsk r q) -> q = QDone) as Dn.
      { intros t0 I r q Q. destruct q; try reflexivity; exfalso; assert (In t0 (running s kids)) as W by (unfold running; apply filter_In; split; [exact I|now rewrite Q]);
          match goal with X : running s kids = [] |- _ => rewrite X in W end; destruct W. }
      split; [|split; [|split]]; kfields.
      * intros p td kids' Q. thread_in Q; [discriminate|]. exfalso. apply H. eapply P3; eauto.
      * intros u r q Q N. thread_in Q; [discriminate|]. destruct (P2 _ _ _ Q N) as (p & td & kids' & Hp & Hk). pose proof (P3 _ _ _ _ _ _ Hp Heqo). subst p. rewrite Heqo in Hp. injection Hp as <- <-.
        exfalso. apply N. eauto.
      * intros p td kids1 p' td' kids2 Q1 Q2. thread_in Q1; [discriminate|]. thread_in Q2; [discriminate|]. eauto.
      * intros p. rewrite in_app_iff, list_set_length. intros [W|[[= <-]|[]]]; [eauto|]. apply nth_error_Some. congruence.
    + (* a goroutine is started *) assert (t < List.length (k_threads s))%nat as Lt by (apply nth_error_Some; congruence).
      destruct (P1 _ _ _ Heqo) as ((rs & R1 & R2) & (l0 & R3) & R4). rewrite app_nil_r. split; [|split; [|split]]; kfields.
      * intros p td kids' Q. thread_in Q; [discriminate| |exfalso; apply H; eapply P3; eauto]. match goal with X : TPull _ _ = TPull _ _ |- _ => injection X as -> -> end. subst p.
        split; [|split; [eauto|exact R4]]. exists (rs ++ [b]). split; [|now rewrite <- app_assoc]. apply Forall2_app; [exact (kids_mono s _ kids rs AS' R1)|]. constructor; [|constructor].
        exists QFirst. kfields. rewrite nth_error_app2 by (rewrite list_set_length; lia). now rewrite list_set_length, Nat.sub_diag.
      * intros u r q Q N. exists t, l, (kids ++ [List.length (k_threads s)]). split; [rewrite nth_error_app1 by (rewrite list_set_length; exact Lt); now apply list_set_nth_eq|]. rewrite in_app_iff.
        thread_in Q; [rewrite list_set_length in *; right; now left|discriminate|]. left. destruct (P2 _ _ _ Q N) as (p & td & kids' & Hp & Hk). pose proof (P3 _ _ _ _ _ _ Hp Heqo). subst p. rewrite Heqo in Hp. now injection Hp as <- <-.
      * intros p td kids1 p' td' kids2 Q1 Q2. thread_in Q1; [discriminate| |]; (thread_in Q2; [discriminate| |]); try congruence; [eapply P3; [|exact Q2]|eapply P3; [exact Q1|]|eapply P3; [exact Q1|exact Q2]]; subst; eauto.
      * intros p W. rewrite app_length, list_set_length. apply P4 in W. lia.
    + (* requestPiece is called *) assert (forall p td kids, nth_error (k_threads s) p = Some (TPull td kids) -> False) as None0.
      { intros p td kids Q. destruct (P1 _ _ _ Q) as (_ & (l0 & R3) & R4). apply in_split in R3 as (ea & eb & ->). apply R4. rewrite in_app_iff. right. right.
        destruct O as [_ O]. apply (O ea p l0 eb (List.length (k_threads s)) l []). now rewrite <- app_assoc. }
      split; [|split; [|split]]; kfields.
      * intros p td kids Q. thread_in Q; [|exfalso; eauto]. match goal with X : TPull _ _ = TPull _ _ |- _ => injection X as -> -> end. subst p.
        split; [exists []; split; [constructor|]; destruct O as [O _]; now apply (O ev (List.length (k_threads s)) l [])|]. split; [exists l; rewrite in_app_iff; right; now left|].
        rewrite in_app_iff. intros [W|[W|[]]]; [apply P4 in W; lia|discriminate].
      * intros u r q Q N. thread_in Q; [discriminate|]. destruct (P2 _ _ _ Q N) as (p & td & kids & Hp & Hk). exfalso. eauto.
      * intros p td kids1 p' td' kids2 Q1 Q2. thread_in Q1; [|exfalso; eauto]. thread_in Q2; [congruence|exfalso; eauto].
      * intros p. rewrite in_app_iff, app_length. intros [W|[W|[]]]; [apply P4 in W; lia|discriminate].
    + apply Frame; kfields.
      * intros p td kids. split; intros Q; [thread_in Q; [discriminate|exact Q]|]. rewrite nth_error_app1; [exact Q|]. apply nth_error_Some. congruence.
      * intros u r q Q N. thread_in Q; [discriminate|eauto].
      * intros p [].
      * rewrite app_length. lia.
    + apply Frame; kfields.
      * intros p td kids. split; intros Q; [thread_in Q; [discriminate|exact Q]|]. rewrite nth_error_app1; [exact Q|]. apply nth_error_Some. congruence.
      * intros u r q Q N. thread_in Q; [discriminate|eauto].
      * intros p [].
      * rewrite app_length. lia.
Qed.
Lemma nodup_left {A} (a b : list A) : NoDup (a ++ b) -> NoDup a.
Proof. induction a as [|x a IH]; cbn [app]; intros H; [constructor|]. inversion H; subst. constructor; [rewrite in_app_iff in *; tauto|auto]. Qed.
Lemma same_call l s ev t u r q q' : krun_of l s ev -> one_at_a_time ev -> nth_error (k_threads s) t = Some (TAsk r q) -> q <> QDone ->
  nth_error (k_threads s) u = Some (TAsk r q') -> q' <> QDone -> t = u.
Proof.
  intros R O Ht Nt Hu Nu. destruct (one_call _ _ _ R O) as (P1 & P2 & P3 & _). destruct (P2 _ _ _ Ht Nt) as (p & td & kids & Hp & It). destruct (P2 _ _ _ Hu Nu) as (p' & td' & kids' & Hp' & Iu).
  pose proof (P3 _ _ _ _ _ _ Hp Hp'). subst p'. rewrite Hp in Hp'. injection Hp' as <- <-. destruct (P1 _ _ _ Hp) as ((rs & F2 & ND) & _).
  assert (NoDup rs) as ND' by exact (nodup_left _ _ ND). clear - It Iu F2 ND' Ht Hu.
  apply In_nth_error in It as [i Hi]. apply In_nth_error in Iu as [j Hj].
  assert (forall k x, nth_error kids k = Some x -> forall q0, nth_error (k_threads s) x = Some (TAsk r q0) -> nth_error rs k = Some r) as At.
  { clear - F2. induction F2 as [|x r0 kids rs [q Q] F IH]; intros [|k] y; cbn [nth_error]; try discriminate; [intros [= ->] q0 Q0; congruence|apply IH]. }
  pose proof (At _ _ Hi _ Ht) as Ri. pose proof (At _ _ Hj _ Hu) as Rj. assert (i = j) as ->; [|congruence].
  apply (proj1 (NoDup_nth_error rs) ND'); [apply nth_error_Some; congruence|congruence].
Qed.
(** A call that waits is the only one for its block since it was entered. *)
Definition underway (q : qpc) : bool := match q with QSend _ _ | QWait _ | QLeave _ => true | _ => false end.
Lemma no_other l s ev : krun_of l s ev -> one_at_a_time ev -> forall t r q, nth_error (k_threads s) t = Some (TAsk r q) -> underway q = true ->
  forall e1 e2, ev = e1 ++ KPending t r :: e2 -> tally (returned_of r) e2 = 0.
Proof.
  intros R. enough ((exists l, krun_of l s ev) /\ (one_at_a_time ev -> forall t r q, nth_error (k_threads s) t = Some (TAsk r q) -> underway q = true ->
    exists e1 e2, after_pending t r ev e1 e2 /\ tally (returned_of r) e2 = 0)) as [_ Q].
  { intros O t r q E W e1 e2 H. destruct (Q O t r q E W) as (e1' & e2' & A & Z0). pose proof (call_run _ _ _ R t) as C. unfold call_ok in C. rewrite E in C.
    assert (tally (ev_pending t) ev = 1) as N by (destruct q; try discriminate W; injection C; auto). destruct (pending_once _ _ _ _ _ _ _ _ N H A) as (_ & _ & ->). exact Z0. }
  apply (krun_inv (fun s ev => (exists l, krun_of l s ev) /\ (one_at_a_time ev -> forall t r q, nth_error (k_threads s) t = Some (TAsk r q) -> underway q = true ->
    exists e1 e2, after_pending t r ev e1 e2 /\ tally (returned_of r) e2 = 0)) l s ev); [| |exact R].
  - split; [exists []; reflexivity|]. intros _ [|[|t]]; discriminate.
  - clear. intros s ev a s' e B [[l R] P] H. split.
    { exists (l ++ [a]). unfold krun_of in *. rewrite kruns_app, R. cbn [kruns]. rewrite H. now rewrite app_nil_r. }
    intros O t r q E W. specialize (P (one_prefix _ _ O)). destruct B as (F & _).
    pose proof (fun m => proj1 (complete_threads None s (brought m) F)) as CC. pose proof (proj1 (choke_all_threads s F)) as CA.
    assert (forall e', (forall u o, In (KReturned u r o) e' -> False) -> tally (returned_of r) e' = 0) as Qu.
    { intros e' N. apply tally_0. intros x I. destruct x; try reflexivity. cbn [returned_of]. apply not_true_iff_false. rewrite breq_iff. intros ->. eauto. }
    assert ((exists q0, nth_error (k_threads s) t = Some (TAsk r q0) /\ underway q0 = true) -> (forall u o, In (KReturned u r o) e -> False) -> exists e1 e2, after_pending t r (ev ++ e) e1 e2 /\ tally (returned_of r) e2 = 0) as Keep.
    { intros (q0 & E0 & W0) N. destruct (P _ _ _ E0 W0) as (e1 & e2 & A & Z0). exists e1, (e2 ++ e). split; [now apply after_more|]. rewrite tally_app, Z0, (Qu e N). reflexivity. }
    kopen H; swaps; kfields_in E; rewrite ?CC, ?CA in E; thread_in E; try discriminate;
      try (apply Keep; [eexists; split; [eassumption|assumption]|intros ? ?; cbn [In]; intuition discriminate]).
    all: match goal with X : TAsk _ _ = TAsk _ _ |- _ => injection X as -> -> | _ => idtac end; try discriminate W; subst.
    all: try (apply Keep; [eexists; split; [eassumption|reflexivity]|intros ? ?; cbn [In]; intuition discriminate]).
    + exists ev, []. split; [reflexivity|reflexivity].
    + exists ev, []. split; [reflexivity|reflexivity].
    + apply Keep; [eexists; split; [exact E|exact W]|]. intros u o1 [[= -> -> ->]|[]]. match goal with N : ?x <> ?y |- _ => apply N end.
      eapply (same_call _ _ _ _ _ r _ _ R (one_prefix _ _ O)); [exact E| |exact Heqo|discriminate]. intros ->. discriminate W.
Qed.

(** * At most 16 requests *)
Definition in_flight (th : kthread) : bool := match th with TAsk _ (QSend _ _ | QWait _ | QLeave _) => true | _ => false end.
Definition ev_pend (e : kevent) : bool := match e with KPending _ _ => true | _ => false end.
Definition ev_ret (e : kevent) : bool := match e with KReturned _ _ _ => true | _ => false end.
Lemma outstanding_count l s ev : krun_of l s ev -> outstanding ev = count in_flight (k_threads s).
Proof.
  apply (krun_inv (fun s ev => outstanding ev = count in_flight (k_threads s))); [reflexivity|]. clear. intros s ev a s' e (F & _) P H. unfold outstanding in *. fold ev_pend ev_ret in *.
  change (tally ev_pend ev - tally ev_ret ev = count in_flight (k_threads s)) in P. change (tally ev_pend (ev ++ e) - tally ev_ret (ev ++ e) = count in_flight (k_threads s')).
  pose proof (fun m => proj1 (complete_threads None s (brought m) F)) as CC. pose proof (proj1 (choke_all_threads s F)) as CA. rewrite !tally_app.
  kopen H; swaps; kfields; rewrite ?CC, ?CA, ?count_app; try (erewrite !count_set by eassumption); rewrite ?count_one, ?tally_cons, ?tally_nil; cbn [in_flight ev_pend ev_ret b2z]; lia.
Qed.
Lemma filter_le {A} (p q : A -> bool) l : (forall x, In x l -> p x = true -> q x = true) -> zlen (filter p l) <= zlen (filter q l).
Proof.
  induction l as [|x l IH]; intros H; cbn [filter]; [lia|]. specialize (IH ltac:(intros y I; apply H; now right)). specialize (H x (or_introl eq_refl)).
  destruct (p x), (q x); rewrite ?zlen_cons; try lia.
Qed.
Lemma threads_16 l s ev : krun_of l s ev -> forall p td kids, nth_error (k_threads s) p = Some (TPull td kids) ->
  zlen (running s kids) <= 16 /\ Forall (fun t => exists r q, nth_error (k_threads s) t = Some (TAsk r q)) kids.
Proof.
  apply (krun_inv (fun s ev => forall p td kids, nth_error (k_threads s) p = Some (TPull td kids) -> zlen (running s kids) <= 16 /\ Forall (fun t => exists r q, nth_error (k_threads s) t = Some (TAsk r q)) kids)).
  { intros [|[|p]]; discriminate. }
  clear. intros s ev a s' e B P H. pose proof (asks_stay _ _ _ _ B H) as AS. destruct B as (F & _).
  assert (forall kids, Forall (fun t => exists r q, nth_error (k_threads s) t = Some (TAsk r q)) kids -> zlen (running s' kids) <= zlen (running s kids) /\ Forall (fun t => exists r q, nth_error (k_threads s') t = Some (TAsk r q)) kids) as Mono.
  { intros kids K. rewrite Forall_forall in K. split.
    - apply filter_le. intros t I. destruct (K t I) as (r & q & Q). destruct (AS _ _ _ Q) as (q' & Q' & D). rewrite Q, Q'. destruct q; try reflexivity. now rewrite (D eq_refl).
    - apply Forall_forall. intros t I. destruct (K t I) as (r & q & Q). destruct (AS _ _ _ Q) as (q' & Q' & D). eauto. }
  assert (forall p td kids, nth_error (k_threads s) p = Some (TPull td kids) -> zlen (running s' kids) <= 16 /\ Forall (fun t => exists r q, nth_error (k_threads s') t = Some (TAsk r q)) kids) as Old.
  { intros p td kids Q. destruct (P _ _ _ Q) as [A B]. destruct (Mono kids B) as [C D]. split; [lia|exact D]. }
  pose proof (fun m => proj1 (complete_threads None s (brought m) F)) as CC. pose proof (proj1 (choke_all_threads s F)) as CA.
  intros p td kids E. kopen H; swaps; kfields_in E; rewrite ?CC, ?CA in E; thread_in E; try discriminate; try (eapply Old; eassumption).
  - match goal with X : TPull _ _ = TPull _ _ |- _ => injection X as -> -> end. subst. destruct (P _ _ _ Heqo) as [A B]. destruct (Mono _ B) as [C D].
    assert (t < List.length (k_threads s))%nat as Lt by (apply nth_error_Some; congruence).
    assert (nth_error (k_threads (kspawn (TAsk b QFirst) (kgoto t (TPull l (kids0 ++ [List.length (k_threads s)])) s))) (List.length (k_threads s)) = Some (TAsk b QFirst)) as New
      by (kfields; rewrite nth_error_app2 by (rewrite list_set_length; lia); now rewrite list_set_length, Nat.sub_diag).
    split.
    + unfold running at 1. rewrite filter_app, zlen_app. cbn [filter]. rewrite New. rewrite zlen_cons. fold (running (kspawn (TAsk b QFirst) (kgoto t (TPull l (kids0 ++ [List.length (k_threads s)])) s)) kids0).
      cbn [zlen List.length] in *. match goal with X : (zlen (running s kids0) <? 16) = true |- _ => apply Z.ltb_lt in X end. unfold zlen at 2. cbn. lia.
    + apply Forall_app. split; [exact D|]. constructor; [|constructor]. eauto.
  - match goal with X : TPull _ _ = TPull _ _ |- _ => injection X as -> -> end. split; [cbn; lia|constructor].
Qed.
Lemma count_indices p (l : list kthread) : count p l = zlen (filter (fun t => match nth_error l t with Some th => p th | None => false end) (seq 0 (List.length l))).
Proof.
  induction l as [|x l IH] using rev_ind; [reflexivity|]. rewrite count_app, count_one, app_length, seq_app, filter_app, zlen_app. cbn [List.length Nat.add seq].
  rewrite IH. f_equal.
  - f_equal. apply filter_ext_in. intros t I. apply in_seq in I. rewrite nth_error_app1 by lia. reflexivity.
  - cbn [filter]. rewrite nth_error_app2, Nat.sub_diag by lia. cbn [nth_error]. destruct (p x); reflexivity.
Qed.
Lemma outstanding_16 l s ev : krun_of l s ev -> one_at_a_time ev -> outstanding ev <= 16.
Proof.
  intros R O. rewrite (outstanding_count _ _ _ R), count_indices. set (ix := filter _ _). destruct ix as [|t0 ix0] eqn:Ei; [cbn; lia|]. rewrite <- Ei.
  assert (forall t, In t ix -> exists r q, nth_error (k_threads s) t = Some (TAsk r q) /\ underway q = true) as Ix.
  { intros t I. unfold ix in I. apply filter_In in I as [_ I]. destruct (nth_error (k_threads s) t) as [[|? ?|r q| | |]|]; try discriminate I. exists r, q. split; [reflexivity|]. now destruct q. }
  destruct (one_call _ _ _ R O) as (P1 & P2 & P3 & _). destruct (Ix t0) as (r0 & q0 & Q0 & U0); [rewrite Ei; now left|].
  destruct (P2 _ _ _ Q0 ltac:(intros ->; discriminate U0)) as (p & td & kids & Hp & _). destruct (threads_16 _ _ _ R _ _ _ Hp) as [L _].
  assert (NoDup ix) as ND by (apply NoDup_filter, seq_NoDup).
  assert (incl ix (running s kids)) as Inc.
  { intros t I. destruct (Ix t I) as (r & q & Q & U). destruct (P2 _ _ _ Q ltac:(intros ->; discriminate U)) as (p' & td' & kids' & Hp' & Ik). pose proof (P3 _ _ _ _ _ _ Hp Hp'). subst p'.
    rewrite Hp in Hp'. injection Hp' as <- <-. unfold running. apply filter_In. split; [exact Ik|]. rewrite Q. now destruct q. }
  pose proof (NoDup_incl_length ND Inc). unfold zlen in *. lia.
Qed.

(** * Calls can return *)
Definition mu_ok (s : kstate) : Prop := forall u, k_mu s = Some u -> exists th, nth_error (k_threads s) u = Some th /\ writing th = true.
Lemma mu_step s a s' e : base_ok s -> mu_ok s -> kexec s a = Some (s', e) -> mu_ok s'.
Proof.
  intros (F & _) M H u Hu. pose proof (complete_threads None s) as CC. pose proof (choke_all_threads s F) as [CA CB].
  assert (forall m, k_threads (complete None s (brought m)) = k_threads s /\ k_mu (complete None s (brought m)) = k_mu s) as CC' by (intros m; now apply CC).
  kopen H; swaps; kfields_in Hu; kfields; rewrite ?(proj1 (CC' _)), ?CA; rewrite ?(proj2 (CC' _)), ?CB in Hu; try congruence.
  all: try (injection Hu as <-; eexists; split; [apply list_set_nth_eq; apply nth_error_Some; congruence|reflexivity]).
  all: destruct (M u Hu) as (th & T & W); exists th; (split; [|exact W]); try exact T.
  all: try (rewrite nth_error_app1 by (rewrite ?list_set_length; apply nth_error_Some; congruence)).
  all: try exact T.
  all: rewrite list_set_nth_neq; [exact T|intros ->; match goal with X : nth_error _ _ = Some ?y |- _ => assert (th = y) by congruence; subst th; discriminate W end].
Qed.
Lemma mu_run l s ev : krun_of l s ev -> mu_ok s.
Proof. apply (krun_inv (fun s _ => mu_ok s)); [intros u; discriminate|]. intros. eapply mu_step; eauto. Qed.
Lemma may_later late s a s' e t r o : kexec s a = Some (s', e) -> (exists u, a = KGo u KOk \/ (late = true /\ a = KGo t KErr)) -> (e = [] \/ exists m, e = [KSent m]) ->
  may_return late s' t r o -> may_return late s t r o.
Proof.
  intros E A B (l & s2 & ev & G & I & P & Q). exists (a :: l), s2, (e ++ ev). unfold kgoes_on in *. cbn [kruns]. rewrite E, G. split; [reflexivity|]. split; [rewrite in_app_iff; auto|]. split.
  - intros a' [<-|I']; [exact A|auto].
  - intros x. rewrite in_app_iff. intros [I'|I']; [|auto]. destruct B as [->|[m ->]]; [destruct I'|]. destruct I' as [<-|[]]. left. eauto.
Qed.
(** The lock can be freed. *)
Lemma may_free late s t th r o : base_ok s -> mu_ok s -> nth_error (k_threads s) t = Some th -> writing th = false ->
  (forall s', base_ok s' -> k_mu s' = None -> k_rchoked s' = k_rchoked s -> k_futs s' = k_futs s -> nth_error (k_threads s') t = Some th -> may_return late s' t r o) ->
  may_return late s t r o.
Proof.
  intros B M Ht W K. destruct (k_mu s) as [u|] eqn:Mu; [|now apply K]. destruct (M u Mu) as (x & Hx & Wx).
  assert (t <> u) as N by (intros ->; rewrite Ht in Hx; injection Hx as ->; congruence).
  assert (k_crashed s = false) as Cr by apply B.
  assert (exists y m, kexec s (KGo u KOk) = Some (kgoto u y (set_kmu None s), [KSent m])) as (y & m & E).
  { unfold kexec. rewrite Cr, Hx. destruct x as [[]| |r0 []|f [[]|]|m []|]; try discriminate Wx; try (destruct p; try discriminate Wx); cbn [step_serve step_ask step_flag step_send finish_write];
      try (destruct r0 as [[i0 b0] l0]); cbn [finish_write]; eauto. }
  eapply may_later; [exact E|exists u; now left|right; eauto|]. apply K; [eapply base_step; eauto|reflexivity|reflexivity|reflexivity|]. kfields. now rewrite list_set_nth_neq by congruence.
Qed.
Lemma may_leave late s t r o : base_ok s -> mu_ok s -> nth_error (k_threads s) t = Some (TAsk r (QLeave o)) -> may_return late s t r o.
Proof.
  intros B M Ht. apply (may_free late s t _ r o B M Ht eq_refl). intros s' B' Mu _ _ Ht'.
  exists [KGo t KOk], (kgoto t (TAsk r QDone) (set_kinflight (mdel breq_eqb r (k_inflight s')) s')), [KReturned t r o].
  split; [unfold kgoes_on; cbn [kruns]; unfold kexec; rewrite (proj1 (proj2 B')), Ht'; cbn [step_ask]; now rewrite Mu|]. split; [now left|].
  split; [intros a [<-|[]]; exists t; now left|intros e [<-|[]]; auto].
Qed.
Lemma may_wait s t r f v : base_ok s -> mu_ok s -> nth_error (k_threads s) t = Some (TAsk r (QWait f)) -> nth_error (k_futs s) f = Some (Some v) -> may_return false s t r v.
Proof.
  intros B M Ht Hf. assert (kexec s (KGo t KOk) = Some (kgoto t (TAsk r (QLeave v)) s, [])) as E by (unfold kexec; rewrite (proj1 (proj2 B)), Ht; cbn [step_ask]; now rewrite Hf).
  eapply may_later; [exact E|exists t; now left|now left|]. apply may_leave; [eapply base_step; eauto|eapply mu_step; eauto|]. kfields. apply list_set_nth_eq. apply nth_error_Some. congruence.
Qed.
Lemma may_late s t r f : base_ok s -> mu_ok s -> nth_error (k_threads s) t = Some (TAsk r (QWait f)) -> may_return true s t r (Some ECtx).
Proof.
  intros B M Ht. assert (kexec s (KGo t KErr) = Some (kgoto t (TAsk r (QLeave (Some ECtx))) s, [])) as E by (unfold kexec; now rewrite (proj1 (proj2 B)), Ht).
  eapply may_later; [exact E|exists t; now right|now left|]. apply may_leave; [eapply base_step; eauto|eapply mu_step; eauto|]. kfields. apply list_set_nth_eq. apply nth_error_Some. congruence.
Qed.
(** From the Send on. *)
Lemma may_send late s t r f p : base_ok s -> mu_ok s -> nth_error (k_threads s) t = Some (TAsk r (QSend f p)) ->
  (forall s', base_ok s' -> mu_ok s' -> k_futs s' = k_futs s -> nth_error (k_threads s') t = Some (TAsk r (QWait f)) -> exists o, may_return late s' t r o) ->
  exists o, may_return late s t r o.
Proof.
  assert (forall s, base_ok s -> mu_ok s -> nth_error (k_threads s) t = Some (TAsk r (QSend f SWrite)) ->
    (forall s', base_ok s' -> mu_ok s' -> k_futs s' = k_futs s -> nth_error (k_threads s') t = Some (TAsk r (QWait f)) -> exists o, may_return late s' t r o) -> exists o, may_return late s t r o) as Wr.
  { clear s p. intros s B M Ht K. assert (kexec s (KGo t KOk) = Some (kgoto t (TAsk r (QWait f)) (set_kmu None s), [KSent (request_of r)])) as E by (unfold kexec; now rewrite (proj1 (proj2 B)), Ht).
    destruct (K (kgoto t (TAsk r (QWait f)) (set_kmu None s))) as [o Ho]; [eapply base_step; eauto|eapply mu_step; eauto|reflexivity|kfields; apply list_set_nth_eq; apply nth_error_Some; congruence|].
    exists o. eapply may_later; [exact E|exists t; now left|right; eauto|exact Ho]. }
  intros B M Ht K. destruct p; [|now apply Wr].
  assert (exists s1 e1, (e1 = [] \/ exists m, e1 = [KSent m]) /\ (s1 = s \/ exists u, kexec s (KGo u KOk) = Some (s1, e1)) /\ base_ok s1 /\ mu_ok s1 /\ k_mu s1 = None /\ k_futs s1 = k_futs s /\ nth_error (k_threads s1) t = Some (TAsk r (QSend f SLock)))
    as (s1 & e1 & He & Hs & B1 & M1 & Mu1 & Fu1 & Ht1).
  { destruct (k_mu s) as [u|] eqn:Mu; [|exists s, []; split; [now left|]; split; [now left|]; split; [exact B|]; split; [exact M|]; auto]. destruct (M u Mu) as (x & Hx & Wx).
    assert (t <> u) as N by (intros ->; rewrite Ht in Hx; injection Hx as <-; discriminate).
    assert (exists y m, kexec s (KGo u KOk) = Some (kgoto u y (set_kmu None s), [KSent m])) as (y & m & E).
    { unfold kexec. rewrite (proj1 (proj2 B)), Hx. destruct x as [[]| |r0 []|f0 [[]|]|m []|]; try discriminate Wx; try (destruct p; try discriminate Wx); cbn [step_serve step_ask step_flag step_send finish_write];
        try (destruct r0 as [[i0 b0] l0]); cbn [finish_write]; eauto. }
    exists (kgoto u y (set_kmu None s)), [KSent m]. split; [right; eauto|]. split; [right; eauto|]. split; [eapply base_step; eauto|]. split; [eapply mu_step; eauto|]. split; [reflexivity|]. split; [reflexivity|].
    kfields. now rewrite list_set_nth_neq by congruence. }
  assert (exists o, may_return late s1 t r o) as [o Ho].
  { destruct (k_rchoked s1) eqn:Ck.
    - assert (kexec s1 (KGo t KOk) = Some (kgoto t (TAsk r (QLeave (Some EChoked))) s1, [])) as E by (unfold kexec; rewrite (proj1 (proj2 B1)), Ht1; cbn [step_ask]; now rewrite Mu1, Ck).
      exists (Some EChoked). eapply may_later; [exact E|exists t; now left|now left|]. apply may_leave; [eapply base_step; eauto|eapply mu_step; eauto|]. kfields. apply list_set_nth_eq. apply nth_error_Some. congruence.
    - assert (kexec s1 (KGo t KOk) = Some (kgoto t (TAsk r (QSend f SWrite)) (set_kmu (Some t) s1), [])) as E by (unfold kexec; rewrite (proj1 (proj2 B1)), Ht1; cbn [step_ask]; now rewrite Mu1, Ck).
      destruct (Wr (kgoto t (TAsk r (QSend f SWrite)) (set_kmu (Some t) s1))) as [o Ho]; [eapply base_step; eauto|eapply mu_step; eauto|kfields; apply list_set_nth_eq; apply nth_error_Some; congruence|..].
      { intros s2 B2 M2 F2 H2. apply K; auto. rewrite F2. exact Fu1. }
      exists o. eapply may_later; [exact E|exists t; now left|now left|exact Ho]. }
  exists o. destruct Hs as [->|[u E]]; [exact Ho|]. eapply may_later; [exact E|exists u; now left|exact He|exact Ho].
Qed.
Lemma pending_thread l s e1 t r e2 : krun_of l s (e1 ++ KPending t r :: e2) -> tally (ev_returned t) e2 = 0 -> exists q, nth_error (k_threads s) t = Some (TAsk r q) /\ underway q = true.
Proof.
  intros R N. pose proof (call_run _ _ _ R t) as C. unfold call_ok in C. cbv zeta in C. pose proof R as R0. destruct (run_event _ _ _ _ _ R) as (l1 & s1 & a & s2 & l2 & -> & R1 & E & G).
  assert (exists q, nth_error (k_threads s2) t = Some (TAsk r q)) as [q2 Q2].
  { remember [KPending t r] as x eqn:Eev. kopen E; try discriminate Eev; injection Eev as -> ->; kfields; eexists; apply list_set_nth_eq; apply nth_error_Some; congruence. }
  assert (exists q, nth_error (k_threads s) t = Some (TAsk r q)) as [q Q].
  { apply (kgoes_inv (fun s _ => exists q, nth_error (k_threads s) t = Some (TAsk r q)) (l1 ++ [a]) s2 (e1 ++ [KPending t r]) l2 s e2); [| |..|exact G].
    - unfold krun_of in *. rewrite kruns_app, R1. cbn [kruns]. now rewrite E, app_nil_r.
    - eauto.
    - intros l s0 ev a0 s' e Rr [q0 Q0] E0. destruct (asks_stay _ _ _ _ (base_run _ _ _ Rr) E0 _ _ _ Q0) as (q' & Q' & _). eauto. }
  exists q. split; [exact Q|]. rewrite Q in C. assert (1 <= tally (ev_pending t) (e1 ++ KPending t r :: e2)) as P1.
  { rewrite tally_app, tally_cons. cbn [ev_pending]. rewrite Nat.eqb_refl. cbn [b2z]. pose proof (tally_ge0 (ev_pending t) e1). pose proof (tally_ge0 (ev_pending t) e2). lia. }
  assert (tally (ev_returned t) (e1 ++ KPending t r :: e2) = 0) as P2.
  { rewrite tally_app, tally_cons, N. cbn [ev_returned b2z]. assert (tally (ev_returned t) e1 = 0); [|lia].
    pose proof (call_run _ _ _ R1 t) as C1. unfold call_ok in C1. cbv zeta in C1. remember [KPending t r] as x eqn:Eev. kopen E; try discriminate Eev; injection Eev as -> ->;
      match goal with X : nth_error (k_threads s1) _ = Some _ |- _ => rewrite X in C1 end; now injection C1. }
  destruct q; try reflexivity; [injection C; lia|injection C; lia|]. destruct C as [C|C]; injection C; lia.
Qed.
Lemma call_may_return l s e1 t r e2 : krun_of l s (e1 ++ KPending t r :: e2) -> tally (ev_returned t) e2 = 0 -> exists o, may_return true s t r o.
Proof.
  intros R N. destruct (pending_thread _ _ _ _ _ _ R N) as (q & Q & U). pose proof (base_run _ _ _ R) as B. pose proof (mu_run _ _ _ R) as M. destruct q; try discriminate U.
  - eapply may_send; eauto. intros s' B' M' _ H'. exists (Some ECtx). eapply may_late; eauto.
  - exists (Some ECtx). eapply may_late; eauto.
  - eexists. eapply may_leave; eauto.
Qed.
Lemma call_answered l s e1 t r e2 v : krun_of l s (e1 ++ KPending t r :: e2) -> tally (ev_returned t) e2 = 0 -> tally (returned_of r) e2 = 0 -> first_answer r e2 = Some v ->
  exists o, may_return false s t r o.
Proof.
  intros R N N' A. destruct (pending_thread _ _ _ _ _ _ R N) as (q & Q & U). pose proof (base_run _ _ _ R) as B. pose proof (mu_run _ _ _ R) as M.
  pose proof (ans_run _ _ _ R _ _ _ Q) as An. pose proof (call_run _ _ _ R t) as C. unfold call_ok in C. rewrite Q in C.
  assert (tally (ev_pending t) (e1 ++ KPending t r :: e2) = 1) as P by (destruct q; try discriminate U; injection C; auto).
  assert (forall f e1' e2', after_pending t r (e1 ++ KPending t r :: e2) e1' e2' -> live s e2' r f -> nth_error (k_futs s) f = Some (Some v)) as Fv.
  { intros f e1' e2' Ap L. destruct (pending_once _ _ _ _ _ _ _ _ P eq_refl Ap) as (_ & _ & <-). destruct L as (_ & _ & _ & _ & L). specialize (L N'). now rewrite A in L. }
  destruct q; try discriminate U.
  - destruct An as (e1' & e2' & Ap & L). eapply may_send; eauto. intros s' B' M' F' H'. exists v. eapply may_wait; eauto. rewrite F'. eauto.
  - destruct An as (e1' & e2' & Ap & L & _). exists v. eapply may_wait; eauto.
  - eexists. eapply may_leave; eauto.
Qed.

(** A change changes. *)
Lemma changes_change l s e1 f e2 : krun_of l s (e1 ++ KChange f :: e2) ->
  match f with FChoke => we_choke e1 = false | FUnchoke => we_choke e1 = true | FInterest => we_want e1 = false | FNotInterest => we_want e1 = true end.
Proof.
  intros R. destruct (run_event _ _ _ _ _ R) as (l1 & s1 & a & s2 & l2 & -> & R1 & E & G). destruct (flags_run _ _ _ R1) as (_ & A & B & _).
  remember [KChange f] as x eqn:Eev. kopen E; try discriminate Eev; injection Eev as <-; try congruence.
  match goal with X : swap ?g _ = Some _ |- _ => unfold swap in X; destruct g; brk X; congruence end.
Qed.
Lemma flag_counts l s ev f : krun_of l s ev -> tally (tried (ftype f)) ev <= tally (changed f) ev /\ (settled_flags s -> tally (tried (ftype f)) ev = tally (changed f) ev).
Proof.
  intros R. pose proof (moved_run f _ _ _ R) as M. unfold moved in M.
  assert (tally (tried (ftype f)) ev = tally (sent (ftype f)) ev + tally (failed (ftype f)) ev) as T.
  { clear. induction ev as [|x ev IH]; [reflexivity|]. rewrite !tally_cons, IH. unfold tried. destruct x; cbn [sent failed orb b2z]; try lia; destruct (is_type _ _); cbn [orb b2z]; lia. }
  pose proof (count_ge0 (mid f) (k_threads s)). split; [lia|]. intros S. assert (count (mid f) (k_threads s) = 0); [|lia].
  apply count_0. intros th I. destruct (S th I) as [A B]. destruct th as [[]| | |g [p|]| |]; try reflexivity; exfalso; [now apply (B p)|now apply (A g p)].
Qed.
Lemma call_once l s ev t : krun_of l s ev -> tally (ev_pending t) ev <= 1 /\ tally (ev_returned t) ev <= tally (ev_pending t) ev /\ tally (ev_refused t) ev + tally (ev_pending t) ev <= 1.
Proof.
  intros R. pose proof (call_run _ _ _ R t) as C. unfold call_ok in C. cbv zeta in C.
  destruct (nth_error (k_threads s) t) as [[|? ?|r []|? ?|? ?|]|]; try (injection C; lia). destruct C as [C|C]; injection C; lia.
Qed.
(** A call whose future left the map without a delivery waits for its deadline. *)
Definition stuck (s : kstate) (t : nat) (r : breq) (f : nat) : Prop :=
  base_ok s /\ nth_error (k_threads s) t = Some (TAsk r (QWait f)) /\ nth_error (k_futs s) f = Some None /\ (forall r', mget breq_eqb r' (k_inflight s) <> Some f).
Lemma stuck_step s a s' e t r f : stuck s t r f -> kexec s a = Some (s', e) -> a <> KGo t KErr -> stuck s' t r f /\ forall o, ~ In (KReturned t r o) e.
Proof.
  intros (B & T & U & I) H NA. pose proof (base_step _ _ _ _ B H) as B'. destruct B as (F & _). assert (f < List.length (k_futs s))%nat as Lf by (apply nth_error_Some; congruence).
  assert (t < List.length (k_threads s))%nat as Lt by (apply nth_error_Some; congruence).
  assert (forall r0, k_threads (complete None s r0) = k_threads s) as CC by (intros r0; now apply complete_threads). pose proof (proj1 (choke_all_threads s F)) as CA.
  assert (forall r0, nth_error (k_futs (complete None s r0)) f = Some None /\ forall r', mget breq_eqb r' (k_inflight (complete None s r0)) <> Some f) as CF.
  { intros r0. destruct (complete_spec None s r0 F) as (_ & _ & M1 & _ & M3). split; [rewrite M3; [exact U|apply I]|]. intros r'. rewrite M1. destruct (breq_eqb r0 r'); [discriminate|apply I]. }
  assert (nth_error (k_futs (fold_left (complete (Some EChoked)) (map fst (k_inflight s)) s)) f = Some None /\ forall r', mget breq_eqb r' (k_inflight (fold_left (complete (Some EChoked)) (map fst (k_inflight s)) s)) <> Some f) as CG.
  { destruct (choke_all_spec s F) as (_ & _ & M1 & _ & M3). split; [rewrite M3; [exact U|apply I]|]. intros r'. rewrite M1. discriminate. }
  unfold stuck. kopen H; swaps; kfields; rewrite ?CC, ?CA; (split; [split; [exact B'|]|]).
  all: try (intros ? [W|[]]; discriminate W). all: try (intros ? []).
  all: try (destruct (Nat.eq_dec t0 t) as [->|N]; [congruence|]; rewrite ?nth_error_app1 by (rewrite ?list_set_length; exact Lt); rewrite ?list_set_nth_neq by congruence).
  all: try (split; [exact T|split; [exact U|exact I]]).
  all: try (split; [exact T|apply CF]). all: try (split; [exact T|exact CG]).
  all: try (rewrite nth_error_app1 by exact Lt; split; [exact T|split; [exact U|exact I]]).
  - split; [exact T|]. rewrite nth_error_app1 by exact Lf. split; [exact U|]. intros r'. rewrite mget_put, (mget_del _ breq_iff). destruct (breq_eqb r0 r'); [intros [= W]; lia|apply I].
  - split; [exact T|]. split; [exact U|]. intros r'. rewrite (mget_del _ breq_iff). destruct (breq_eqb r0 r'); [discriminate|apply I].
  - congruence.
  - match goal with X : In _ [] |- _ => destruct X end.
Qed.
Lemma stuck_waits s t r f o : stuck s t r f -> ~ may_return false s t r o.
Proof.
  intros S (l & s' & ev & G & I & A & _). unfold kgoes_on in G. revert s S ev G I A. induction l as [|a l IH]; intros s S ev G I A; cbn [kruns] in G; [injection G as <- <-; destruct I|].
  destruct (kexec s a) as [[s1 e]|] eqn:E; [|discriminate]. destruct (kruns s1 l) as [[s2 e2]|] eqn:R; [|discriminate]. injection G as <- <-.
  destruct (stuck_step _ _ _ _ _ _ _ S E) as [S1 N].
  { intros ->. destruct (A (KGo t KErr) (or_introl eq_refl)) as (u & [W|[W _]]); discriminate W. }
  apply in_app_iff in I as [I|I]; [now apply N in I|]. apply (IH s1 S1 e2 R I). intros a' Ia. apply A. now right.
Qed.
