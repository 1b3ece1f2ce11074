(** What a connection remembers. *)
From Verif Require Import GoBase GoBaseProofs GoMap PeerWire PeerWireSpec P2PServerProofs P2PConn P2PConnSpec P2PConnProofs.

(** * Requests in flight *)
(** Each has a call of requestBlock that has not returned. *)
Definition owned (s : kstate) : Prop := forall r f, mget breq_eqb r (k_inflight s) = Some f -> exists t q, nth_error (k_threads s) t = Some (TAsk r q) /\ in_flight (TAsk r q) = true.
Lemma owned_frame s s' : (forall r f, mget breq_eqb r (k_inflight s') = Some f -> exists f', mget breq_eqb r (k_inflight s) = Some f') ->
  (forall t r q, nth_error (k_threads s) t = Some (TAsk r q) -> in_flight (TAsk r q) = true -> mget breq_eqb r (k_inflight s') <> None -> exists q', nth_error (k_threads s') t = Some (TAsk r q') /\ in_flight (TAsk r q') = true) ->
  owned s -> owned s'.
Proof.
  intros I T O r f H. destruct (I _ _ H) as (f' & H'). destruct (O _ _ H') as (t & q & E & F). destruct (T _ _ _ E F) as (q' & E' & F'); [congruence|]. eauto.
Qed.
Lemma set_other (L : list kthread) t th old u r q : nth_error L t = Some old -> nth_error L u = Some (TAsk r q) -> in_flight (TAsk r q) = true ->
  (in_flight old = true -> exists r' q', old = TAsk r' q' /\ exists q'', th = TAsk r' q'' /\ in_flight th = true) ->
  exists q', nth_error (list_set t th L) u = Some (TAsk r q') /\ in_flight (TAsk r q') = true.
Proof.
  intros Eo Eu F H. assert (t < List.length L)%nat as Lt by (apply nth_error_Some; congruence).
  destruct (Nat.eq_dec t u) as [->|N].
  - assert (old = TAsk r q) as -> by congruence. destruct (H F) as (r' & q' & [= <- <-] & q'' & -> & F''). rewrite list_set_nth_eq by exact Lt. eauto.
  - rewrite list_set_nth_neq by congruence. eauto.
Qed.
Lemma app_other (L : list kthread) x u y : nth_error L u = Some y -> nth_error (L ++ [x]) u = Some y.
Proof. intros H. rewrite nth_error_app1; [exact H|]. apply nth_error_Some. congruence. Qed.
Lemma owned_step s a s' e : base_ok s -> owned s -> kexec s a = Some (s', e) -> owned s'.
Proof.
  intros (F & _) O H.
  pose proof (fun m => proj1 (complete_threads None s (brought m) F)) as CC. pose proof (proj1 (choke_all_threads s F)) as CA.
  assert (CI : forall m r f, mget breq_eqb r (k_inflight (complete None s (brought m))) = Some f -> mget breq_eqb r (k_inflight s) = Some f).
  { intros m r f. destruct (complete_spec None s (brought m) F) as (_ & _ & G & _). rewrite G. destruct (breq_eqb _ r); [discriminate|auto]. }
  assert (AI : forall r f, mget breq_eqb r (k_inflight (fold_left (complete (Some EChoked)) (map fst (k_inflight s)) s)) = Some f -> mget breq_eqb r (k_inflight s) = Some f).
  { intros r f. destruct (choke_all_spec s F) as (_ & _ & G & _). rewrite G. discriminate. }
  kopen H; swaps; try exact O.
  all: try (apply (owned_frame s); [kfields; solve [eauto]| |exact O]; kfields; rewrite ?CC, ?CA; intros u r0 q0 Eu Fu Mu;
    try (eexists; split; [apply app_other; exact Eu|exact Fu]);
    try (eapply set_other; [eassumption|exact Eu|exact Fu|]; cbn [in_flight]; first [discriminate|intros _; do 2 eexists; split; [reflexivity|]; eexists; split; reflexivity])).
  - destruct (set_other (k_threads s) t (TPull l (kids ++ [List.length (k_threads s)])) _ u r0 q0 Heqo Eu Fu) as (q' & E' & F'); [discriminate|].
    exists q'. split; [now apply app_other|exact F'].
  - assert (t < List.length (k_threads s))%nat as Lt by (apply nth_error_Some; congruence).
    intros r' f'. kfields. rewrite (mget_put _), (mget_del _ breq_iff). destruct (breq_eqb r r') eqn:Er.
    + apply breq_iff in Er as <-. intros _. exists t. eexists. split; [now apply list_set_nth_eq|reflexivity].
    + intros E. destruct (O _ _ E) as (u & q1 & Eu & Fu). destruct (set_other (k_threads s) t (TAsk r (QSend (List.length (k_futs s)) SLock)) _ u r' q1 Heqo Eu Fu) as (q2 & E2 & F2); [discriminate|]. eauto.
  - intros r' f'. kfields. rewrite (mget_del _ breq_iff). destruct (breq_eqb r r') eqn:Er; [discriminate|]. intros E. destruct (O _ _ E) as (u & q1 & Eu & Fu).
    exists u, q1. split; [|exact Fu]. rewrite list_set_nth_neq; [exact Eu|]. intros <-. rewrite Heqo in Eu. injection Eu as -> _. rewrite (proj2 (breq_iff _ _) eq_refl) in Er. discriminate.
Qed.
Lemma owned_run l s ev : krun_of l s ev -> owned s.
Proof. apply (krun_inv (fun s _ => owned s)); [intros r f; discriminate|]. intros s0 ev0 a s' e B O H. eapply owned_step; eassumption. Qed.
Definition ask_of (th : kthread) : breq := match th with TAsk r _ => r | _ => (0, 0, 0) end.
Lemma inflight_outstanding l s ev : krun_of l s ev -> zlen (k_inflight s) <= outstanding ev.
Proof.
  intros R. rewrite (outstanding_count _ _ _ R). pose proof (owned_run _ _ _ R) as O. destruct (base_run _ _ _ R) as ((ND & _) & _).
  unfold count, zlen. rewrite <- (map_length fst (k_inflight s)), <- (map_length ask_of (filter in_flight (k_threads s))). apply inj_le, NoDup_incl_length; [exact ND|].
  intros r I. apply in_map_iff in I as ([r' f] & <- & I). cbn [fst]. assert (M : exists f', mget breq_eqb r' (k_inflight s) = Some f').
  { destruct (mget breq_eqb r' (k_inflight s)) eqn:M; [eauto|]. exfalso. unfold mget in M. destruct (find _ _) eqn:D; [discriminate|].
    apply (find_none _ _ D) in I. cbn in I. rewrite (proj2 (breq_iff r' r') eq_refl) in I. discriminate. }
  destruct M as (f' & M). destruct (O _ _ M) as (t & q & E & F). apply in_map_iff. exists (TAsk r' q). split; [reflexivity|]. apply filter_In. split; [now apply nth_error_In in E|exact F].
Qed.

(** * Cancels *)
Lemma cancels_bound l s ev : krun_of l s ev -> zlen (k_cancelled s) <= tally (handled CANCEL) ev.
Proof.
  apply (krun_inv (fun s ev => zlen (k_cancelled s) <= tally (handled CANCEL) ev)); [cbn; lia|]. clear. intros s ev a s' e (F & _) P H.
  rewrite tally_app. pose proof (tally_ge0 (handled CANCEL) e) as T.
  assert (CC : forall m, k_cancelled (complete None s (brought m)) = k_cancelled s) by (intros m; apply (complete_spec None s (brought m) F)).
  assert (CA : k_cancelled (fold_left (complete (Some EChoked)) (map fst (k_inflight s)) s) = k_cancelled s) by apply (choke_all_spec s F).
  kopen H; swaps; kfields; rewrite ?CC, ?CA; try lia.
  - rewrite tally_cons, tally_nil. cbn [handled]. unfold is_type. match goal with X : (m_type m =? CANCEL) = true |- _ => rewrite X end. cbn [b2z]. unfold sadd. destruct (smem _ _ _); rewrite ?zlen_cons; lia.
  - assert (zlen (sdel breq_eqb r (k_cancelled s)) <= zlen (k_cancelled s)); [|lia]. clear. unfold sdel. induction (k_cancelled s) as [|x L IH]; [cbn; lia|]. cbn [filter]. destruct (negb _); rewrite ?zlen_cons in *; lia.
Qed.
(** A peer that sends n cancels for different blocks. *)
Definition cancels (n : nat) : list kaction := flat_map (fun i => [KGo 0 (KMsg (mk_cancel (Z.of_nat i) 0 16384)); KGo 0 KOk; KGo 0 KOk]) (seq 0 n).
Definition heard (n : nat) : list kevent := flat_map (fun i => [KRecv (mk_cancel (Z.of_nat i) 0 16384); KHandled (mk_cancel (Z.of_nat i) 0 16384)]) (seq 0 n).
Lemma cancel_one C i : kruns (set_kcancelled C kstart) [KGo 0 (KMsg (mk_cancel i 0 16384)); KGo 0 KOk; KGo 0 KOk] =
  Some (set_kcancelled (sadd breq_eqb (i, 0, 16384) C) kstart, [KRecv (mk_cancel i 0 16384); KHandled (mk_cancel i 0 16384)]).
Proof. reflexivity. Qed.
Lemma cancels_grow n : krun_of (cancels n) (set_kcancelled (map (fun i => (Z.of_nat i, 0, 16384)) (rev (seq 0 n))) kstart) (heard n).
Proof.
  unfold krun_of. induction n as [|n IH]; [reflexivity|]. unfold cancels, heard. rewrite seq_S, !flat_map_app, kruns_app. fold (cancels n) (heard n). rewrite IH. rewrite rev_app_distr. cbn [flat_map rev app map Nat.add].
  rewrite cancel_one. unfold sadd. assert (N : smem breq_eqb (Z.of_nat n, 0, 16384) (map (fun i => (Z.of_nat i, 0, 16384)) (rev (seq 0 n))) = false).
  { apply not_true_iff_false. intros M. apply existsb_exists in M as (x & I & E). apply breq_iff in E as <-. apply in_map_iff in I as (i & E & I). injection E as E. apply in_rev in I. apply in_seq in I. lia. }
  rewrite N. reflexivity.
Qed.
Lemma heard_cancels n e : In e (heard n) -> exists i, (i < n)%nat /\ (e = KRecv (mk_cancel (Z.of_nat i) 0 16384) \/ e = KHandled (mk_cancel (Z.of_nat i) 0 16384)).
Proof.
  unfold heard. intros I. apply in_flat_map in I as (i & I & H). apply in_seq in I. exists i. split; [lia|]. destruct H as [H|[H|[]]]; auto.
Qed.
Theorem cancels_unbounded n : Z.of_nat n <= 2 ^ 32 -> exists l s ev, krun_of l s ev /\ zlen (k_cancelled s) = Z.of_nat n /\
  tally (fun e => match e with KRecv _ => true | _ => false end) ev = Z.of_nat n /\
  (forall m, In (KRecv m) ev -> exists i, fits (MCancel i 0 16384) /\ m = go_msg (MCancel i 0 16384)) /\ forall m, ~ In (KSent m) ev.
Proof.
  intros B. exists (cancels n). do 2 eexists. split; [apply cancels_grow|]. split; [cbn [set_kcancelled k_cancelled]; unfold zlen; now rewrite map_length, rev_length, seq_length|].
  split; [|split].
  - clear. induction n as [|n IH]; [reflexivity|]. unfold heard. rewrite seq_S, flat_map_app. fold (heard n). rewrite tally_app, IH. cbn [flat_map app Nat.add]. rewrite !tally_cons, tally_nil. cbn [b2z]. lia.
  - intros m I. apply heard_cancels in I as (i & L & [E|E]); [|discriminate]. injection E as ->. exists (Z.of_nat i). split; [|reflexivity]. cbn [fits]. unfold u32. lia.
  - intros m I. apply heard_cancels in I as (i & L & [E|E]); discriminate.
Qed.
