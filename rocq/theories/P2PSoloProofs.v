(** Further invariants of the server: known addresses of registered peers, one connection
    per name while nobody is blocked, who keeps the lock. *)
From Verif Require Import GoBase GoBaseProofs Bitfield BitfieldSpec BitfieldProofs GoMap PeerWire NetIP Tracker P2PPeer P2PServer P2PServerSpec P2PServerProofs P2PSortProofs P2PAnnounceProofs P2PRegistryProofs P2PLockProofs P2PUsefulProofs P2POriginProofs.

Section Solo.
Variable own_hash own_id blank : bytes.
Notation exec := (exec own_hash own_id blank).
Notation runs := (runs own_hash own_id blank).

(** * The addresses known for a registered peer *)
Lemma addrs_of_disconnect p q g x : x <> name_of q -> addrs_of (disconnect p q g) x = addrs_of g x.
Proof. intros N. unfold addrs_of. rewrite addrs_disconnect. now rewrite (meqb_neq _ beq_iff) by congruence. Qed.
Lemma addrs_of_remember q g x a : In a (addrs_of g x) -> In a (addrs_of (remember q g) x).
Proof.
  intros H. unfold remember, addrs_of at 1. cbn [set_idips set_addrs g_addrs]. rewrite mget_put.
  destruct (bytes_eqb (name_of q) x) eqn:E.
  - apply (sadd_in _ beq_iff). right. apply bytes_eqb_eq in E. subst. exact H.
  - rewrite (mget_del _ beq_iff), E. exact H.
Qed.
Lemma addrs_of_self q g : In (place_of q) (addrs_of (remember q g) (name_of q)).
Proof.
  unfold remember, addrs_of at 1. cbn [set_idips set_addrs g_addrs]. rewrite mget_put, (meqb_refl _ beq_iff). apply (sadd_in _ beq_iff). auto.
Qed.
Lemma not_active_name x (p : nat) q g : In (x, p) (mdel bytes_eqb (name_of q) (g_active g)) -> In (x, p) (g_active g) /\ x <> name_of q.
Proof. intros H. now apply (mdel_in _ beq_iff) in H. Qed.
Lemma drop_all_addrs l s x p a : In (x, p) (g_active (s_reg (drop_all l s))) -> In a (addrs_of (s_reg s) x) -> In a (addrs_of (s_reg (drop_all l s)) x).
Proof.
  intros H A. revert H. apply (drop_all_ind (fun s' => In (x, p) (g_active (s_reg s')) -> In a (addrs_of (s_reg s') x))); [auto|].
  intros s1 p1 q1 IH Q X. fields_in X. rewrite disconnect_active in X. apply not_active_name in X as [X N]. fields. rewrite addrs_of_disconnect by easy. auto.
Qed.
Lemma addrs_keep s ac s' e x p a : exec s ac = Some (s', e) -> In (x, p) (g_active (s_reg s')) -> In a (addrs_of (s_reg s) x) -> In a (addrs_of (s_reg s') x).
Proof.
  intros H X A. open_exec H; try exact A.
  all: try (change (In a (addrs_of (s_reg (drop_all (map snd (g_active (s_reg s))) s)) x)); eapply drop_all_addrs; [exact X|exact A]).
  all: revert X; fields; rewrite ?disconnect_active; intros X; try (apply addrs_of_remember; exact A).
  all: try (apply not_active_name in X as [X N]; rewrite addrs_of_disconnect by easy; exact A).
Qed.
Lemma spot_new s a s' e x p : exec s a = Some (s', e) -> In (x, p) (g_active (s_reg s')) -> In (x, p) (g_active (s_reg s)) \/
  exists q, nth_error (s_peers s) p = Some q /\ s_peers s' = s_peers s /\ x = name_of q /\ In (place_of q) (addrs_of (s_reg s') x).
Proof.
  intros H X. open_exec H; try (left; exact X).
  all: try (left; change (In (x, p) (g_active (s_reg (drop_all (map snd (g_active (s_reg s))) s)))) in X; now apply drop_all_active in X).
  all: revert X; fields; rewrite ?disconnect_active; intros X; try (left; exact X).
  all: try (apply not_active_name in X as [X N]; left; exact X).
  destruct X as [X|X].
  - injection X as <- <-. right. eexists. split; [eassumption|]. split; [easy|]. split; [easy|]. apply addrs_of_self.
  - left. now apply (mdel_in _ beq_iff) in X.
Qed.
Definition spot_ok (s : sys) : Prop := forall x p q, In (x, p) (g_active (s_reg s)) -> nth_error (s_peers s) p = Some q -> In (place_of q) (addrs_of (s_reg s) x).
Lemma spot_step s a s' e : act_ok s -> spot_ok s -> exec s a = Some (s', e) -> spot_ok s'.
Proof.
  intros AO O H x p q X Q. destruct (spot_new _ _ _ _ _ _ H X) as [Y|[q0 [Q0 [PE [-> A]]]]].
  - destruct (AO _ _ Y) as [q0 [Q0 _]]. destruct (peers_step _ _ _ _ _ _ _ _ _ H Q0) as [q1 [Q1 [[G1 [G2 _]] _]]].
    assert (q1 = q) as -> by congruence. eapply addrs_keep; [exact H|exact X|]. replace (place_of q) with (place_of q0); [now apply (O x p)|]. unfold place_of. now rewrite G1, G2.
  - rewrite PE in Q. assert (q0 = q) as -> by congruence. exact A.
Qed.

(** * One connection per name *)
(** The handler of p is between its registration and its Disconnect. *)
Definition regd (p : nat) (th : thread) : Z :=
  match th with THandler q (HConnect | HHandshake | HRegister | HRelease) => 0 | THandler q _ => one (Nat.eqb p q) | _ => 0 end.
Lemma regd_nonneg p th : 0 <= regd p th. Proof. destruct th as [| |? []| | | | | |]; cbn; try lia; apply one_range. Qed.
Definition stop_ok (s : sys) : Prop := forall th, In th (s_threads s) -> th = TStop true -> s_cancelled s = true.
Lemma stop_ok_step s a s' e : stop_ok s -> exec s a = Some (s', e) -> stop_ok s'.
Proof.
  intros L H th X E. open_exec H; revert X; drop_facts; fields; intros X; inthreads X; subst; try discriminate; try reflexivity; try (eapply L; [exact X|reflexivity]).
Qed.
Lemma cancelled_step s a s' e : exec s a = Some (s', e) -> s_cancelled s' = false -> s_cancelled s = false.
Proof. intros H. open_exec H; drop_facts; fields; intros X; try exact X; congruence. Qed.

Lemma regd_have p q r : regd p (THandler q (next_have r)) = one (Nat.eqb p q). Proof. now destruct r. Qed.
Lemma regd_after p q r : regd p (THandler q (after_queue r)) = one (Nat.eqb p q). Proof. now destruct r. Qed.
Lemma regd_handle p p' q m q' h : handle q m = (q', h) -> regd p (THandler p' h) = one (Nat.eqb p p').
Proof. unfold handle. intros H. brk H; injection H as <- <-; rewrite ?regd_have; easy. Qed.
Lemma regd_step s a s' e p : exec s a = Some (s', e) -> tsum (regd p) (s_threads s') <= tsum (regd p) (s_threads s) \/
  exists t q, nth_error (s_threads s) t = Some (THandler p HRegister) /\ nth_error (s_peers s') p = Some q /\ In (name_of q, p) (g_active (s_reg s')).
Proof.
  intros H. open_exec H; drop_facts; fields; sums; try (left; lia).
  all: try match goal with X : handle _ _ = _ |- _ => rewrite (regd_handle _ _ _ _ _ _ X) end.
  all: rewrite ?regd_have, ?regd_after; cbn [regd]; try (left; lia).
  all: try (rewrite unchoke_sum by reflexivity; left; lia).
  all: try match goal with |- context [one ?b] => pose proof (one_range b); left; lia end.
  all: match goal with |- context [Nat.eqb ?x ?p1] => destruct (Nat.eqb x p1) eqn:E; [apply Nat.eqb_eq in E; subst|cbn [one]; left; lia] end.
  right. exists t. eexists. split; [assumption|]. split; [eassumption|]. now left.
Qed.
Lemma active_keep s a s' e x p : exec s a = Some (s', e) -> In (x, p) (g_active (s_reg s)) -> In (x, p) (g_active (s_reg s')) \/
  (exists t p' q, nth_error (s_threads s) t = Some (THandler p' HDisconnect) /\ s_threads s' = list_set t (THandler p' HRelease) (s_threads s) /\ nth_error (s_peers s) p' = Some q /\ name_of q = x) \/
  (exists p', In (EvBlocked p') e) \/ In (TStop true) (s_threads s).
Proof.
  intros H X. open_exec H; try (left; exact X).
  all: try (right; right; right; eapply nth_error_In; eassumption).
  all: try (right; right; left; eexists; left; reflexivity).
  - left. fields. right. apply (mdel_in _ beq_iff). split; [easy|]. cbn [fst]. intros ->.
    match goal with Y : mget _ _ (g_active (remember _ _)) = None |- _ => apply (mget_none _ beq_iff) in Y; apply Y, in_map_iff; exists (name_of r, p); easy end.
  - fields. rewrite disconnect_active. destruct (bytes_eqb x (name_of r)) eqn:E.
    + apply bytes_eqb_eq in E. subst. right. left. exists t. do 2 eexists. split; [eassumption|]. split; [reflexivity|]. split; [eassumption|easy].
    + left. apply (mdel_in _ beq_iff). split; [easy|]. cbn [fst]. intros ->. rewrite (meqb_refl _ beq_iff) in E. discriminate.
Qed.
Definition solo_ok (s : sys) (ev : list event) : Prop := (forall p, ~ In (EvBlocked p) ev) -> s_cancelled s = false ->
  forall p, 1 <= tsum (regd p) (s_threads s) -> exists q, nth_error (s_peers s) p = Some q /\ In (name_of q, p) (g_active (s_reg s)).
Lemma nodup_fst {A B} (l : list (A * B)) x y z : NoDup (map fst l) -> In (x, y) l -> In (x, z) l -> y = z.
Proof.
  induction l as [|[a b] l IH]; cbn; intros N X Y; [destruct X|]. inversion N as [|? ? N1 N2]. subst.
  destruct X as [X|X], Y as [Y|Y]; try congruence; try (now apply IH); exfalso; apply N1.
  - injection X as -> ->. apply in_map_iff. now exists (x, z).
  - injection Y as -> ->. apply in_map_iff. now exists (x, y).
Qed.
Lemma regd_hand p th : regd p th <= hand p th.
Proof. destruct th as [| |? []| | | | | |]; cbn; try lia; apply one_range. Qed.
Lemma solo_step s ev a s' e : hand_ok s -> act_ok s -> active_ok s -> stop_ok s -> solo_ok s ev -> exec s a = Some (s', e) -> solo_ok s' (ev ++ e).
Proof.
  intros HH AO NO SO O H NB NC p R. destruct (regd_step _ _ _ _ p H) as [LE|[t [q [_ [Q A]]]]]; [|now exists q].
  assert (s_cancelled s = false) as NC0 by (eapply cancelled_step; eassumption).
  assert (forall p, ~ In (EvBlocked p) ev) as NB0 by (intros pp X; apply (NB pp), in_or_app; now left).
  destruct (O NB0 NC0 p) as [q [Q A]]; [lia|]. destruct (AO _ _ A) as [q0 [Q0 [_ P0]]]. assert (q0 = q) as -> by congruence.
  destruct (peers_step _ _ _ _ _ _ _ _ _ H Q) as [q' [Q' [[G1 _] G2]]]. exists q'. split; [easy|].
  replace (name_of q') with (name_of q) by (unfold name_of; now rewrite G1, (G2 P0)).
  destruct (active_keep _ _ _ _ _ _ H A) as [Y|[[t [p1 [q1 [T [TH [Q1 N1]]]]]]|[[p1 Y]|Y]]]; [easy| | |].
  - exfalso. assert (p1 = p) as ->.
    { assert (1 <= tsum (regd p1) (s_threads s)) as R1. { pose proof (tsum_ge (regd p1) _ _ _ (regd_nonneg p1) T) as G. cbn [regd] in G. rewrite Nat.eqb_refl in G. exact G. }
      destruct (O NB0 NC0 p1 R1) as [q2 [Q2 A2]]. assert (q2 = q1) as -> by congruence. rewrite N1 in A2. eapply nodup_fst; [apply NO|exact A2|exact A]. }
    rewrite TH, (tsum_set _ _ _ _ _ T) in R. cbn [regd] in R. rewrite Nat.eqb_refl in R. cbn [one] in R.
    pose proof (tsum_le _ _ (s_threads s) (regd_hand p)). specialize (HH p). pose proof (one_range (p <? List.length (s_peers s))%nat). lia.
  - exfalso. apply (NB p1), in_or_app. now right.
  - exfalso. rewrite (SO _ Y eq_refl) in NC0. discriminate.
Qed.

(** * Connected peers *)
Lemma pre_zero s t p h : hand_ok s -> nth_error (s_threads s) t = Some (THandler p h) -> pre p (THandler p h) = 0 -> tsum (pre p) (s_threads s) = 0.
Proof.
  intros HH T P. destruct (Z_lt_le_dec 0 (tsum (pre p) (s_threads s))) as [L|L]; [exfalso|pose proof (tsum_nonneg _ (s_threads s) (pre_nonneg p)); lia].
  apply tsum_pos in L as [u [x [U X]]]. assert (t <> u) as N by (intros ->; rewrite T in U; injection U as <-; lia).
  pose proof (tsum_ge2 (hand p) _ _ _ _ _ (hand_nonneg p) T U N) as G. pose proof (pre_pending p x). pose proof (pending_hand p x).
  assert (hand p (THandler p h) = 1) as E1 by (cbn; now rewrite Nat.eqb_refl). specialize (HH p). pose proof (one_range (p <? List.length (s_peers s))%nat). lia.
Qed.
Definition here_ok (s : sys) (ev : list event) : Prop := forall p id ip, In (EvConnected p id ip) ev ->
  exists q, nth_error (s_peers s) p = Some q /\ q_id q = id /\ q_ip q = ip /\ tsum (pre p) (s_threads s) = 0 /\ (In (EvDisconnected p) ev \/ 1 <= tsum (live p) (s_threads s)).
Lemma here_step s ev a s' e : hand_ok s -> here_ok s ev -> exec s a = Some (s', e) -> here_ok s' (ev ++ e).
Proof.
  intros HH O H p id ip X. apply in_app_or in X as [X|X].
  - destruct (O _ _ _ X) as [q [Q [A [B [C D]]]]]. destruct (peers_step _ _ _ _ _ _ _ _ _ H Q) as [q' [Q' [[G1 _] G2]]].
    assert (p < List.length (s_peers s))%nat as LT by (apply nth_error_Some; congruence).
    exists q'. rewrite G1, (G2 C). do 3 (split; [easy|]). split.
    + pose proof (pre_step _ _ _ _ _ _ _ _ H LT). pose proof (tsum_nonneg _ (s_threads s') (pre_nonneg p)). lia.
    + destruct D as [D|D]; [left; apply in_or_app; now left|].
      destruct (Z_lt_le_dec (tsum (live p) (s_threads s')) (tsum (live p) (s_threads s))) as [L|L]; [|right; lia].
      destruct (live_step _ _ _ _ _ _ _ _ H LT L) as [q1 [_ [-> _]]]. left. apply in_or_app. right. now left.
  - open_exec H; cbn [In] in X; try tauto; repeat (destruct X as [X|X]; try discriminate X; try tauto).
    injection X as <- <- <-. fields. exists r. split; [assumption|]. do 2 (split; [easy|]). 
    match goal with T : nth_error (s_threads s) t = Some (THandler ?x ?h) |- _ => rewrite !(tsum_set _ _ _ _ _ T), (pre_zero s t x h HH T eq_refl) end.
    cbn [pre live]. rewrite Nat.eqb_refl. split; [easy|]. right. pose proof (tsum_nonneg _ (s_threads s) (live_nonneg p0)). cbn [one]. lia.
Qed.
Lemma live_regd p th : live p th <= regd p th.
Proof. destruct th as [| |? []| | | | | |]; cbn; try lia; apply one_range. Qed.

(** * Who keeps the lock *)
Definition keeper_ok (s : sys) (ev : list event) : Prop := forall t th, s_mu s = Some t -> nth_error (s_threads s) t = Some th ->
  (th = TDone \/ exists p, th = THandler p HRelease) -> exists p, In (EvRefused p) ev.
Lemma keeper_step s ev a s' e : owner_ok s -> keeper_ok s ev -> exec s a = Some (s', e) -> keeper_ok s' (ev ++ e).
Proof.
  intros L O H. assert ((exists p, In (EvRefused p) ev) -> exists p, In (EvRefused p) (ev ++ e)) as M by (intros [p X]; exists p; apply in_or_app; now left).
  assert (forall u th, s_mu s = Some u -> nth_error (s_threads s) u = Some th -> holding th = true \/ exists p, In (EvRefused p) (ev ++ e)) as K.
  { intros u th MU T. destruct (L _ MU) as [th' [T' C]]. assert (th' = th) as -> by congruence. destruct C as [C|C]; [now left|right; eauto]. }
  intros u th MU T C. open_exec H; revert MU T; drop_facts; fields; intros MU T; try discriminate MU.
  all: try match type of T with nth_error (_ ++ _) _ = _ => apply M; destruct (L _ MU) as [th1 [T1 _]]; rewrite nth_error_app1 in T by (apply nth_error_Some; congruence); exact (O _ _ MU T C) end.
  all: try (apply nth_set in T as [[-> ->]|[NE T]]).
  all: try (injection MU as <-).
  all: try (apply M; eapply O; eassumption).
  all: try (exfalso; now apply NE).
  all: try (eexists; apply in_or_app; right; left; reflexivity).
  all: try (exfalso; destruct C as [C|[pp C]]; discriminate C).
  all: try match goal with T : nth_error (s_threads ?s) ?t = Some ?old, X : s_mu ?s = Some ?t |- _ => destruct (K _ _ X T) as [Y|Y]; [try discriminate Y|exact Y] end.
  all: try congruence.
  all: try match type of T with nth_error (_ ++ _) _ = _ => apply M; destruct (L _ MU) as [th1 [T1 _]]; rewrite nth_error_app1 in T by (apply nth_error_Some; congruence); exact (O _ _ MU T C) end.
Qed.

(** * Cancellation *)
Definition ended_ok (s : sys) : Prop := s_requesting s = false -> s_cancelled s = true.
Lemma ended_step s a s' e : ended_ok s -> exec s a = Some (s', e) -> ended_ok s'.
Proof.
  intros L H. unfold ended_ok in *. open_exec H; drop_facts; fields; intros X; try reflexivity; try (apply L; exact X); try congruence.
  now apply andb_prop in Heqb0 as [_ ->].
Qed.
Definition cancel_ok (l : list action) (s : sys) : Prop :=
  not_stopped l -> s_cancelled s = false /\ forall b, ~ In (TStop b) (s_threads s).
Lemma cancel_step l s a s' e : cancel_ok l s -> exec s a = Some (s', e) -> cancel_ok (l ++ [a]) s'.
Proof.
  intros O H [A [B C]]. destruct O as [D E].
  { repeat split; intros X; [apply A|apply B|apply C]; apply in_or_app; now left. }
  open_exec H; drop_facts; fields; (split; [try exact D; try congruence|intros bb X; inthreads X; try discriminate X; try (exact (E _ X))]).
  all: try (exfalso; match goal with T : nth_error (s_threads _) _ = Some (TStop ?b) |- _ => exact (E b (nth_error_In _ _ T)) end).
  all: try (exfalso; solve [apply A; apply in_or_app; right; now left|apply B; apply in_or_app; right; now left|apply C; apply in_or_app; right; now left]).
Qed.
End Solo.
