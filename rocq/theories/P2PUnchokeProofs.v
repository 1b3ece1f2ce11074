(** Peers are unchoked. *)
From Verif Require Import GoBase GoBaseProofs Bitfield BitfieldSpec BitfieldProofs GoMap PeerWire NetIP Tracker P2PPeer P2PServer P2PServerSpec P2PUnchokeSpec
  P2PServerProofs P2PSortProofs P2PLockProofs P2PAnnounceProofs P2PRegistryProofs P2PSoloProofs NodeServerProofs P2PServerThms P2PEndProofs.

Section Unchoke.
Variable hash id blank : bytes.
Notation exec := (exec hash id blank).
Set Default Proof Using "Type".

Definition choked_at (s : sys) (p : nat) : Z := match nth_error (s_peers s) p with Some q => one (negb (q_choked q)) | None => 0 end.
Lemma choked_set s p q p' v l : s_peers s = l -> nth_error l p = Some q -> 
  match nth_error (list_set p v l) p' with Some q => one (negb (q_choked q)) | None => 0 end =
  if Nat.eqb p' p then one (negb (q_choked v)) else choked_at s p'.
Proof.
  intros <- E. unfold choked_at. destruct (Nat.eqb_spec p' p) as [->|N]; [rewrite list_set_nth_eq by (apply nth_error_Some; congruence)|rewrite list_set_nth_neq by congruence]; reflexivity.
Qed.
Lemma choked_drop l s p : choked_at (drop_all l s) p = choked_at s p.
Proof.
  apply (drop_all_ind (fun s' => choked_at s' p = choked_at s p)); [reflexivity|]. intros s1 p1 q1 H E. unfold choked_at at 1. fields. rewrite (choked_set s1 p1 q1 p _ _ eq_refl E).
  destruct (Nat.eqb_spec p p1) as [->|N]; [|exact H]. rewrite <- H. unfold choked_at. rewrite E. reflexivity.
Qed.
(** Unchoke calls that have changed the flag and not yet sent the message. *)
Definition swapped (p : nat) (th : thread) : Z := match th with TUnchoke x true => one (Nat.eqb p x) | _ => 0 end.
Definition unch_ok (s : sys) (ev : list event) : Prop := forall p, count (unchokes p) ev + tsum (swapped p) (s_threads s) <= choked_at s p.
Lemma swapped_nonneg p th : 0 <= swapped p th. Proof. destruct th as [| | | | | |? []| |]; cbn; try lia. apply one_range. Qed.
Lemma choked_step s a s' e p : exec s a = Some (s', e) -> choked_at s p <= choked_at s' p.
Proof.
  intros H. open_exec H; drops; unfold choked_at at 2; fields.
  all: try match goal with |- choked_at ?y ?p <= match nth_error (s_peers (drop_all ?l ?x)) _ with _ => _ end => change (choked_at y p <= choked_at (drop_all l x) p); rewrite choked_drop; unfold choked_at; fields; lia end.
  all: try (unfold choked_at; lia).
  all: try match goal with |- context [nth_error (s_peers ?x ++ [?y]) ?p] => unfold choked_at; destruct (nth_error (s_peers x) p) eqn:E; [rewrite nth_error_app1 by (apply nth_error_Some; congruence); rewrite E; lia|destruct (nth_error (s_peers x ++ [y]) p) as [z|]; [pose proof (one_range (negb (q_choked z))); lia|lia]] end.
  all: try match goal with E : nth_error (s_peers ?s) ?x = Some ?q |- _ => rewrite (choked_set s x q p _ _ eq_refl E); destruct (Nat.eqb_spec p x) as [->|N]; [unfold choked_at; rewrite E|lia] end.
  all: cbn; try lia; try match goal with |- context [one ?b <= _] => pose proof (one_range b); lia end.
  all: match goal with X : handle _ _ = (_, _) |- _ => unfold handle in X; brk X; injection X as <- <-; cbn; lia end.
Qed.
Lemma unch_step s ev a s' e : unch_ok s ev -> exec s a = Some (s', e) -> unch_ok s' (ev ++ e).
Proof.
  intros L H p. pose proof (choked_step _ _ _ _ p H) as G. specialize (L p). revert G.
  open_exec H; drops; fields; drop_facts; fields; sums; rewrite ?unchoke_sum by easy; counts; cbn [unchokes swapped]; intros G.
  all: rewrite ?andb_false_r; cbn [one]; try lia.
  all: try (repeat match goal with |- context [m_type ?m =? UNCHOKE] => change (m_type m =? UNCHOKE) with false || change (m_type m =? UNCHOKE) with true end; rewrite ?andb_false_r, ?andb_true_r; cbn [one]; lia).
  all: try (match goal with X : handle _ _ = (_, ?h) |- _ => idtac end; lia).
  { pose proof (one_range (p =? p0)%nat). unfold choked_at in *. fields. lia. }
  revert G. unfold choked_at. fields. match goal with E : nth_error (s_peers ?s) ?x = Some ?q |- _ => rewrite (choked_set s x q p _ _ eq_refl E); destruct (Nat.eqb_spec p x) as [->|N]; [|cbn [one]; fold (choked_at s p) in *; lia] end.
  unfold choked_at in L. match goal with E : nth_error (s_peers _) ?x = Some ?q, F : q_choked ?q = true |- _ => rewrite E, F in L end. cbn in *. lia.
Qed.
End Unchoke.

Section Final.
Variable hash id : bytes.
Variable n : Z.
Variable have : bytes.
Notation run_of := (run_of hash id n have).
Notation goes_on := (goes_on hash id n).
Set Default Proof Using "Type".
Lemma unchoked_at s p : unchoked s p <-> choked_at s p = 1.
Proof.
  unfold unchoked, choked_at. destruct (nth_error (s_peers s) p) as [q|]; [|split; [intros (q & X & _); discriminate|lia]].
  split; [intros (q' & [= <-] & ->); reflexivity|]. destruct (q_choked q) eqn:E; cbn; [lia|]. eauto.
Qed.
Lemma choked_range s p : 0 <= choked_at s p <= 1.
Proof. unfold choked_at. destruct (nth_error _ _); [apply one_range|lia]. Qed.
Theorem stays l s ev p l' s' ev' : run_of l s ev -> unchoked s p -> goes_on s l' s' ev' -> unchoked s' p.
Proof.
  intros _ U [blank [_ G]]. rewrite unchoked_at in *. revert G.
  apply (runs_ind hash id blank (fun s' _ => choked_at s' p = 1)); [exact U|]. intros s1 ev1 a s2 e C H. pose proof (choked_step _ _ _ _ _ _ _ p H). pose proof (choked_range s2 p). lia.
Qed.
Lemma unch_run l s ev : run_of l s ev -> unch_ok s ev.
Proof.
  intros [blank [_ [_ R]]]. revert R. apply runs_ind; [intros p; unfold choked_at; cbn; destruct p; cbn; lia|]. intros. eapply unch_step; eassumption.
Qed.
Theorem once l s ev p : run_of l s ev -> 0 <= count (unchokes p) ev <= 1 /\ (count (unchokes p) ev = 1 -> unchoked s p).
Proof.
  intros R. pose proof (unch_run _ _ _ R p) as U. pose proof (choked_range s p). pose proof (zlen_nonneg (filter (unchokes p) ev)). fold (count (unchokes p) ev) in *.
  pose proof (tsum_nonneg (swapped p) (s_threads s) (swapped_nonneg p)). split; [lia|]. intros. apply unchoked_at. lia.
Qed.
Theorem called l s ev p : run_of l s ev -> s_crashed s = false -> s_mu s = None -> connected s p ->
  exists s1, goes_on s [AUnchoke] s1 [] /\
  (unchoked s p \/ exists t, forall l2 s2 e2, goes_on s1 l2 s2 e2 -> s_crashed s2 = false -> (forall a, In a l2 -> ~ turn_of t a) ->
   exists s3, goes_on s2 [AGo t COk] s3 [] /\ unchoked s3 p /\ (unchoked s2 p \/ exists s4, goes_on s3 [AGo t COk] s4 [EvSent p (mk_plain UNCHOKE)])).
Proof.
  intros R C M ((x & X) & q & Q & QC). pose proof R as (blank & B & _).
  eexists. split; [exists blank; split; [exact B|]; cbn [runs]; unfold exec; rewrite C, M; reflexivity|].
  destruct (q_choked q) eqn:QK; [right|left; exists q; auto].
  match goal with |- context [set_threads (s_threads s ++ ?k) s] => set (k0 := k) end.
  assert (I : In (TUnchoke p false) k0). { apply in_flat_map. exists p. split; [apply in_map_iff; exists (x, p); auto|]. rewrite Q, QC, QK. now left. }
  apply In_nth_error in I as [j J]. exists (List.length (s_threads s) + j)%nat. intros l2 s2 e2 (blank' & B' & G) C2 NT. assert (blank' = blank) as -> by congruence.
  assert (T2 : nth_error (s_threads s2) (List.length (s_threads s) + j) = Some (TUnchoke p false)).
  { assert (A : forall l2 s1 s2 e2, runs hash id blank s1 l2 = Some (s2, e2) -> (forall a, In a l2 -> ~ turn_of (List.length (s_threads s) + j) a) -> nth_error (s_threads s1) (List.length (s_threads s) + j) = Some (TUnchoke p false) -> nth_error (s_threads s2) (List.length (s_threads s) + j) = Some (TUnchoke p false)).
    { clear. induction l2 as [|a l2 IH]; cbn [runs]; intros s1 s2 e2 G NT T; [now injection G as <- <-|]. destruct (exec hash id blank s1 a) as [[s3 e3]|] eqn:E; [|discriminate]. destruct (runs hash id blank s3 l2) as [[s4 e4]|] eqn:R; [|discriminate]. injection G as <- <-.
      eapply IH; [exact R|intros; apply NT; now right|]. eapply others_stay; [exact E|apply NT; now left|exact T]. }
    eapply A; [exact G|exact NT|]. fields. rewrite nth_error_app2 by lia. replace (_ + j - _)%nat with j by lia. exact J. }
  assert (PL : exists q2, nth_error (s_peers s2) p = Some q2).
  { assert (R2 : run_of (l ++ AUnchoke :: l2) s2 (ev ++ [] ++ e2)). { eapply run_more; [exact R|]. exists blank. split; [exact B|]. cbn [runs]. unfold exec at 1. rewrite C, M. fold k0. rewrite G. reflexivity. }
    pose proof (v_range _ _ _ (run_inv _ _ _ _ _ _ _ R2) _ p (nth_error_In _ _ T2) eq_refl) as L. apply nth_error_Some in L. destruct (nth_error (s_peers s2) p); [eauto|congruence]. }
  destruct PL as [q2 Q2]. set (t := (List.length (s_threads s) + j)%nat) in *. destruct (q_choked q2) eqn:K2.
  - assert (E : exec hash id blank s2 (AGo t COk) = Some (goto t (TUnchoke p true) (peer_is p (set_choked false q2) s2), [])) by (unfold exec, step_thread; rewrite C2, T2, Q2, K2; reflexivity).
    eexists. split; [exists blank; split; [exact B|]; cbn [runs]; rewrite E; reflexivity|]. split.
    + exists (set_choked false q2). split; [|reflexivity]. fields. apply list_set_nth_eq. apply nth_error_Some. congruence.
    + right. eexists. exists blank. split; [exact B|]. cbn [runs]. unfold exec, step_thread. fields. rewrite C2. rewrite (set_self _ _ _ _ T2). reflexivity.
  - assert (U : unchoked s2 p) by (exists q2; auto).
    assert (E : exec hash id blank s2 (AGo t COk) = Some (goto t TDone s2, [])) by (unfold exec, step_thread; rewrite C2, T2, Q2, K2; reflexivity).
    eexists. split; [exists blank; split; [exact B|]; cbn [runs]; rewrite E; reflexivity|]. split; [exact U|now left].
Qed.
End Final.
