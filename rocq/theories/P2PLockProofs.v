(** The server's lock, what is blocked, what is sent first, and Stop. *)
From Coq Require Import Permutation.
From Verif Require Import GoBase GoBaseProofs Bitfield BitfieldSpec BitfieldProofs GoMap PeerWire NetIP Tracker P2PPeer P2PServer P2PServerSpec P2PServerProofs P2PSortProofs P2PAnnounceProofs P2PRegistryProofs.

Section Lock.
Variable own_hash own_id blank have0 : bytes.
Notation exec := (exec own_hash own_id blank).
Notation runs := (runs own_hash own_id blank).
Set Default Proof Using "Type".

(** * While goroutine t has the lock and does not move *)
Lemma held_step s t a s' e : locked_ok s -> s_mu s = Some t -> ~ turn_of t a -> exec s a = Some (s', e) ->
  s_mu s' = Some t /\ (forall x, In x e -> needs_lock x = false) /\ (forall th, nth_error (s_threads s) t = Some th -> nth_error (s_threads s') t = Some th).
Proof.
  intros L M N H. unfold locked_ok in L. open_exec H; drop_facts; fields; try congruence.
  all: try match goal with E : nth_error (s_threads ?s) ?t1 = Some ?th, L : lock_ok (s_threads ?s) _ |- _ =>
    lazymatch eval cbn in (holding th) with true => let X := fresh in pose proof (L _ _ E eq_refl) as X; exfalso; apply N; rewrite M in X; injection X as ->; eexists; reflexivity | _ => idtac end end.
  all: split; [try exact M|split; [intros xx X; cbn [In] in X; repeat (destruct X as [<-|X]; try reflexivity); easy|]].
  all: intros th T; try exact T.
  all: repeat (rewrite list_set_nth_neq by (intros ->; apply N; eexists; reflexivity)).
  all: try (rewrite nth_error_app1; [|first [rewrite list_set_length|idtac]; apply nth_error_Some; congruence]).
  all: repeat (rewrite list_set_nth_neq by (intros ->; apply N; eexists; reflexivity)); try exact T.
Qed.
Lemma held_runs t l : forall s s' ev, locked_ok s -> s_mu s = Some t -> (forall a, In a l -> ~ turn_of t a) -> runs s l = Some (s', ev) ->
  s_mu s' = Some t /\ (forall x, In x ev -> needs_lock x = false).
Proof.
  induction l as [|a l IH]; cbn [P2PServer.runs]; intros s s' ev L M N.
  - intros [= <- <-]. split; [easy|]. intros x [].
  - destruct (exec s a) as [[s1 e1]|] eqn:E; [|discriminate]. destruct (runs s1 l) as [[s2 e2]|] eqn:R; [|discriminate]. intros [= <- <-].
    destruct (held_step s t a s1 e1 L M) as [M1 [N1 _]]; [apply N; now left|easy|].
    destruct (IH s1 s2 e2) as [M2 N2]; [now apply (lock_step own_hash own_id blank s a s1 e1)|easy|intros; apply N; now right|easy|].
    split; [easy|]. intros x X. apply in_app_or in X as [X|X]; auto.
Qed.
(** A goroutine that has the lock for ever. *)
Definition frozen (t : nat) (s : sys) : Prop := s_mu s = Some t /\
  exists th, nth_error (s_threads s) t = Some th /\ (th = TDone \/ (exists p, th = THandler p HRelease) \/ (s_requesting s = false /\ exists p k, th = THandler p (HToken k))).
Lemma requesting_off s a s' e : exec s a = Some (s', e) -> s_requesting s = false -> s_requesting s' = false.
Proof. intros H R. open_exec H; drop_facts; fields; congruence. Qed.
Lemma frozen_step s t a s' e : locked_ok s -> frozen t s -> exec s a = Some (s', e) -> frozen t s' /\ (forall x, In x e -> needs_lock x = false).
Proof.
  intros L [M [th [T C]]] H.
  assert (turn_of t a \/ ~ turn_of t a) as [[c ->]|N].
  { destruct a as [t1 c| | | | | | | | | |]; try (right; intros [? X]; discriminate X).
    destruct (Nat.eq_dec t1 t) as [->|N]; [left; now exists c|]. right. intros [? X]. congruence. }
  - destruct C as [->|[[p ->]|[R [p [k ->]]]]].
    + unfold P2PServer.exec, step_thread in H. rewrite T in H. destruct (s_crashed s); discriminate H.
    + unfold P2PServer.exec, step_thread, step_handler in H. rewrite T in H. brk H. injection H as <- <-. split.
      * split; [easy|]. fields. rewrite list_set_nth_eq by (apply nth_error_Some; congruence). eauto.
      * intros x [<-|[]]. reflexivity.
    + unfold P2PServer.exec, step_thread, step_handler, hand_over in H. rewrite T, R in H. brk H.
  - destruct (held_step s t a s' e L M N H) as [M1 [N1 K]]. split; [|easy]. split; [easy|]. exists th. split; [now apply K|].
    destruct C as [C|[C|[R C]]]; [auto|auto|]. right. right. split; [|easy]. now apply (requesting_off _ _ _ _ H).
Qed.
Lemma frozen_runs t l : forall s s' ev, locked_ok s -> frozen t s -> runs s l = Some (s', ev) -> s_mu s' = Some t /\ (forall x, In x ev -> needs_lock x = false).
Proof.
  induction l as [|a l IH]; cbn [P2PServer.runs]; intros s s' ev L M.
  - intros [= <- <-]. split; [apply M|]. intros x [].
  - destruct (exec s a) as [[s1 e1]|] eqn:E; [|discriminate]. destruct (runs s1 l) as [[s2 e2]|] eqn:R; [|discriminate]. intros [= <- <-].
    destruct (frozen_step s t a s1 e1 L M E) as [M1 N1].
    destruct (IH s1 s2 e2) as [M2 N2]; [now apply (lock_step own_hash own_id blank s a s1 e1)|easy|easy|].
    split; [easy|]. intros x X. apply in_app_or in X as [X|X]; auto.
Qed.

(** * Otherwise whoever has the lock can go on *)
Definition owner_ok (s : sys) : Prop := forall t, s_mu s = Some t -> exists th, nth_error (s_threads s) t = Some th /\
  (holding th = true \/ th = TDone \/ exists p, th = THandler p HRelease).
Lemma owner_step s a s' e : locked_ok s -> owner_ok s -> exec s a = Some (s', e) -> owner_ok s'.
Proof.
  intros L O H. unfold locked_ok in L. unfold owner_ok in *. open_exec H; drop_facts; fields; try exact O; intros tt M; try discriminate M.
  all: try (injection M as <-; rewrite list_set_nth_eq by (apply nth_error_Some; congruence); eexists; split; [reflexivity|cbn [holding]; eauto]; fail).
  all: try congruence; try (exact (O tt M)).
  all: try (destruct (O tt M) as [th [T C]]).
  all: try (exists th; split; [rewrite nth_error_app1; [exact T|apply nth_error_Some; congruence]|exact C]; fail).
  all: match goal with E : nth_error (s_threads _) ?t = Some ?h |- context [list_set ?t _ _] => destruct (Nat.eq_dec t tt) as [->|N] end.
  all: try (exists th; split; [first [rewrite list_set_nth_neq by easy; exact T|rewrite nth_error_app1; [rewrite list_set_nth_neq by easy; exact T|rewrite list_set_length; apply nth_error_Some; congruence]
      |rewrite list_set_nth_neq by easy; rewrite nth_error_app1; [exact T|apply nth_error_Some; congruence]]|exact C]; fail).
  all: match goal with E : nth_error (s_threads _) ?t = Some ?h, T : nth_error (s_threads _) ?t = Some ?th |- _ => rewrite E in T; injection T as <- end.
  all: try (exfalso; destruct C as [C|[C|[? C]]]; discriminate C).
  all: try (rewrite list_set_nth_eq by (apply nth_error_Some; congruence); eexists; split; [reflexivity|cbn [holding]; eauto]; fail).
Qed.
Lemma reorders_refl l : reorders l l = true.
Proof. induction l as [|x l IH]; cbn; [easy|]. now rewrite Z.eqb_refl. Qed.
Definition names_peer (th : thread) (p : nat) : Prop :=
  match th with
  | THandler q _ | TRequester q _ | TWaiter q _ | TUnchoke q _ => q = p
  | TPiece q _ (PHave l) => q = p \/ In p l
  | TPiece q _ (PSend x l) => q = p \/ x = p \/ In p l
  | TPiece q _ _ => q = p
  | _ => False
  end.
Definition range_ok (s : sys) : Prop := forall th p, In th (s_threads s) -> names_peer th p -> (p < List.length (s_peers s))%nat.
Lemma range_step s a s' e : act_ok s -> range_ok s -> exec s a = Some (s', e) -> range_ok s'.
Proof.
  intros A L H. pose proof (peers_len own_hash own_id blank _ _ _ _ H) as PL.
  assert (forall th p, In th (s_threads s) -> names_peer th p -> (p < List.length (s_peers s'))%nat) as L'.
  { intros th p I N. specialize (L th p I N). lia. }
  open_exec H; unfold range_ok; revert L'; clear PL; drops; fields; rewrite ?drop_all_len; drop_facts; fields; rewrite ?list_set_length; intros L' th pp X.
  all: repeat match type of X with
    | In ?th (_ ++ _) => apply in_app_or in X as [X|X]
    | In ?th (list_set _ _ _) => apply in_list_set in X as [->|X]
    | In ?th [_] => destruct X as [<-|[]]
    end; try (intros N; now apply (L' th)); try (intros []; fail).
  all: try (cbn [names_peer]; intros <-; rewrite ?app_length; cbn [List.length]; lia).
  all: try match goal with E : nth_error (s_threads _) _ = Some _ |- _ => pose proof (fun p => L' _ p (nth_error_In _ _ E)) as TA end.
  all: try (intros N; apply TA; cbn [names_peer In] in *; tauto).
  - cbn [names_peer]. intros [N|N]; [now apply TA|].
    match goal with X : same_peers _ _ = true |- _ => apply (same_peers_in _ _ _ X) in N end.
    apply in_map_iff in N as [[x p1] [<- N]]. destruct (A _ _ N) as [q1 [Q _]]. apply nth_error_Some. cbn [snd]. congruence.
  - apply in_flat_map in X as [p1 [X1 X2]]. destruct (nth_error (s_peers s) p1) as [q|] eqn:Q; [|destruct X2].
    destruct (_ || _); [destruct X2|]. destruct X2 as [<-|[]]. cbn [names_peer]. intros <-. apply nth_error_Some. congruence.
Qed.

Lemma set_same_mu t th (s : sys) : nth_error (s_threads s) t = Some th -> forall th', nth_error (list_set t th' (s_threads s)) t = Some th'.
Proof. intros E th'. apply list_set_nth_eq. apply nth_error_Some. congruence. Qed.
(** The owner of the lock gives it back by steps of its own. *)
Definition can_release (t : nat) (s : sys) : Prop := exists l s' ev, (forall a, In a l -> turn_of t a) /\ runs s l = Some (s', ev) /\ s_mu s' = None.
Lemma release_one t c s s' e : exec s (AGo t c) = Some (s', e) -> s_mu s' = None -> can_release t s.
Proof.
  intros H M. exists [AGo t c], s', (e ++ []). split; [|split; [|easy]].
  - intros a [<-|[]]. now exists c.
  - cbn [P2PServer.runs]. now rewrite H.
Qed.
Lemma release_more t c s s' e : exec s (AGo t c) = Some (s', e) -> can_release t s' -> can_release t s.
Proof.
  intros H [l [s2 [ev [A [B C]]]]]. exists (AGo t c :: l), s2, (e ++ ev). split; [|split; [|easy]].
  - intros a [<-|I]; [now exists c|auto].
  - cbn [P2PServer.runs]. now rewrite H, B.
Qed.
Lemma pick_release t p l : forall s, s_crashed s = false -> (p < List.length (s_peers s))%nat -> nth_error (s_threads s) t = Some (TRequester p (RPick l)) -> can_release t s.
Proof.
  induction l as [|i l IH]; intros s C P T; destruct (nth_error (s_peers s) p) as [q|] eqn:Q; try (apply nth_error_None in Q; lia).
  - eapply (release_one t COk). { unfold P2PServer.exec. rewrite C. unfold step_thread. rewrite T. unfold step_requester. rewrite Q. reflexivity. } reflexivity.
  - destruct (mget Z.eqb i (g_inflight (s_reg s))) as [x|] eqn:G.
    + eapply (release_more t COk). { unfold P2PServer.exec. rewrite C. unfold step_thread. rewrite T. unfold step_requester. rewrite Q, G. reflexivity. }
      apply IH; fields; [easy|easy|]. apply (set_same_mu t _ s T).
    + eapply (release_one t COk). { unfold P2PServer.exec. rewrite C. unfold step_thread. rewrite T. unfold step_requester. rewrite Q, G. reflexivity. } reflexivity.
Qed.
Lemma leave_release t p q s : s_crashed s = false -> nth_error (s_peers s) p = Some q -> nth_error (s_threads s) t = Some (TRequester p RNotInterest) -> can_release t s.
Proof.
  intros C Q T. destruct (q_interested q) eqn:I.
  - eapply (release_more t COk). { unfold P2PServer.exec. rewrite C. unfold step_thread. rewrite T. unfold step_requester. rewrite Q, I. reflexivity. }
    eapply (release_one t COk). { unfold P2PServer.exec. fields. rewrite C. unfold step_thread. fields. rewrite (set_same_mu t _ s T). unfold step_requester. fields.
      rewrite list_set_nth_eq by (apply nth_error_Some; congruence). reflexivity. } reflexivity.
  - eapply (release_one t COk). { unfold P2PServer.exec. rewrite C. unfold step_thread. rewrite T. unfold step_requester. rewrite Q, I. reflexivity. } reflexivity.
Qed.
Lemma owner_releases s t : range_ok s -> owner_ok s -> s_crashed s = false -> s_mu s = Some t -> can_release t s \/ frozen t s.
Proof.
  intros R O C M. destruct (O t M) as [th [T [Hd|Hd]]].
  2: { right. split; [easy|]. exists th. split; [easy|]. tauto. }
  assert (forall p, names_peer th p -> exists q, nth_error (s_peers s) p = Some q) as PE.
  { intros p N. specialize (R th p (nth_error_In _ _ T) N). destruct (nth_error (s_peers s) p) as [q|] eqn:Q; [eauto|]. apply nth_error_None in Q. lia. }
  destruct th as [| |p h|p r| | | |[]|]; try discriminate Hd.
  - destruct (PE p eq_refl) as [q Q]. destruct h as [| | | | | | | | | |k| | | | | |]; try discriminate Hd.
    + left. eapply (release_one t COk). { unfold P2PServer.exec. rewrite C. unfold step_thread. rewrite T. unfold step_handler. rewrite Q. reflexivity. } reflexivity.
    + destruct (s_requesting s) eqn:RQ.
      * left. eapply (release_one t COk). { unfold P2PServer.exec. rewrite C. unfold step_thread. rewrite T. unfold step_handler. rewrite Q. unfold hand_over. rewrite RQ. reflexivity. } reflexivity.
      * right. split; [easy|]. eexists. split; [exact T|]. eauto 6.
  - left. destruct (PE p eq_refl) as [q Q]. destruct r as [| | | |l]; try discriminate Hd.
    + destruct (bf_items (bf_difference (q_bits q) (s_have s))) as [|i l] eqn:IT.
      * eapply (release_more t (CSort [] [])). { unfold P2PServer.exec. rewrite C. unfold step_thread. rewrite T. unfold step_requester. rewrite Q, IT. reflexivity. }
        apply (leave_release t p q); fields; [easy|exact Q|apply (set_same_mu t _ s T)].
      * assert (exists l', sort_slice (fun i => zlen (holders_of (s_reg s) i)) (i :: l) [] (i :: l) = Some l') as [l' SL].
        { unfold sort_slice. destruct (_ <=? _)%nat; [eauto|]. rewrite reorders_refl. eauto. }
        eapply (release_more t (CSort [] (i :: l))). { unfold P2PServer.exec. rewrite C. unfold step_thread. rewrite T. unfold step_requester. rewrite Q, IT, SL. reflexivity. }
        apply (pick_release t p l'); fields; [easy|apply nth_error_Some; congruence|]. apply (set_same_mu t _ s T).
    + now apply (leave_release t p q).
    + eapply (release_one t COk). { unfold P2PServer.exec. rewrite C. unfold step_thread. rewrite T. unfold step_requester. rewrite Q. reflexivity. } reflexivity.
    + apply (pick_release t p l s); [easy|apply nth_error_Some; congruence|easy].
  - left. eapply (release_one t COk). { unfold P2PServer.exec. rewrite C. unfold step_thread. rewrite T. reflexivity. } reflexivity.
Qed.

(** * Blocked addresses *)
Definition barred (a : bytes) (s : sys) : Prop := In a (g_blocked (s_reg s)).
Lemma block_addrs_in q g a : In a (g_blocked (block_addrs q g)) <-> In a (g_blocked g) \/ In a (addrs_of g (name_of q)).
Proof.
  unfold block_addrs. fields. generalize (addrs_of g (name_of q)) (g_blocked g). intros l. induction l as [|x l IH]; intros b; cbn [fold_left In]; [tauto|].
  rewrite IH, (sadd_in _ beq_iff). intuition.
Qed.
Lemma barred_step s a s' e x : barred x s -> exec s a = Some (s', e) -> barred x s' /\ ~ In (EvQueued x) e /\
  ((forall th, In th (s_threads s) -> ~ dials_now x th) -> ~ In (EvDial x) e /\ forall th, In th (s_threads s') -> ~ dials_now x th).
Proof.
  intros B H. unfold barred in *. open_exec H; drop_facts; fields.
  all: split; [rewrite ?(proj1 (proj2 (disconnect_same _ _ _))); try exact B; try (apply block_addrs_in; now left)|].
  all: split; [try (cbn [In]; intros X; repeat (destruct X as [X|X]; try discriminate X); easy)|].
  all: try (intros D; split; [cbn [In]; intros X; repeat (destruct X as [X|X]; try discriminate X); try easy|intros th X; repeat match type of X with
    | In ?th (_ ++ _) => apply in_app_or in X as [X|X]
    | In ?th (list_set _ _ _) => apply in_list_set in X as [->|X]
    | In ?th [_] => destruct X as [<-|[]]
    | In ?th (flat_map _ _) => apply unchoke_threads in X as [? ->]
    end; try (now apply D); try (intros [? [K _]]; discriminate K)]).
  all: try (injection X as ->; match goal with E : nth_error (s_threads _) _ = Some _ |- _ => apply (D _ (nth_error_In _ _ E)); eexists; split; [reflexivity|assumption] end).
  - intros [tp' [K K2]]. injection K as <-. match goal with X : smem _ _ _ = false |- _ => assert (smem bytes_eqb l (g_blocked (s_reg s)) = true) as Y; [|congruence] end. apply (smem_in _ beq_iff). congruence.
  - cbn [In]. intros [X|[]]. injection X as ->. match goal with X : _ || _ = false |- _ => apply orb_false_iff in X as [_ X]; apply not_true_iff_false in X; apply X end. now apply (smem_in _ beq_iff).
Qed.
Lemma barred_runs x l : forall s s' ev, barred x s -> runs s l = Some (s', ev) -> ~ In (EvQueued x) ev /\
  ((forall th, In th (s_threads s) -> ~ dials_now x th) -> ~ In (EvDial x) ev).
Proof.
  induction l as [|a l IH]; cbn [P2PServer.runs]; intros s s' ev B.
  - intros [= <- <-]. easy.
  - destruct (exec s a) as [[s1 e1]|] eqn:E; [|discriminate]. destruct (runs s1 l) as [[s2 e2]|] eqn:R; [|discriminate]. intros [= <- <-].
    destruct (barred_step s a s1 e1 x B E) as [B1 [N1 D1]]. destruct (IH s1 s2 e2 B1 R) as [N2 D2]. split.
    + intros X. apply in_app_or in X as [X|X]; auto.
    + intros D. destruct (D1 D) as [D3 D4]. intros X. apply in_app_or in X as [X|X]; auto. now apply (D2 D4).
Qed.
End Lock.
