(** How connections end. *)
From Coq Require Import Permutation.
From Verif Require Import GoBase GoBaseProofs Bitfield BitfieldSpec BitfieldProofs GoMap PeerWire NetIP Tracker P2PPeer P2PServer P2PServerSpec P2PEndSpec P2PServerProofs P2PSortProofs P2PAnnounceProofs P2PRegistryProofs P2PLockProofs P2PSoloProofs P2POriginProofs NodeServerProofs.

Ltac ones := repeat match goal with |- context [one ?b] => lazymatch goal with X : 0 <= one b <= 1 |- _ => fail | _ => pose proof (one_range b) end end.
(** Handlers of p that have not come to the end. *)
Definition work (p : nat) (th : thread) : Z := match th with THandler p' (HDisconnect | HRelease) => 0 | THandler p' _ => one (Nat.eqb p p') | _ => 0 end.
Lemma work_nonneg p th : 0 <= work p th. Proof. destruct th as [| |? []| | | | | |]; cbn; try lia; apply one_range. Qed.
Lemma work_hand p th : work p th <= hand p th. Proof. destruct th as [| |? []| | | | | |]; cbn; try lia; apply one_range. Qed.
Lemma work_have p p' rest : work p (THandler p' (next_have rest)) = one (Nat.eqb p p'). Proof. now destruct rest. Qed.
Lemma work_after p p' k : work p (THandler p' (after_queue k)) = one (Nat.eqb p p'). Proof. now destruct k. Qed.
Lemma work_handle p p' q m q' h : handle q m = (q', h) -> work p (THandler p' h) = one (Nat.eqb p p').
Proof. intros H. apply handle_pc in H as (_ & A & B & C & D & E). destruct h; try reflexivity; contradiction. Qed.
Lemma idle_hand p t l : nth_error l t = Some (THandler p HDisconnect) -> tsum (work p) l + 1 <= tsum (hand p) l.
Proof.
  revert t. induction l as [|x l IH]; intros [|t] T; try discriminate T; unfold tsum; cbn [fold_right]; fold (tsum (work p) l) (tsum (hand p) l).
  - injection T as ->. cbn [work hand]. rewrite Nat.eqb_refl. cbn [one]. pose proof (tsum_le (work p) (hand p) l (work_hand p)). lia.
  - specialize (IH _ T). pose proof (work_hand p x). lia.
Qed.
Section End.
Variable own_hash own_id blank : bytes.
Notation exec := (exec own_hash own_id blank).
Notation runs := (runs own_hash own_id blank).
Set Default Proof Using "Type".
Lemma work_step s a s' e p : exec s a = Some (s', e) -> (p < List.length (s_peers s))%nat -> tsum (work p) (s_threads s') <= tsum (work p) (s_threads s).
Proof.
  intros H P. open_exec H; drop_facts; fields; sums; rewrite ?unchoke_sum by easy.
  all: repeat match goal with X : handle _ _ = _ |- _ => rewrite ?(work_handle _ _ _ _ _ _ X); clear X end; rewrite ?work_have, ?work_after; cbn [work]; try lia; ones; try lia.
  all: destruct (Nat.eqb_spec p (List.length (s_peers s))); cbn [one]; try lia.
  all: match goal with |- context [if ?b then HLoop else HDisconnect] => destruct b; cbn [work]; lia end.
Qed.
Lemma working s t p h : nth_error (s_threads s) t = Some (THandler p h) -> h <> HDisconnect -> h <> HRelease -> 1 <= tsum (work p) (s_threads s).
Proof.
  intros T A B. pose proof (tsum_ge (work p) t _ _ (work_nonneg p) T) as X. replace (work p (THandler p h)) with 1 in X; [exact X|]. destruct h; cbn; rewrite ?Nat.eqb_refl; try reflexivity; contradiction.
Qed.
Lemma received_work s a s' e p m : exec s a = Some (s', e) -> In (EvReceived p m) e -> 1 <= tsum (work p) (s_threads s).
Proof.
  intros H I. open_exec H; repeat (destruct I as [I|I]; [try discriminate I; injection I as -> ->|]); try contradiction; try (eapply working; [eassumption|discriminate..]).
  all: try match type of I with In _ (if ?b then _ else _) => destruct b; repeat (destruct I as [I|I]; [discriminate I|]); contradiction end.
Qed.
(** At the end of its handler, a connection is closed before anything else happens to it. *)
Lemma end_step s a s' e t p : exec s a = Some (s', e) -> nth_error (s_threads s) t = Some (THandler p HDisconnect) ->
  nth_error (s_threads s') t = Some (THandler p HDisconnect) \/ In (EvDisconnected p) e.
Proof.
  intros H T. assert (X : turn_of t a \/ ~ turn_of t a).
  { destruct a; try (right; intros [c X]; discriminate). destruct (Nat.eq_dec t t0) as [->|N]; [left; eexists; reflexivity|right; intros [d X]; congruence]. }
  destruct X as [[c ->]|X]; [|left; eapply others_stay; eassumption]. right. unfold P2PServer.exec in H. destruct (s_crashed s); [discriminate|]. unfold step_thread in H. rewrite T in H. unfold step_handler in H.
  destruct (nth_error (s_peers s) p); [|discriminate]. destruct c; try discriminate H. destruct (s_mu s); [discriminate|]. injection H as <- <-. now left.
Qed.
Lemma set_self {A} t (x y : A) l : nth_error l t = Some y -> nth_error (list_set t x l) t = Some x.
Proof. revert t. induction l as [|z l IH]; intros [|t] H; cbn in *; try discriminate; [reflexivity|now apply IH]. Qed.
Lemma fails_ends s t p h c s' e : nth_error (s_threads s) t = Some (THandler p h) -> at_storage (THandler p h) = true -> c = CErr \/ c = CStored false ->
  exec s (AGo t c) = Some (s', e) -> nth_error (s_threads s') t = Some (THandler p HDisconnect) /\ (e = [] \/ exists i, e = [EvStored i]) /\ (p < List.length (s_peers s))%nat /\ s_peers s' = s_peers s.
Proof.
  intros T A C H. unfold P2PServer.exec in H. destruct (s_crashed s); [discriminate|]. unfold step_thread in H. rewrite T in H. unfold step_handler in H.
  destruct (nth_error (s_peers s) p) eqn:P; [|discriminate]. assert (L : (p < List.length (s_peers s))%nat) by (apply nth_error_Some; congruence).
  destruct h; try discriminate A; destruct C as [->| ->]; try discriminate H.
  - injection H as <- <-. fields. split; [eapply set_self; exact T|auto].
  - injection H as <- <-. fields. split; [eapply set_self; exact T|auto].
  - destruct (bf_add _ _); [|discriminate]. injection H as <- <-. fields. split; [eapply set_self; exact T|]. split; [right; eauto|auto].
Qed.

(** * Reasons *)
Variable have : bytes.
Definition broken (l : list action) (p : nat) : Prop :=
  exists l1 t c l2 s ev h, l = l1 ++ AGo t c :: l2 /\ runs (started have) l1 = Some (s, ev) /\ nth_error (s_threads s) t = Some (THandler p h) /\ (c = CErr \/ c = CStored false).
Lemma broken_more l a p : broken l p -> broken (l ++ [a]) p.
Proof. intros (l1 & t & c & l2 & s1 & ev1 & h & -> & R). exists l1, t, c, (l2 ++ [a]), s1, ev1, h. rewrite <- app_assoc. auto. Qed.
Definition reason (l : list action) (s : sys) (ev : list event) (p : nat) : Prop := s_cancelled s = true \/ In (EvBlocked p) ev \/ broken l p.
Definition reasons (l : list action) (s : sys) (ev : list event) : Prop :=
  (forall p q, nth_error (s_peers s) p = Some q -> q_closed q = true -> reason l s ev p \/ In (EvDisconnected p) ev) /\
  (forall t p, nth_error (s_threads s) t = Some (THandler p HDisconnect) -> reason l s ev p) /\
  (forall p, In (EvDisconnected p) ev -> reason l s ev p).
Lemma cancelled_stays s a s' e : exec s a = Some (s', e) -> s_cancelled s = true -> s_cancelled s' = true.
Proof. intros H C. destruct (s_cancelled s') eqn:X; [reflexivity|]. rewrite (cancelled_step own_hash own_id blank _ _ _ _ H X) in C. discriminate. Qed.
Lemma reason_more l s ev a s' e p : exec s a = Some (s', e) -> reason l s ev p -> reason (l ++ [a]) s' (ev ++ e) p.
Proof. intros H [C|[B|B]]; [left; eapply cancelled_stays; eassumption|right; left; apply in_or_app; auto|right; right; now apply broken_more]. Qed.
Lemma closed_step s a s' e p q' : stop_ok s -> exec s a = Some (s', e) -> nth_error (s_peers s') p = Some q' -> q_closed q' = true ->
  (exists q, nth_error (s_peers s) p = Some q /\ q_closed q = true) \/ s_cancelled s' = true \/ In (EvBlocked p) e \/ In (EvDisconnected p) e.
Proof.
  intros SO H P C.
  assert (ST : In (TStop true) (s_threads s) -> s_cancelled s' = true) by (intros X; eapply cancelled_stays; [exact H|now apply (SO _ X)]).
  open_exec H; fields_in P; try (left; eauto; fail).
  all: try match goal with T : nth_error (s_threads _) _ = Some (TStop true) |- _ => right; left; apply ST; eapply nth_error_In; exact T end.
  all: try (apply nth_set in P as [[-> ->]|[_ P]]; [|left; eauto; fail]).
  all: try (right; right; left; left; reflexivity); try (right; right; right; left; reflexivity).
  all: try (left; eexists; split; [eassumption|]; first [exact C|cbn in C; exact C]).
  all: try (destruct (Nat.lt_ge_cases p (List.length (s_peers s))) as [L|L];
    [rewrite nth_error_app1 in P by exact L; left; eauto|rewrite nth_error_app2 in P by exact L; destruct (p - List.length (s_peers s))%nat as [|[|]]; cbn in P; try discriminate P; injection P as <-; discriminate C]).
  all: try match goal with X : handle ?q ?m = (?q', _) |- _ => left; exists q; split; [assumption|]; unfold handle in X;
    repeat match type of X with (if ?b then _ else _) = _ => destruct b end; injection X as <- _; exact C end.
Qed.
Lemma at_end_new s a s' e t p : exec s a = Some (s', e) -> nth_error (s_threads s') t = Some (THandler p HDisconnect) ->
  nth_error (s_threads s) t = Some (THandler p HDisconnect) \/ (exists c h, a = AGo t c /\ nth_error (s_threads s) t = Some (THandler p h) /\ (c = CErr \/ c = CStored false)) \/
  s_cancelled s = true \/ exists q, nth_error (s_peers s) p = Some q /\ q_closed q = true.
Proof.
  intros H T. open_exec H; revert T; drop_facts; fields; intros T; try (left; exact T).
  all: repeat match type of T with
    | nth_error (list_set _ _ _) _ = _ => apply nth_set in T as [[-> T]|[_ T]]
    | nth_error (_ ++ [_]) _ = _ => apply nth_app in T as [[-> T]|[_ T]] end; try discriminate T; try (left; exact T).
  all: try (right; left; do 2 eexists; split; [reflexivity|]; split; [injection T as ->; eassumption|auto]; fail).
  all: try (repeat match type of T with context [if ?b then _ else _] => destruct b eqn:? end; try discriminate T;
    right; left; do 2 eexists; split; [reflexivity|]; split; [injection T as ->; eassumption|auto]; fail).
  all: try match goal with X : handle _ _ = (_, ?h) |- _ => apply handle_pc in X as (_ & _ & _ & _ & _ & X); injection T as _ <-; now elim X end.
  all: try match type of T with context [next_have ?l] => destruct l; discriminate T | context [after_queue ?k] => destruct k; discriminate T end.
  - injection T as ->. right. right. destruct (s_cancelled s); [now left|]. right. eexists. split; [eassumption|assumption].
  - destruct (Nat.lt_ge_cases t (List.length (s_threads s))) as [L|L]; [rewrite nth_error_app1 in T by exact L; now left|].
    rewrite nth_error_app2 in T by exact L. apply nth_error_In, in_flat_map in T as (x & _ & T). destruct (nth_error (s_peers s) x) as [y|]; [|contradiction]. destruct (_ || _); [contradiction|]. destruct T as [T|[]]. discriminate.
Qed.
Lemma gone_event s a s' e p : exec s a = Some (s', e) -> In (EvDisconnected p) e -> exists t, nth_error (s_threads s) t = Some (THandler p HDisconnect).
Proof.
  intros H I. open_exec H; repeat (destruct I as [I|I]; [try discriminate I; injection I as ->|]); try contradiction; try (eexists; eassumption).
  all: try match type of I with In _ (if ?b then _ else _) => destruct b; repeat (destruct I as [I|I]; [discriminate I|]); contradiction end.
Qed.
Lemma reasons_all l s ev : runs (started have) l = Some (s, ev) -> reasons l s ev.
Proof.
  intros R. enough (runs (started have) l = Some (s, ev) /\ stop_ok s /\ reasons l s ev) as (_ & _ & Y) by exact Y. revert R.
  apply (runs_acts_ind own_hash own_id blank (fun l s ev => runs (started have) l = Some (s, ev) /\ stop_ok s /\ reasons l s ev)); clear l s ev.
  - split; [reflexivity|]. split; [intros th []|]. split; [intros [|] ? X; discriminate X|]. split; [intros [|] ? X; discriminate X|intros p []].
  - intros l s ev a s' e (R & SO & A & B & C) H. split; [rewrite runs_app, R; cbn [P2PServer.runs]; now rewrite H, app_nil_r|]. split; [eapply stop_ok_step; eassumption|].
    assert (M : forall p, reason l s ev p -> reason (l ++ [a]) s' (ev ++ e) p) by (intros p; eapply reason_more; exact H).
    assert (CC : forall p, In (EvDisconnected p) (ev ++ e) -> reason (l ++ [a]) s' (ev ++ e) p).
    { intros p I. apply in_app_or in I as [I|I]; [auto|]. destruct (gone_event _ _ _ _ _ H I) as [t T]. eauto. }
    split; [|split; [|exact CC]].
    + intros p q' P K. destruct (closed_step _ _ _ _ _ _ SO H P K) as [(q & P0 & K0)|[D|[D|D]]].
      * destruct (A _ _ P0 K0) as [D|D]; [left; auto|right; apply in_or_app; auto].
      * left. now left.
      * left. right. left. apply in_or_app. auto.
      * right. apply in_or_app. auto.
    + intros t p T. destruct (at_end_new _ _ _ _ _ _ H T) as [D|[(c & h & -> & D & F)|[D|(q & P & K)]]]; [eauto| |left; eapply cancelled_stays; eassumption|].
      * right. right. exists l, t, c, [], s, ev, h. auto.
      * destruct (A _ _ P K) as [D|D]; auto.
Qed.
Definition shut (s : sys) (ev : list event) : Prop :=
  (forall p q, nth_error (s_peers s) p = Some q -> q_closed q = true -> s_cancelled s = true \/ In (EvBlocked p) ev \/ In (EvDisconnected p) ev) /\
  (forall p, In (EvDisconnected p) ev -> (p < List.length (s_peers s))%nat /\ tsum (work p) (s_threads s) = 0).
Lemma shut_all l s ev : runs (started have) l = Some (s, ev) -> shut s ev.
Proof.
  intros R. enough (stop_ok s /\ hand_ok s /\ shut s ev) as (_ & _ & Y) by exact Y. revert R.
  apply (runs_ind own_hash own_id blank (fun s ev => stop_ok s /\ hand_ok s /\ shut s ev)); clear l s ev.
  - split; [intros th []|]. split; [intros p; apply one_range|]. split; [intros [|] ? X; discriminate X|intros p []].
  - intros s ev a s' e (SO & HO & A & B) H. split; [eapply stop_ok_step; eassumption|]. pose proof (hand_step _ _ _ _ _ _ _ HO H) as HO'. split; [exact HO'|]. split.
    + intros p q' P K. destruct (closed_step _ _ _ _ _ _ SO H P K) as [(q & P0 & K0)|[D|[D|D]]]; [|auto|right; left; apply in_or_app; auto|right; right; apply in_or_app; auto].
      destruct (A _ _ P0 K0) as [D|[D|D]]; [left; eapply cancelled_stays; eassumption|right; left; apply in_or_app; auto|right; right; apply in_or_app; auto].
    + intros p I. pose proof (tsum_nonneg (work p) (s_threads s') (work_nonneg p)) as NN. pose proof (peers_len _ _ _ _ _ _ _ H) as PL. apply in_app_or in I as [I|I].
      * destruct (B _ I) as [P W]. pose proof (work_step _ _ _ _ _ H P). split; lia.
      * destruct (gone_event _ _ _ _ _ H I) as [t T]. pose proof (idle_hand _ _ _ T) as IH. pose proof (HO p) as HP. pose proof (tsum_nonneg (work p) (s_threads s) (work_nonneg p)) as N0.
        assert (P : (p < List.length (s_peers s))%nat) by (destruct (Nat.ltb_spec p (List.length (s_peers s))); [assumption|cbn [one] in HP; lia]).
        pose proof (one_range (p <? List.length (s_peers s))%nat). pose proof (work_step _ _ _ _ _ H P). split; lia.
Qed.
(** A handler at work whose connection is closed: the client stops, or the peer was blocked. *)
Lemma closed_why l s ev t p h q : runs (started have) l = Some (s, ev) -> nth_error (s_threads s) t = Some (THandler p h) -> h <> HDisconnect -> h <> HRelease ->
  nth_error (s_peers s) p = Some q -> q_closed q = true -> s_cancelled s = true \/ In (EvBlocked p) ev.
Proof.
  intros R T A B P K. destruct (shut_all _ _ _ R) as [C D]. destruct (C _ _ P K) as [X|[X|X]]; [auto|auto|]. destruct (D _ X) as [_ W]. pose proof (working _ _ _ _ T A B). lia.
Qed.
Lemma loops s t p q m : s_crashed s = false -> nth_error (s_threads s) t = Some (THandler p HLoop) -> nth_error (s_peers s) p = Some q -> s_cancelled s = false -> q_closed q = false -> 0 <= m_index m ->
  exists s1 s2, exec s (AGo t COk) = Some (s1, []) /\ nth_error (s_threads s1) t = Some (THandler p HReceive) /\ exec s1 (AGo t (CMsg m)) = Some (s2, [EvReceived p m]).
Proof.
  intros C T P X K M. unfold P2PServer.exec at 1. rewrite C. unfold step_thread at 1. rewrite T. unfold step_handler at 1. rewrite P, X, K. cbn [orb].
  pose proof (set_self t (THandler p HReceive) _ _ T) as T1. destruct (handle q m) as [q' h'] eqn:HH.
  exists (goto t (THandler p HReceive) s). eexists. split; [reflexivity|]. split; [exact T1|]. unfold P2PServer.exec. fields. rewrite C. unfold step_thread. fields. rewrite T1. unfold step_handler. fields. rewrite P.
  destruct (Z.ltb_spec (m_index m) 0); [lia|]. rewrite HH. reflexivity.
Qed.
Lemma went_on s t p h c s' e : nth_error (s_threads s) t = Some (THandler p h) -> at_storage (THandler p h) = true -> c = COk \/ c = CStored true ->
  exec s (AGo t c) = Some (s', e) -> nth_error (s_threads s') t = Some (THandler p HLoop) /\ s_crashed s' = false /\ s_peers s' = s_peers s /\ exists q, nth_error (s_peers s) p = Some q.
Proof.
  intros T A C H. unfold P2PServer.exec in H. destruct (s_crashed s) eqn:CR; [discriminate|]. unfold step_thread in H. rewrite T in H. unfold step_handler in H.
  destruct (nth_error (s_peers s) p) as [q|] eqn:P; [|discriminate]. destruct h; try discriminate A; destruct C as [->| ->]; try discriminate H.
  - injection H as <- <-. fields. split; [eapply set_self; exact T|eauto].
  - injection H as <- <-. fields. split; [eapply set_self; exact T|eauto].
  - destruct (bf_add _ _); [|discriminate]. injection H as <- <-. fields. split; [eapply set_self; exact T|]. eauto.
Qed.
End End.

Section Final.
Variable hash id : bytes.
Variable n : Z.
Variable have : bytes.
Theorem closed_reasons l s ev p : run_of hash id n have l s ev -> In (EvDisconnected p) ev ->
  s_cancelled s = true \/ In (EvBlocked p) ev \/ P2PEndSpec.broken hash id n have l p.
Proof.
  intros (bl & B & Z0 & R) I. destruct (reasons_all _ _ _ _ _ _ _ R) as (_ & _ & X). destruct (X _ I) as [Y|[Y|(l1 & t & c & l2 & s1 & ev1 & h & E & R1 & T)]]; [auto|auto|].
  right. right. exists l1, t, c, l2, s1, ev1, h. split; [exact E|]. split; [|exact T]. exists bl. auto.
Qed.
End Final.
