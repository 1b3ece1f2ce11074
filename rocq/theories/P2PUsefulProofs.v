(** Useful peers keep being asked; refusals; the first message; Stop. *)
From Coq Require Import Permutation.
From Verif Require Import GoBase GoBaseProofs Bitfield BitfieldSpec BitfieldProofs GoMap PeerWire NetIP Tracker P2PPeer P2PServer P2PServerSpec P2PServerProofs P2PSortProofs P2PAnnounceProofs P2PRegistryProofs P2PLockProofs.

Section Useful.
Variable own_hash own_id blank have0 : bytes.
Notation exec := (exec own_hash own_id blank).
Notation runs := (runs own_hash own_id blank).

(** * A peer that could be asked is queued *)
Definition busy (s : sys) (p : nat) (i : Z) : Prop := exists h, In (THandler p h) (s_threads s) /\ busy_with i h.
Definition useful_ok (s : sys) : Prop := forall p q i, nth_error (s_peers s) p = Some q -> q_closed q = false -> q_rchoked q = false ->
  member (q_bits q) i -> ~ member (s_have s) i -> In p (g_queued (s_reg s)) \/ busy s p i.
Lemma in_set_other {A} (l : list A) t x y z : nth_error l t = Some x -> In z l -> z = x \/ In z (list_set t y l).
Proof.
  intros E I. apply In_nth_error in I as [k K]. destruct (Nat.eq_dec t k) as [->|N]; [left; congruence|].
  right. apply (nth_error_In _ k). now rewrite list_set_nth_neq.
Qed.
Lemma in_set_self {A} (l : list A) t x y : nth_error l t = Some x -> In y (list_set t y l).
Proof. intros E. apply (nth_error_In _ t). apply list_set_nth_eq. apply nth_error_Some. congruence. Qed.
Hypothesis blank_empty : forall i, ~ member blank i.

Lemma useful_step s a s' e : useful_ok s -> exec s a = Some (s', e) -> useful_ok s'.
Proof.
  intros L H pp qq ii Q C R M V.
  assert (~ member (s_have s) ii) as V0 by (intros X; apply V; now apply (have_mono own_hash own_id blank _ _ _ _ _ H)).
  specialize (L pp). unfold busy in *.
  open_exec H; revert Q V; drops; fields; intros Q V.
  all: try (apply drop_all_peers in Q as [q0 [Q [->| ->]]]; [|discriminate C]).
  all: try (apply nth_set in Q as [[-> ->]|[NE Q]]).
  all: try (apply nth_app in Q as [[_ ->]|[_ Q]]; [now apply blank_empty in M|]).
  all: drop_facts; fields; rewrite ?(proj1 (proj2 (proj2 (disconnect_same _ _ _)))); fields.
  all: try (destruct (L _ ii Q C R M V0) as [K|[h1 [K B]]]; [left; exact K|right; exists h1; split; [|exact B]; exact K]; fail).
  all: try (destruct (L _ ii Q C R M V0) as [K|[h1 [K B]]]; [left; exact K|right; exists h1; split; [apply in_or_app; left; exact K|exact B]]; fail).
  all: try discriminate C.
  all: try match goal with E : nth_error (s_peers _) ?y = Some ?z, L : forall q i, nth_error _ ?y = Some q -> _ |- _ =>
    let K := fresh "K" in pose proof (fun b => L z ii E b) as K; clear L; cbn [set_rchoked set_rinterested set_closed set_choked set_interested set_id q_closed q_rchoked q_bits] in C, R, M;
    destruct (K C R M V0) as [KQ|[h1 [KH KB]]]; clear K end.
  all: try (left; exact KQ).
  all: try match goal with E : nth_error (s_threads _) ?t = Some ?old |- context [list_set ?t ?new (s_threads _)] =>
    destruct (in_set_other _ t old new _ E KH) as [KE|KE];
      [try discriminate KE; injection KE; intros; subst; try contradiction KB|right; exists h1; split; [first [exact KE|apply in_or_app; left; exact KE]|exact KB]] end.
  all: try match goal with E : nth_error (s_threads _) ?t = Some ?old |- context [list_set ?t ?new (s_threads ?s ++ ?x)] =>
    assert (nth_error (s_threads s ++ x) t = Some old) as E' by (rewrite nth_error_app1; [exact E|apply nth_error_Some; congruence]);
    destruct (in_set_other _ t old new (THandler pp h1) E') as [KE|KE]; [apply in_or_app; now left|
      try discriminate KE; injection KE; intros; subst; try contradiction KB|right; exists h1; split; [exact KE|exact KB]] end.
  - (* a message *)
    match goal with X : handle _ _ = _ |- _ => rewrite (handle_bits _ _ _ _ X) in M; unfold handle in X; brk X; injection X as <- <- end;
      cbn [set_rchoked set_rinterested q_closed q_rchoked] in C, R; try discriminate R.
    1: { right. exists (HQueue None). split; [now apply (in_set_self _ _ _ _ Heqo)|exact I]. }
    all: match goal with E : nth_error (s_peers _) _ = Some ?z |- _ => destruct (L z ii E C R M V0) as [KQ|[h1 [KH KB]]] end; [now left|].
    all: match goal with E : nth_error (s_threads _) ?t = Some ?old |- context [list_set ?t ?new (s_threads _)] =>
      destruct (in_set_other _ t old new _ E KH) as [KE|KE]; [injection KE; intros; subst; contradiction KB|right; exists h1; now split] end.
  - (* HandleHave *)
    cbn [set_bits q_closed q_rchoked q_bits] in C, R, M.
    match goal with X : bf_add _ _ = Some _ |- _ => apply (proj2 (bf_add_members _ _ _ X)) in M as [M|[-> _]] end.
    + match goal with E : nth_error (s_peers _) _ = Some ?z |- _ => destruct (L z ii E C R M V0) as [KQ|[h1 [KH KB]]] end; [now left|].
      match goal with E : nth_error (s_threads _) ?t = Some ?old |- context [list_set ?t ?new (s_threads _)] =>
        destruct (in_set_other _ t old new _ E KH) as [KE|KE]; [injection KE; intros; subst; contradiction KB|right; exists h1; now split] end.
    + right. eexists. split; [eapply in_set_self; eassumption|reflexivity].
  - right. eexists. split; [eapply in_set_self; eassumption|exact KB].
  - exfalso. cbn [busy_with] in KB. subst. apply V0. now apply bf_has_member.
  - right. eexists. split; [eapply in_set_self; eassumption|exact I].
  - left. match goal with X : _ || _ || _ = true, E : nth_error (s_peers s) p = Some ?z |- _ => assert (z = qq) as -> by congruence; rewrite C, R in X; cbn [orb] in X; now apply (smem_in _ neq_iff) in X end.
  - left. apply (sadd_in _ neq_iff). auto.
  - left. apply (sadd_in _ neq_iff). auto.
  - left. apply (sdel_in _ neq_iff). split; [|easy]. intros ->.
    match goal with X : _ || _ = true, E : nth_error (s_peers s) p = Some ?z |- _ => assert (z = qq) as -> by congruence; rewrite C, R in X; discriminate X end.
  - left. apply (sdel_in _ neq_iff). split; [|easy]. intros ->.
    match goal with X : bf_items _ = [], E : nth_error (s_peers s) p = Some ?z |- _ => assert (z = qq) as -> by congruence; assert (In ii []) as []; rewrite <- X end.
    apply (proj2 (bf_items_spec _)), diff_member. easy.
Qed.
End Useful.

Section First.
Variable own_hash own_id blank : bytes.
Notation exec := (exec own_hash own_id blank).
Notation runs := (runs own_hash own_id blank).

(** * A registered peer whose bitfield is being sent *)
Definition sending_ok (s : sys) : Prop := forall p, In (THandler p HBitfield) (s_threads s) -> exists q, nth_error (s_peers s) p = Some q /\ In (name_of q, p) (g_active (s_reg s)).
Lemma lock_excl s t u x y : locked_ok s -> nth_error (s_threads s) t = Some x -> holding x = true -> In y (s_threads s) -> holding y = true -> (s_mu s = Some u -> u = t) /\ nth_error (s_threads s) t = Some y.
Proof.
  intros L A B C D. apply In_nth_error in C as [k K]. pose proof (L _ _ A B) as M1. pose proof (L _ _ K D) as M2. split; [congruence|].
  assert (k = t) as -> by congruence. congruence.
Qed.
Lemma sending_step s a s' e : locked_ok s -> act_ok s -> sending_ok s -> exec s a = Some (s', e) -> sending_ok s'.
Proof.
  intros L AO O H. pose proof (fun p q => peers_step own_hash own_id blank s a s' e p q H) as G.
  unfold sending_ok. intros pp X.
  assert (In (THandler pp HBitfield) (s_threads s) -> s_mu s <> None) as NM.
  { intros Y. apply In_nth_error in Y as [k K]. pose proof (L _ _ K eq_refl). congruence. }
  assert (forall k y, nth_error (s_threads s) k = Some y -> holding y = true -> In (THandler pp HBitfield) (s_threads s) -> y = THandler pp HBitfield) as EX.
  { intros k y K Hy Y. apply In_nth_error in Y as [k' K']. pose proof (L _ _ K' eq_refl) as M1. pose proof (L _ _ K Hy) as M2. congruence. }
  assert (In (THandler pp HBitfield) (s_threads s) -> In (THandler pp HBitfield) (s_threads s')-> g_active (s_reg s') = g_active (s_reg s)) as AC.
  { intros Y _. clear G X. open_exec H; drops; fields; try reflexivity; try (exfalso; now apply NM).
    match goal with E : nth_error (s_threads _) _ = Some _ |- _ => specialize (EX _ _ E eq_refl Y); discriminate EX end. }
  assert (In (THandler pp HBitfield) (s_threads s) -> exists q, nth_error (s_peers s') pp = Some q /\ In (name_of q, pp) (g_active (s_reg s'))) as KEEP.
  { intros Y. rewrite (AC Y X). destruct (O _ Y) as [q [A B]]. destruct (G _ _ A) as [q' [A' [[G1 _] G2]]].
    destruct (AO _ _ B) as [q1 [A1 [_ P1]]]. exists q'. split; [easy|]. unfold name_of in *. now rewrite G1, (G2 P1). }
  clear G EX NM AC O. open_exec H; revert KEEP X; drop_facts; fields; intros KEEP X; inthreads X; try discriminate X; try (now apply KEEP).
  - injection X as ->. eexists. split; [eassumption|]. left. reflexivity.
  - exfalso. injection X as _ X. symmetry in X. match goal with Y : handle _ _ = _ |- _ => apply handle_pc in Y as [Y _]; cbn [holding] in Y; rewrite X in Y; discriminate Y end.
  - exfalso. injection X as _ X. destruct rest; discriminate X.
  - exfalso. injection X as _ X. destruct k; discriminate X.
  - exfalso. injection X as _ X. destruct k; discriminate X.
  - exfalso. injection X as _ X. destruct rest; discriminate X.
  - exfalso. injection X as _ X. destruct rest; discriminate X.
Qed.

(** * Refused connections *)
Lemma refused_step s a s' e p : owner_ok s -> act_ok s -> sending_ok s -> exec s a = Some (s', e) -> In (EvRefused p) e ->
  exists t q h c, a = AGo t c /\ nth_error (s_threads s) t = Some (THandler p h) /\ nth_error (s_threads s') t = Some (THandler p HRelease) /\ nth_error (s_peers s') p = Some q /\
    ((h = HConnect /\ s_mu s' = Some t /\ (50 <= zlen (g_active (s_reg s)) \/ exists x, mget bytes_eqb (place_of q) (g_idips (s_reg s)) = Some x /\ In x (map fst (g_active (s_reg s)))) /\ forall x, ~ In (x, p) (g_active (s_reg s'))) \/
     ((h = HHandshake \/ h = HRegister) /\ s_mu s' = s_mu s /\ s_mu s' <> Some t /\ forall x, ~ In (x, p) (g_active (s_reg s'))) \/
     (h = HBitfield /\ c = CErr /\ s_mu s' = None /\ In (name_of q, p) (g_active (s_reg s')))).
Proof.
  intros L AO SO H X.
  assert (forall t h, nth_error (s_threads s) t = Some (THandler p h) -> (h = HConnect \/ h = HHandshake \/ h = HRegister) -> forall x, ~ In (x, p) (g_active (s_reg s))) as NA.
  { intros t h T Hh x Y. destruct (AO _ _ Y) as [q [_ [_ Z0]]]. pose proof (tsum_ge (pre p) t _ _ (pre_nonneg p) T) as G.
    destruct Hh as [->|[->| ->]]; cbn [pre] in G; rewrite Nat.eqb_refl in G; cbn [one] in G; lia. }
  open_exec H; cbn [In] in X; try tauto; repeat (destruct X as [X|X]; try discriminate X; try tauto); injection X as ->.
  all: match goal with T : nth_error (s_threads _) ?t = Some (THandler _ ?h) |- _ => exists t; eexists; exists h; eexists; split; [reflexivity|]; split; [exact T|]; fields; split; [eapply set_same_mu; exact T|]; specialize (NA t h T) end.
  all: split; [first [eassumption|rewrite list_set_nth_eq by (apply nth_error_Some; congruence); reflexivity]|].
  - left. split; [easy|]. split; [easy|]. split; [left; now apply Z.leb_le|]. apply NA. auto.
  - left. split; [easy|]. split; [easy|]. split; [|apply NA; auto]. right. eexists. split; [eassumption|].
    match goal with X : mget bytes_eqb ?x (g_active _) = Some _ |- _ => apply (mget_in _ beq_iff) in X; now apply (in_map fst) in X end.
  - right. left. split; [auto|]. split; [easy|]. split; [|apply NA; auto].
    intros M. destruct (L _ M) as [th [T C]]. rewrite T in Heqo. injection Heqo as ->. destruct C as [C|[C|[? C]]]; discriminate C.
  - right. left. split; [auto|]. split; [easy|]. split; [|apply NA; auto].
    intros M. destruct (L _ M) as [th [T C]]. rewrite T in Heqo. injection Heqo as ->. destruct C as [C|[C|[? C]]]; discriminate C.
  - right. left. split; [auto|]. split; [easy|]. split; [|apply NA; auto]. congruence.
  - right. left. split; [auto|]. split; [easy|]. split; [|apply NA; auto]. congruence.
  - right. right. split; [easy|]. split; [easy|]. split; [easy|]. destruct (SO p) as [q [A B]]; [eapply nth_error_In; eassumption|]. replace r with q by congruence. easy.
Qed.

(** * The bitfield comes first, and once *)
Definition greeted (ev : list event) (p : nat) : Prop := (exists b, In (EvSent p (mk_bitfield b)) ev) \/ In (EvRefused p) ev.
Lemma greeted_more ev e p : greeted ev p -> greeted (ev ++ e) p.
Proof. intros [[b H]|H]; [left; exists b|right]; apply in_or_app; auto. Qed.
Definition talks_to (th : thread) (p : nat) : Prop :=
  match th with
  | THandler q (HConnect | HHandshake | HRegister | HBitfield | HRelease) => False
  | _ => names_peer th p
  end.
Definition greet_ok (s : sys) (ev : list event) : Prop :=
  (forall x p, In (x, p) (g_active (s_reg s)) -> greeted ev p \/ In (THandler p HBitfield) (s_threads s)) /\
  (forall th p, In th (s_threads s) -> talks_to th p -> greeted ev p).
Lemma greet_step s ev a s' e : locked_ok s -> greet_ok s ev -> exec s a = Some (s', e) -> greet_ok s' (ev ++ e).
Proof.
  intros L [A B] H. split.
  - intros x p X. destruct (active_new _ _ _ _ _ _ _ _ _ H X) as [Y|[t [q [T [_ [_ [TH _]]]]]]].
    2: { right. rewrite TH. eapply in_set_self. exact T. }
    destruct (A _ _ Y) as [G|G]; [left; now apply greeted_more|].
    open_exec H; drop_facts; fields; try (right; exact G); try (right; apply in_or_app; left; exact G).
    all: try match goal with E : nth_error (s_threads _) ?t = Some ?old |- context [list_set ?t ?new (s_threads _)] =>
      destruct (in_set_other _ t old new _ E G) as [KE|KE]; [try discriminate KE|right; first [exact KE|apply in_or_app; left; exact KE]] end.
    all: try match goal with E : nth_error (s_threads _) ?t = Some ?old |- context [list_set ?t ?new (s_threads ?s ++ ?x)] =>
      assert (nth_error (s_threads s ++ x) t = Some old) as E' by (rewrite nth_error_app1; [exact E|apply nth_error_Some; congruence]);
      destruct (in_set_other _ t old new _ E' (in_or_app _ x _ (or_introl G))) as [KE|KE]; [try discriminate KE|right; exact KE] end.
    + injection KE as ->. left. left. eexists. apply in_or_app. right. left. reflexivity.
    + injection KE as ->. left. right. apply in_or_app. right. left. reflexivity.
  - assert (s_mu s = None -> forall x q, In (x, q) (g_active (s_reg s)) -> greeted ev q) as NOW.
    { intros M x q X1. destruct (A _ _ X1) as [G|G]; [easy|]. apply In_nth_error in G as [k K]. pose proof (L _ _ K eq_refl). congruence. }
    intros th p X T. open_exec H; revert X; drop_facts; fields; intros X.
    all: repeat match type of X with
      | In ?th (_ ++ _) => apply in_app_or in X as [X|X]
      | In ?th (list_set _ _ _) => apply in_list_set in X as [->|X]
      | In ?th [_] => destruct X as [<-|[]]
      end; try (apply greeted_more; now apply (B th)); try contradiction T.
    all: try match goal with E : nth_error (s_threads _) _ = Some ?old |- greeted _ ?p => assert (talks_to old p -> greeted ev p) as TA by (apply B; now apply nth_error_In in E) end.
    all: try (apply greeted_more, TA; cbn [talks_to names_peer In] in *; tauto).
    all: try match goal with X : handle _ _ = (_, ?h) |- _ => apply greeted_more, TA; unfold handle in X; brk X; injection X as <- <-; try exact T; destruct (bf_items (m_bitfield _)); exact T end.
    all: try (apply greeted_more, TA; match type of T with context [next_have ?r] => destruct r | context [after_queue ?k] => destruct k end; exact T).
    + cbn in T. subst. left. eexists. apply in_or_app. right. left. reflexivity.
    + cbn in T. destruct T as [T|T]; [now apply greeted_more, TA|]. match goal with X : same_peers _ _ = true |- _ => apply (same_peers_in _ _ _ X) in T end.
      apply in_map_iff in T as [[x p1] [<- T]]. apply greeted_more. cbn [snd]. now apply (NOW eq_refl x).
    + apply in_flat_map in X as [p1 [X1 X2]]. destruct (nth_error (s_peers s) p1) as [q|] eqn:Q; [|destruct X2].
      destruct (_ || _); [destruct X2|]. destruct X2 as [<-|[]]. cbn in T. subst. apply greeted_more.
      apply in_map_iff in X1 as [[x p1] [<- X1]]. cbn [snd]. now apply (NOW eq_refl x).
Qed.
Definition first_ok (ev : list event) (x : event) : Prop := match x with EvSent p m => m_type m = BITFIELD \/ greeted ev p | _ => True end.
Lemma first_step s ev a s' e : greet_ok s ev -> always first_ok ev -> exec s a = Some (s', e) -> always first_ok (ev ++ e).
Proof.
  intros [_ B] A H. open_exec H; rewrite ?app_nil_r; try exact A; try (apply always_snoc; [exact A|exact I]).
  1: { match goal with |- always _ (_ ++ [?x; ?y]) => change [x; y] with ([x] ++ [y]) end. rewrite app_assoc.
    apply always_snoc; [|exact I]. apply always_snoc; [exact A|]. left. reflexivity. }
  all: apply always_snoc; [exact A|]; right.
  all: match goal with E : nth_error (s_threads _) _ = Some ?old |- _ => apply (B old); [now apply nth_error_In in E|] end; cbn; auto.
Qed.
Definition start (p : nat) (th : thread) : Z := match th with THandler q (HConnect | HHandshake | HRegister | HBitfield) => one (Nat.eqb p q) | _ => 0 end.
Definition once_ok (p : nat) (s : sys) (ev : list event) : Prop := count (sends_bitfield p) ev + tsum (start p) (s_threads s) <= one (p <? List.length (s_peers s))%nat.
Lemma start_have p q r : start p (THandler q (next_have r)) = 0. Proof. now destruct r. Qed.
Lemma start_after p q r : start p (THandler q (after_queue r)) = 0. Proof. now destruct r. Qed.
Lemma start_handle p p' q m q' h : handle q m = (q', h) -> start p (THandler p' h) = 0.
Proof. unfold handle. intros H. brk H; injection H as <- <-; rewrite ?start_have; easy. Qed.
Lemma once_step p s ev a s' e : once_ok p s ev -> exec s a = Some (s', e) -> once_ok p s' (ev ++ e).
Proof.
  unfold once_ok. intros L H. open_exec H; drops; fields; rewrite ?drop_all_len; drop_facts; fields; sums; rewrite ?unchoke_sum by easy;
    rewrite ?list_set_length, ?lt_snoc, ?start_have, ?start_after; counts; cbn [sends_bitfield mk_bitfield mk_plain mk_have m_type];
    repeat match goal with X : handle _ _ = _ |- _ => rewrite (start_handle _ _ _ _ _ _ X); clear X end; cbn [start];
    change (BITFIELD =? BITFIELD) with true; change (HAVE =? BITFIELD) with false; change (UNCHOKE =? BITFIELD) with false; change (INTERESTED =? BITFIELD) with false; change (NOT_INTERESTED =? BITFIELD) with false;
    rewrite ?andb_true_r, ?andb_false_r; cbn [one]; try lia.
  all: repeat match goal with |- context [one ?b] => lazymatch goal with X : 0 <= one b <= 1 |- _ => fail | _ => pose proof (one_range b) end end; lia.
Qed.

(** * Stop *)
Lemma drop_all_removes l : forall s, act_ok s -> forall x p, In p l -> ~ In (x, p) (g_active (s_reg (drop_all l s))).
Proof.
  induction l as [|p1 l IH]; intros s AO x p I; [destruct I|].
  change (drop_all (p1 :: l) s) with (drop_all l (match nth_error (s_peers s) p1 with Some q => drop_peer p1 q s | None => s end)).
  destruct (nth_error (s_peers s) p1) as [q|] eqn:Q.
  - assert (act_ok (drop_peer p1 q s)) as AO'.
    { intros y p2. fields. rewrite disconnect_active. intros Y. apply (mdel_in _ beq_iff) in Y as [Y _]. destruct (AO _ _ Y) as [q2 [A [B C]]].
      destruct (Nat.eq_dec p1 p2) as [->|N].
      - rewrite list_set_nth_eq by (apply nth_error_Some; congruence). eexists. split; [reflexivity|]. split; [|easy]. replace q with q2 by congruence. exact B.
      - rewrite list_set_nth_neq by easy. eauto. }
    destruct (in_dec Nat.eq_dec p l) as [Y|N]; [now apply IH|]. destruct I as [->|I]; [|easy].
    intros X. apply drop_all_active in X. revert X. fields. rewrite disconnect_active. intros Y. apply (mdel_in _ beq_iff) in Y as [Y D].
    destruct (AO _ _ Y) as [q2 [A [B _]]]. cbn [fst] in D. congruence.
  - destruct I as [->|I]; [|now apply IH]. intros X. apply drop_all_active in X. destruct (AO _ _ X) as [q [A _]]. congruence.
Qed.
Lemma drop_all_closes l : forall s p q, In p l -> nth_error (s_peers (drop_all l s)) p = Some q -> q_closed q = true.
Proof.
  induction l as [|p1 l IH]; intros s p q I; [destruct I|].
  change (drop_all (p1 :: l) s) with (drop_all l (match nth_error (s_peers s) p1 with Some q => drop_peer p1 q s | None => s end)).
  destruct (in_dec Nat.eq_dec p l) as [Y|N]; [now apply IH|]. destruct I as [->|I]; [|easy]. intros E.
  apply drop_all_peers in E as [q0 [E [->| ->]]]; [|reflexivity]. destruct (nth_error (s_peers s) p) as [q1|] eqn:Q; [|congruence].
  revert E. fields. rewrite list_set_nth_eq by (apply nth_error_Some; congruence). intros [= <-]. reflexivity.
Qed.
Lemma stop_step s t s' e : act_ok s -> nth_error (s_threads s) t = Some (TStop true) -> exec s (AGo t COk) = Some (s', e) ->
  s_mu s' = None /\ g_active (s_reg s') = [] /\ (forall x p, In (x, p) (g_active (s_reg s)) -> exists q, nth_error (s_peers s') p = Some q /\ q_closed q = true).
Proof.
  intros AO T H. unfold P2PServer.exec, step_thread in H. rewrite T in H. destruct (s_crashed s); [discriminate|]. injection H as <- <-. drops. fields.
  split; [easy|]. split.
  - destruct (g_active (s_reg (drop_all _ s))) as [|[x p] m] eqn:E; [easy|exfalso].
    assert (In (x, p) (g_active (s_reg (drop_all (map snd (g_active (s_reg s))) s)))) as X by (rewrite E; now left).
    apply (drop_all_removes (map snd (g_active (s_reg s))) s AO x p); [|easy]. apply drop_all_active in X. now apply (in_map snd) in X.
  - intros x p X. destruct (AO _ _ X) as [q [A _]]. destruct (drop_all_grown (map snd (g_active (s_reg s))) s p q A) as [q' [A' _]].
    exists q'. split; [easy|]. apply (drop_all_closes (map snd (g_active (s_reg s))) s p q'); [|easy]. now apply (in_map snd) in X.
Qed.
End First.
