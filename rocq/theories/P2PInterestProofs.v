(** INTERESTED and NOT_INTERESTED are sent for a reason. *)
From Verif Require Import GoBase GoBaseProofs Bitfield BitfieldSpec BitfieldProofs GoMap PeerWire P2PServer P2PServerSpec
  P2PServerProofs P2PSortProofs P2PLockProofs P2PAnnounceProofs P2PRegistryProofs P2PSoloProofs P2POriginProofs NodeServerProofs P2PServerThms P2PInterestSpec.

Section Interest.
Variable own_hash own_id blank : bytes.
Variable p : nat.
Notation exec := (exec own_hash own_id blank).

Definition mine (th : thread) : bool := match th with THandler x _ | TRequester x _ => Nat.eqb p x | _ => false end.
Definition silent (x : event) : Prop := match x with
  | EvReceived q _ => p <> q
  | EvSent q m => p <> q \/ interest_in m = None
  | _ => True end.
Record frame (s s' : sys) (e : list event) : Prop := {
  f_peer : forall q, nth_error (s_peers s) p = Some q -> exists q', nth_error (s_peers s') p = Some q' /\ q_bits q' = q_bits q /\ q_interested q' = q_interested q;
  f_new : nth_error (s_peers s) p = None -> forall q, nth_error (s_peers s') p = Some q -> q_bits q = blank /\ q_interested q = false;
  f_hand : forall t h, nth_error (s_threads s') t = Some (THandler p h) -> nth_error (s_threads s) t = Some (THandler p h) \/ (h = HConnect /\ nth_error (s_peers s) p = None);
  f_keep : forall t h, nth_error (s_threads s) t = Some (THandler p h) -> nth_error (s_threads s') t = Some (THandler p h);
  f_req : forall t r, nth_error (s_threads s') t = Some (TRequester p r) -> nth_error (s_threads s) t = Some (TRequester p r) \/ r = RLock;
  f_ev : forall x, In x e -> silent x }.

Ltac peerset := repeat match goal with
  | X : nth_error (list_set _ _ _) _ = Some _ |- _ => apply nth_set in X as [[? X]|[? X]]
  | X : nth_error (_ ++ [_]) _ = Some _ |- _ => apply nth_app in X as [[? X]|[? X]]
  end.
Lemma set_get {A} k (x : A) l j y : nth_error l j = Some y -> nth_error (list_set k x l) j = Some (if Nat.eqb k j then x else y).
Proof.
  intros H. destruct (Nat.eqb_spec k j) as [->|N]; [apply list_set_nth_eq, nth_error_Some; congruence|now rewrite list_set_nth_neq].
Qed.
Lemma app_get {A} (l l' : list A) j y : nth_error l j = Some y -> nth_error (l ++ l') j = Some y.
Proof. intros H. rewrite nth_error_app1; [exact H|apply nth_error_Some; congruence]. Qed.
Lemma drop_all_get l s q : nth_error (s_peers s) p = Some q ->
  exists q', nth_error (s_peers (drop_all l s)) p = Some q' /\ q_bits q' = q_bits q /\ q_interested q' = q_interested q.
Proof.
  intros E. apply (drop_all_ind (fun s' => exists q', nth_error (s_peers s') p = Some q' /\ q_bits q' = q_bits q /\ q_interested q' = q_interested q) l s); [eauto|].
  intros s1 p1 q1 (q2 & A & B & C) E1. fields. rewrite (set_get _ _ _ _ _ A). destruct (Nat.eqb_spec p1 p) as [->|N]; [|eauto]. assert (q2 = q1) as -> by congruence. eauto.
Qed.
Lemma unchoke_nth s l t x : nth_error (s_threads s ++ flat_map (fun p => match nth_error (s_peers s) p with
    | Some q => if q_closed q || negb (q_choked q) then [] else [TUnchoke p false] | None => [] end) l) t = Some x ->
  nth_error (s_threads s) t = Some x \/ exists y, x = TUnchoke y false.
Proof.
  intros T. destruct (Nat.lt_ge_cases t (List.length (s_threads s))) as [L|L]; [rewrite nth_error_app1 in T by exact L; now left|].
  rewrite nth_error_app2 in T by exact L. right. eapply unchoke_threads, nth_error_In, T.
Qed.

Lemma frame_step s a s' e : hand_ok s -> exec s a = Some (s', e) -> (forall t c th, a = AGo t c -> nth_error (s_threads s) t = Some th -> mine th = false) -> frame s s' e.
Proof.
  intros HH H O. split.
  - intros q Q. open_exec H; drops; fields; try (exists q; split; [exact Q|split; reflexivity]).
    all: try (apply drop_all_get; exact Q).
    all: try (rewrite (app_get _ _ _ _ Q); exists q; split; [reflexivity|split; reflexivity]).
    all: try (eexists; split; [apply set_get; exact Q|]; match goal with |- context [Nat.eqb ?x ?y] => destruct (Nat.eqb_spec x y) as [->|] end; [|split; reflexivity]).
    all: try match goal with T : nth_error (s_threads _) _ = Some (THandler p _) |- _ => specialize (O _ _ _ eq_refl T); cbn [mine] in O; rewrite Nat.eqb_refl in O; discriminate O end.
    all: try match goal with T : nth_error (s_threads _) _ = Some (TRequester p _) |- _ => specialize (O _ _ _ eq_refl T); cbn [mine] in O; rewrite Nat.eqb_refl in O; discriminate O end.
    all: try (match goal with X : nth_error (s_peers _) p = Some ?r |- _ => assert (q = r) as -> by congruence end; split; reflexivity).
  - intros N q Q. open_exec H; revert Q; drops; fields; intros Q; try congruence.
    all: try (apply drop_all_peers in Q as [q0 [Q _]]; revert Q; fields; congruence).
    all: peerset; subst; try congruence; try (split; reflexivity).
  - intros t h T. open_exec H; revert T; drop_facts; fields; intros T; try (left; exact T).
    all: try (apply unchoke_nth in T as [T|[? T]]; [left; exact T|discriminate T]).
    all: peerset; subst; try discriminate; try (left; assumption).
    all: try match goal with X : nth_error (s_threads _) _ = Some (THandler ?x _) , T : THandler p _ = THandler _ _ |- _ => injection T; intros; subst; specialize (O _ _ _ eq_refl X); cbn [mine] in O; rewrite Nat.eqb_refl in O; discriminate O end.
    all: try (right; injection T as -> ->; split; [reflexivity|]; apply nth_error_None; lia).
  - intros t h T. open_exec H; drop_facts; fields; try exact T; try (apply app_get; exact T).
    all: try (rewrite (set_get _ _ _ _ _ T)); try (rewrite (app_get _ _ _ _ (set_get _ _ _ _ _ T))); try (rewrite (set_get _ _ _ _ _ (app_get _ _ _ _ T))).
    all: match goal with |- context [Nat.eqb ?x ?y] => destruct (Nat.eqb_spec x y) as [->|]; [|reflexivity] end.
    all: try congruence.
    all: exfalso; specialize (O _ _ _ eq_refl T); cbn [mine] in O; rewrite Nat.eqb_refl in O; discriminate O.
  - intros t h T. open_exec H; revert T; drop_facts; fields; intros T; try (left; exact T).
    all: try (apply unchoke_nth in T as [T|[? T]]; [left; exact T|discriminate T]).
    all: peerset; subst; try discriminate; try (left; assumption); try (right; congruence).
    all: try match goal with X : nth_error (s_threads _) _ = Some (TRequester ?x _) , T : TRequester p _ = TRequester _ _ |- _ => injection T; intros; subst; specialize (O _ _ _ eq_refl X); cbn [mine] in O; rewrite Nat.eqb_refl in O; discriminate O end.
  - intros x X. open_exec H; cbn [In] in X; repeat (destruct X as [X|X]); subst; try contradiction; cbn [silent]; try exact I.
    all: try (right; reflexivity).
    all: try left; intros <-.
    all: match goal with X : nth_error (s_threads _) _ = Some _ |- _ => specialize (O _ _ _ eq_refl X); cbn [mine] in O; rewrite Nat.eqb_refl in O; discriminate O end.
Qed.

(** * The steps of the goroutines of peer p *)
Definition idle (h : hpc) : bool := match h with
  | HConnect | HHandshake | HRegister | HBitfield | HLoop | HReceive | HRequest | HPiece _ | HQueue None | HToken None => true | _ => false end.
Definition gone (h : hpc) : bool := match h with HDisconnect | HRelease => true | _ => false end.
Definition alike (q q' : remote) : Prop := q_bits q' = q_bits q /\ q_interested q' = q_interested q.
Inductive move (s : sys) (q : remote) : hpc -> remote -> thread -> list event -> Prop :=
| mv_idle h h' q' e : idle h = true -> idle h' = true -> alike q q' -> (forall x, In x e -> silent x) -> move s q h q' (THandler p h') e
| mv_gone h h' q' e : gone h' = true -> alike q q' -> (forall x, In x e -> silent x) -> move s q h q' (THandler p h') e
| mv_done h q' e : alike q q' -> (forall x, In x e -> silent x) -> move s q h q' TDone e
| mv_crash h e : (forall x, In x e -> silent x) -> move s q h q (THandler p h) e
| mv_recv m q' h' : 0 <= m_index m -> handle q m = (q', h') -> alike q q' -> move s q HReceive q' (THandler p h') [EvReceived p m]
| mv_have i rest b : bf_add (q_bits q) i = Some b -> move s q (HHave i rest) (set_bits b q) (THandler p (HRecord i rest)) []
| mv_record i rest : s_mu s = None -> move s q (HRecord i rest) q (THandler p (HCheck i rest)) []
| mv_had i rest : member (s_have s) i -> move s q (HCheck i rest) q (THandler p (next_have rest)) []
| mv_lack i rest : ~ member (s_have s) i -> move s q (HCheck i rest) q (THandler p (HQueue (Some rest))) []
| mv_queue rest : move s q (HQueue (Some rest)) q (THandler p (HToken (Some rest))) []
| mv_queued rest : move s q (HQueue (Some rest)) q (THandler p (HInterest rest)) []
| mv_token rest : move s q (HToken (Some rest)) q (THandler p (HInterest rest)) []
| mv_known rest : q_interested q = true -> move s q (HInterest rest) q (THandler p (next_have rest)) []
| mv_interest rest : q_interested q = false -> move s q (HInterest rest) (set_interested true q) (THandler p (HInterested rest)) []
| mv_say rest : move s q (HInterested rest) q (THandler p (next_have rest)) [EvSent p (mk_plain INTERESTED)].

Lemma handle_alike q m q' h : handle q m = (q', h) -> alike q q'.
Proof. unfold handle. intros H. brk H; injection H as <- <-; split; reflexivity. Qed.
Lemma silent_nil x : In x [] -> silent x. Proof. intros []. Qed.
Lemma silent_cons y x : silent y -> In x [y] -> silent x. Proof. intros S [<-|[]]. exact S. Qed.

Lemma handler_step s t c h q s' e : nth_error (s_threads s) t = Some (THandler p h) -> nth_error (s_peers s) p = Some q -> exec s (AGo t c) = Some (s', e) ->
  exists q' x, nth_error (s_peers s') p = Some q' /\ nth_error (s_threads s') t = Some x /\ move s q h q' x e /\
    (forall u y, u <> t -> nth_error (s_threads s) u = Some y -> nth_error (s_threads s') u = Some y) /\
    (forall u y, u <> t -> nth_error (s_threads s') u = Some y -> nth_error (s_threads s) u = Some y \/ y = TRequester p RLock).
Proof.
  intros T Q H. unfold P2PServer.exec in H. destruct (s_crashed s); [discriminate|]. unfold step_thread in H. rewrite T in H. unfold step_handler in H. rewrite Q in H.
  assert (forall y, nth_error (list_set t y (s_threads s)) t = Some y) as SS by (intros y; apply list_set_nth_eq, nth_error_Some; congruence).
  assert (forall y, nth_error (list_set p y (s_peers s)) p = Some y) as PS by (intros y; apply list_set_nth_eq, nth_error_Some; congruence).
  assert (forall z u y, u <> t -> nth_error (s_threads s) u = Some y -> nth_error (list_set t z (s_threads s)) u = Some y) as KS by (intros z u y N X; rewrite list_set_nth_neq; congruence).
  assert (forall z u y, u <> t -> nth_error (list_set t z (s_threads s)) u = Some y -> nth_error (s_threads s) u = Some y \/ y = TRequester p RLock) as RS by (intros z u y N X; rewrite list_set_nth_neq in X by congruence; now left).
  assert (forall q' x, nth_error (list_set p q' (s_peers s)) p = Some q' /\ nth_error (list_set t x (s_threads s)) t = Some x) as BB by (intros; split; auto).
  assert (t < List.length (s_threads s))%nat as LT by (apply nth_error_Some; congruence).
  assert (forall z u y, u <> t -> nth_error (s_threads s) u = Some y -> nth_error (list_set t z (s_threads s ++ [TRequester p RLock])) u = Some y) as KA
    by (intros z u y N X; rewrite list_set_nth_neq by congruence; now apply app_get).
  assert (forall z u y, u <> t -> nth_error (list_set t z (s_threads s ++ [TRequester p RLock])) u = Some y -> nth_error (s_threads s) u = Some y \/ y = TRequester p RLock) as RA
    by (intros z u y N X; rewrite list_set_nth_neq in X by congruence; apply nth_app in X as [[_ ->]|[_ X]]; auto).
  unfold hand_over, crash in H. destruct h; brk H; injection H as <- <-.
  all: repeat match goal with X : (if s_requesting ?s then _ else None) = Some _ |- _ => destruct (s_requesting s) eqn:?; [injection X as <-|discriminate X] end.
  all: fields; eexists _, _; (split; [first [exact Q|apply PS]|]); (split; [first [apply SS|exact T|apply list_set_nth_eq; rewrite app_length; lia]|]).
  all: split; [|split; [first [apply KS|apply KA|now auto]|first [apply RS|apply RA|now auto]]].
  all: try (match goal with X : handle _ _ = _ |- _ => refine (mv_recv _ _ _ _ _ _ X (handle_alike _ _ _ _ X)); match goal with Y : (_ <? 0) = false |- _ => apply Z.ltb_ge in Y; exact Y end end).
  all: try (apply mv_have; assumption).
  all: try (apply mv_record; assumption).
  all: try (apply mv_had, bf_has_member; assumption).
  all: try (apply mv_lack; intros X; apply bf_has_member in X; congruence).
  all: try (apply mv_known; assumption).
  all: try (apply mv_interest; assumption).
  all: try apply mv_say.
  all: try match goal with k : option (list Z) |- _ => destruct k; cbn [after_queue] end.
  all: try apply mv_queue; try apply mv_queued; try apply mv_token.
  all: try (apply mv_done; [split; reflexivity|intros x X; repeat (destruct X as [<-|X]); try destruct X; exact I]).
  all: try (apply mv_idle; [reflexivity|reflexivity|split; reflexivity|intros x X; repeat (destruct X as [<-|X]); try destruct X; cbn [silent]; try exact I; right; reflexivity]).
  all: try (apply mv_gone; [reflexivity|split; reflexivity|intros x X; repeat (destruct X as [<-|X]); try destruct X; exact I]).
  all: try (apply mv_crash; intros x X; repeat (destruct X as [<-|X]); try destruct X; exact I).
Qed.

Inductive rmove (s : sys) (q : remote) : rpc -> remote -> thread -> list event -> Prop :=
| rm_other r x e : (forall r', x = TRequester p r' -> r' <> RNotInterest /\ r' <> RNotInterested) -> (forall y, In y e -> silent y) -> mine x = false \/ (exists r', x = TRequester p r') ->
    r <> RNotInterested \/ e = [] -> rmove s q r q x e
| rm_none e : (forall i, member (q_bits q) i -> member (s_have s) i) -> (forall y, In y e -> silent y) -> rmove s q RRead q (TRequester p RNotInterest) e
| rm_not : q_interested q = true -> rmove s q RNotInterest (set_interested false q) (TRequester p RNotInterested) []
| rm_say : rmove s q RNotInterested q TDone [EvSent p (mk_plain NOT_INTERESTED)].
Lemma requester_step s t c r q s' e : nth_error (s_threads s) t = Some (TRequester p r) -> nth_error (s_peers s) p = Some q -> exec s (AGo t c) = Some (s', e) ->
  exists q' x, nth_error (s_peers s') p = Some q' /\ nth_error (s_threads s') t = Some x /\ rmove s q r q' x e /\ s_have s' = s_have s /\
    (forall u y, u <> t -> nth_error (s_threads s) u = Some y -> nth_error (s_threads s') u = Some y) /\
    (forall u y, u <> t -> nth_error (s_threads s') u = Some y -> nth_error (s_threads s) u = Some y \/ mine y = false).
Proof.
  intros T Q H. unfold P2PServer.exec in H. destruct (s_crashed s); [discriminate|]. unfold step_thread in H. rewrite T in H. unfold step_requester in H. rewrite Q in H.
  assert (forall y, nth_error (list_set t y (s_threads s)) t = Some y) as SS by (intros y; apply list_set_nth_eq, nth_error_Some; congruence).
  assert (forall y, nth_error (list_set p y (s_peers s)) p = Some y) as PS by (intros y; apply list_set_nth_eq, nth_error_Some; congruence).
  assert (forall z u y, u <> t -> nth_error (s_threads s) u = Some y -> nth_error (list_set t z (s_threads s)) u = Some y) as KS by (intros z u y N X; rewrite list_set_nth_neq; congruence).
  assert (forall z u y, u <> t -> nth_error (list_set t z (s_threads s)) u = Some y -> nth_error (s_threads s) u = Some y \/ mine y = false) as RS by (intros z u y N X; rewrite list_set_nth_neq in X by congruence; now left).
  destruct r; brk H; injection H as <- <-.
  all: fields; eexists _, _; (split; [first [exact Q|apply PS]|]); (split; [first [apply SS|exact T|apply app_get, SS]|]).
  all: split; [|split; [reflexivity|split; [first [apply KS|now auto|intros; apply app_get; now apply KS]|first [apply RS|now auto|intros u y N X; apply nth_app in X as [[_ ->]|[_ X]]; [now right|eapply RS; eassumption]]]]].
  all: try (apply rm_not; assumption).
  all: try apply rm_say.
  all: try (apply rm_none; [intros i M; destruct (bf_has (s_have s) i) as [[]|] eqn:E; [now apply bf_has_member| |]; exfalso; match goal with X : bf_items _ = [] |- _ =>
      assert (In i []) as []; rewrite <- X end; apply (proj2 (bf_items_spec _)), diff_member; (split; [exact M|]); intros Y; apply bf_has_member in Y; congruence|intros y [<-|[]]; exact I]).
  all: try (apply rm_other; [intros r' X; first [discriminate X|injection X as <-; split; discriminate]|intros x X; repeat (destruct X as [<-|X]); try destruct X; exact I
    |first [left; reflexivity|right; eexists; reflexivity]|first [left; discriminate|right; reflexivity]]).
Qed.

(** * What always holds *)
Definition handling (h : hpc) (i : Z) : Prop := match h with
  | HRecord j _ | HCheck j _ => j = i
  | HQueue (Some _) | HToken (Some _) | HInterest _ | HDisconnect | HRelease => True
  | _ => False end.
Definition asked (ev : list event) : Prop := exists m, In (EvSent p m) ev /\ interest_in m = Some true.
Definition saying (h : hpc) : Prop := gone h = true \/ exists rest, h = HInterested rest.
Record minv (s : sys) (ev : list event) : Prop := {
  m_flag : forall q t h i, nth_error (s_peers s) p = Some q -> nth_error (s_threads s) t = Some (THandler p h) -> member (q_bits q) i ->
    member (s_have s) i \/ q_interested q = true \/ handling h i;
  m_not : forall q u r i, nth_error (s_peers s) p = Some q -> nth_error (s_threads s) u = Some (TRequester p r) -> r = RNotInterest \/ r = RNotInterested -> member (q_bits q) i ->
    member (s_have s) i \/ exists t rest, nth_error (s_threads s) t = Some (THandler p (HRecord i rest));
  m_bits : forall q t h i, nth_error (s_peers s) p = Some q -> nth_error (s_threads s) t = Some (THandler p h) -> gone h = false -> announced ev p i ->
    member (q_bits q) i \/ In i (todo h);
  m_asked : forall q t h, nth_error (s_peers s) p = Some q -> nth_error (s_threads s) t = Some (THandler p h) -> q_interested q = true -> asked ev \/ saying h;
  m_none : nth_error (s_peers s) p = None -> forall x, In x ev -> silent x;
  m_msgs : forall m i, In (EvReceived p m) ev -> announces_piece m i -> 0 <= i }.
Definition cross (s : sys) : Prop := calls_cross s p.
Definition kinv (s : sys) (ev : list event) : Prop :=
  (forall q t h, nth_error (s_peers s) p = Some q -> nth_error (s_threads s) t = Some (THandler p h) -> q_interested q = true -> last_word p ev = Some true \/ saying h) /\
  (forall q u, nth_error (s_peers s) p = Some q -> nth_error (s_threads s) u = Some (TRequester p RNotInterested) -> q_interested q = false).

Hypothesis blank_empty : forall i, ~ member blank i.

Lemma announced_silent ev e i : (forall x, In x e -> silent x) -> announced (ev ++ e) p i -> announced ev p i.
Proof.
  intros S (m & I & A). apply in_app_or in I as [I|I]; [exists m; now split|]. specialize (S _ I). cbn in S. congruence.
Qed.
Lemma asked_more ev e : asked ev -> asked (ev ++ e).
Proof. intros (m & I & A). exists m. split; [apply in_or_app; now left|exact A]. Qed.
Lemma word_silent ev e : (forall x, In x e -> silent x) -> last_word p (ev ++ e) = last_word p ev.
Proof.
  intros S. unfold last_word. rewrite fold_left_app. generalize (fold_left (fun w e0 => match e0 with
    | EvSent q m => if Nat.eqb p q then match interest_in m with Some b => Some b | None => w end else w | _ => w end) ev None).
  induction e as [|x e IH]; intros w; [reflexivity|]. cbn [fold_left]. rewrite IH by (intros y Y; apply S; now right).
  specialize (S x (or_introl eq_refl)). destruct x; try reflexivity. cbn in S. destruct (Nat.eqb_spec p p0) as [->|]; [|reflexivity]. destruct S as [S|S]; [congruence|]. now rewrite S.
Qed.
Lemma one_hand s t u h h' : hand_ok s -> nth_error (s_threads s) t = Some (THandler p h) -> nth_error (s_threads s) u = Some (THandler p h') -> t = u.
Proof.
  intros HH T U. destruct (Nat.eq_dec t u) as [|N]; [assumption|]. exfalso. specialize (HH p).
  pose proof (tsum_ge2 (hand p) _ _ _ _ _ (hand_nonneg p) T U N) as G. cbn [hand] in G. rewrite Nat.eqb_refl in G. cbn [one] in G.
  pose proof (one_range (p <? List.length (s_peers s))%nat). lia.
Qed.
Lemma has_peer s t h : hand_ok s -> nth_error (s_threads s) t = Some (THandler p h) -> nth_error (s_peers s) p <> None.
Proof.
  intros HH T X. specialize (HH p). pose proof (tsum_ge (hand p) _ _ _ (hand_nonneg p) T) as G. cbn [hand] in G. rewrite Nat.eqb_refl in G.
  apply nth_error_None in X. destruct (Nat.ltb_spec p (List.length (s_peers s))); cbn [one] in *; lia.
Qed.
Lemma which s a : (forall t c th, a = AGo t c -> nth_error (s_threads s) t = Some th -> mine th = false) \/
  (exists t c h, a = AGo t c /\ nth_error (s_threads s) t = Some (THandler p h)) \/ (exists t c r, a = AGo t c /\ nth_error (s_threads s) t = Some (TRequester p r)).
Proof.
  destruct a as [t c| | | | | | | | | |]; try (left; discriminate). destruct (nth_error (s_threads s) t) as [th|] eqn:T; [|left; intros ? ? ? [= <- <-]; congruence].
  destruct (mine th) eqn:M; [|left; intros ? ? ? [= <- <-]; congruence]. right. destruct th; try discriminate M; apply Nat.eqb_eq in M; subst; [left|right]; eauto.
Qed.
Lemma handling_next rest i : ~ handling (next_have rest) i. Proof. destruct rest; intros []. Qed.
Lemma gone_next rest : gone (next_have rest) = false. Proof. now destruct rest. Qed.
Lemma idle_handling h i : idle h = true -> ~ handling h i. Proof. destruct h as [| | | | | | | | |[]|[]| | | | | |]; cbn; try discriminate; auto. Qed.
Lemma idle_todo h : idle h = true -> todo h = []. Proof. destruct h as [| | | | | | | | |[]|[]| | | | | |]; cbn; try discriminate; auto. Qed.
Lemma idle_gone h : idle h = true -> gone h = false. Proof. destruct h; cbn; try discriminate; auto. Qed.
Lemma gone_handling h i : gone h = true -> handling h i. Proof. destruct h; cbn; try discriminate; auto. Qed.

Definition thread_in (s : sys) t th := nth_error (s_threads s) t = Some th.

Lemma minv_frame s ev s' e a : hand_ok s -> hand_ok s' -> exec s a = Some (s', e) -> frame s s' e -> minv s ev -> minv s' (ev ++ e).
Proof.
  intros HH HH' H F M. destruct F as [FP FN FH FK FR FE], M as [M1 M2 M3 M4 M5 M6].
  assert (OLD : forall q', nth_error (s_peers s') p = Some q' -> (exists q, nth_error (s_peers s) p = Some q /\ alike q q') \/ (nth_error (s_peers s) p = None /\ q_bits q' = blank /\ q_interested q' = false)).
  { intros q' Q'. destruct (nth_error (s_peers s) p) as [q|] eqn:Q.
    - left. destruct (FP _ eq_refl) as (q1 & A & B & C). exists q. split; [reflexivity|]. assert (q1 = q') as <- by congruence. now split.
    - right. destruct (FN eq_refl _ Q') as [A B]. auto. }
  split.
  - intros q' t h i Q' T X. destruct (OLD _ Q') as [(q & Q & B & C)|(N & B & C)]; [|rewrite B in X; now apply blank_empty in X].
    rewrite B in X. rewrite C. destruct (FH _ _ T) as [T0|[_ N]]; [|congruence]. destruct (M1 _ _ _ _ Q T0 X) as [Y|Y]; [left; eapply have_mono; eassumption|now right].
  - intros q' u r i Q' U R X. destruct (OLD _ Q') as [(q & Q & B & C)|(N & B & C)]; [|rewrite B in X; now apply blank_empty in X].
    rewrite B in X. destruct (FR _ _ U) as [U0|E]; [|destruct R; congruence]. destruct (M2 _ _ _ _ Q U0 R X) as [Y|(t & rest & Y)]; [left; eapply have_mono; eassumption|right; eauto].
  - intros q' t h i Q' T G X. apply announced_silent in X; [|exact FE]. destruct (OLD _ Q') as [(q & Q & B & C)|(N & B & C)].
    + rewrite B. destruct (FH _ _ T) as [T0|[_ N]]; [|congruence]. eauto.
    + exfalso. destruct X as (m & X & _). specialize (M5 N _ X). cbn in M5. congruence.
  - intros q' t h Q' T X. destruct (OLD _ Q') as [(q & Q & B & C)|(N & B & C)]; [|congruence]. rewrite C in X.
    destruct (FH _ _ T) as [T0|[_ N]]; [|congruence]. destruct (M4 _ _ _ Q T0 X) as [Y|Y]; [left; now apply asked_more|now right].
  - intros N x X. apply in_app_or in X as [X|X]; [|auto]. apply M5; [|exact X]. destruct (nth_error (s_peers s) p) as [q|] eqn:Q; [|reflexivity]. destruct (FP _ eq_refl) as (? & A & _). congruence.
  - intros m i X. apply in_app_or in X as [X|X]; [eauto|]. specialize (FE _ X). cbn in FE. congruence.
Qed.

Lemma handle_todo' q m q' h i : handle q m = (q', h) -> announces_piece m i -> In i (todo h).
Proof.
  unfold handle, announces_piece. intros H A. destruct A as [[A <-]|[A B]]; rewrite A in H.
  - injection H as <- <-. now left.
  - injection H as <- <-. rewrite todo_next. now apply (proj2 (bf_items_spec _)).
Qed.
Lemma handle_idle q m q' h : handle q m = (q', h) -> gone h = false /\ forall i, ~ handling h i.
Proof.
  unfold handle. intros H. brk H; injection H as <- <-; (split; [now rewrite ?gone_next|]); intros i; try apply handling_next; intros X; exact X.
Qed.
Lemma announced_app ev e i : announced (ev ++ e) p i -> announced ev p i \/ announced e p i.
Proof. intros (m & I & A). apply in_app_or in I as [I|I]; [left|right]; exists m; now split. Qed.

Lemma minv_handler s ev s' e t c h q : locked_ok s -> hand_ok s -> hand_ok s' -> thread_in s t (THandler p h) -> nth_error (s_peers s) p = Some q -> exec s (AGo t c) = Some (s', e) -> minv s ev -> minv s' (ev ++ e).
Proof.
  intros LK HH HH' T Q H M. destruct (handler_step _ _ _ _ _ _ _ T Q H) as (q' & x & Q' & X & MV & KE & NE).
  assert (HM : forall i, member (s_have s) i -> member (s_have s') i) by (intros i; eapply have_mono; exact H).
  assert (ONE : forall u h', nth_error (s_threads s') u = Some (THandler p h') -> u = t /\ x = THandler p h').
  { intros u h' U. destruct (Nat.eq_dec u t) as [->|N]; [split; congruence|]. destruct (NE _ _ N U) as [Y|Y]; [|discriminate Y]. exfalso. apply N. exact (one_hand _ _ _ _ _ HH Y T). }
  assert (RQ : forall u r, nth_error (s_threads s') u = Some (TRequester p r) -> r = RNotInterest \/ r = RNotInterested -> (nth_error (s_threads s) u = Some (TRequester p r) /\ u <> t) \/ x = TRequester p r).
  { intros u r U R. destruct (Nat.eq_dec u t) as [->|N]; [right; congruence|]. destruct (NE _ _ N U) as [Y|Y]; [now left|destruct R; congruence]. }
  destruct M as [M1 M2 M3 M4 M5 M6].
  assert (A1 := fun i => M1 _ _ _ i Q T). assert (A3 := fun i => M3 _ _ _ i Q T). assert (A4 := M4 _ _ _ Q T).
  split.
  - intros q1 u h1 i Q1 U B. assert (q1 = q') as -> by congruence. destruct (ONE _ _ U) as [-> ->]. clear U Q1.
    inversion MV; subst; try (match goal with K : alike _ _ |- _ => destruct K as [K1 K2]; rewrite K1 in B; rewrite K2 end).
    + destruct (A1 i B) as [Y|[Y|Y]]; auto. exfalso. apply (idle_handling h i); assumption.
    + right. right. now apply gone_handling.
    + destruct (A1 i B) as [Y|[Y|Y]]; auto.
    + destruct (A1 i B) as [Y|[Y|[]]]; auto.
    + cbn [set_bits q_bits q_interested] in *. match goal with K : bf_add _ _ = Some _ |- _ => apply (proj2 (bf_add_members _ _ _ K)) in B as [B|[-> _]] end; [|right; right; reflexivity].
      destruct (A1 i B) as [Y|[Y|[]]]; auto.
    + destruct (A1 i B) as [Y|[Y|Y]]; auto.
    + destruct (A1 i B) as [Y|[Y|Y]]; auto. cbn in Y. subst. auto.
    + right. right. exact I.
    + right. right. exact I.
    + right. right. exact I.
    + right. right. exact I.
    + right. left. assumption.
    + right. left. reflexivity.
    + destruct (A1 i B) as [Y|[Y|[]]]; auto.
  - intros q1 u r i Q1 U R B. assert (q1 = q') as -> by congruence. destruct (RQ _ _ U R) as [[U0 N]| ->]; [|inversion MV].
    assert (s_mu s = Some u) as MU by (apply (LK _ _ U0); destruct R as [->| ->]; reflexivity).
    assert (OLD : member (q_bits q) i -> member (s_have s') i \/ exists t0 rest, nth_error (s_threads s') t0 = Some (THandler p (HRecord i rest))).
    { intros B0. destruct (M2 _ _ _ _ Q U0 R B0) as [Y|(t0 & rest & Y)]; [left; auto|]. pose proof (one_hand _ _ _ _ _ HH Y T) as ->. right. unfold thread_in in T. assert (h = HRecord i rest) as -> by congruence.
      inversion MV; subst; try discriminate; try congruence.
      - exfalso. unfold P2PServer.exec in H. destruct (s_crashed s); [discriminate|]. unfold step_thread in H. rewrite T in H. unfold step_handler in H. rewrite Q, MU in H. destruct c; discriminate H.
      - exfalso. unfold P2PServer.exec in H. destruct (s_crashed s); [discriminate|]. unfold step_thread in H. rewrite T in H. unfold step_handler in H. rewrite Q, MU in H. destruct c; discriminate H.
      - eauto. }
    inversion MV; subst; try (match goal with K : alike _ _ |- _ => destruct K as [K1 K2]; rewrite K1 in B end); auto.
    cbn [set_bits q_bits] in *. match goal with K : bf_add _ _ = Some _ |- _ => apply (proj2 (bf_add_members _ _ _ K)) in B as [B|[-> _]] end; [auto|]. right. eauto.
  - intros q1 u h1 i Q1 U G B. assert (q1 = q') as -> by congruence. destruct (ONE _ _ U) as [-> ->]. clear U Q1.
    inversion MV; subst; try (match goal with K : alike _ _ |- _ => destruct K as [K1 K2]; rewrite K1 end).
    + apply announced_silent in B; [|assumption]. rewrite idle_todo by assumption. rewrite <- (idle_todo h) by assumption. apply A3; [now apply idle_gone|exact B].
    + congruence.
    + apply announced_silent in B; [|assumption]. auto.
    + apply announced_app in B as [B|(m1 & [B|[]] & AP)]; [destruct (A3 i eq_refl B) as [Y|[]]; now left|]. injection B as ->. right. eapply handle_todo'; eassumption.
    + rewrite app_nil_r in B. assert (0 <= i) as NN by (destruct B as (m1 & B1 & B2); eauto). cbn [set_bits q_bits].
      match goal with K : bf_add _ _ = Some _ |- _ => pose proof (fun j => proj2 (proj2 (bf_add_members _ _ _ K) j)) as K' end.
      destruct (A3 i eq_refl B) as [Y|[<-|Y]]; [left; apply K'; now left|left; apply K'; now right|now right].
    + rewrite app_nil_r in B. exact (A3 i eq_refl B).
    + rewrite app_nil_r in B. rewrite todo_next. exact (A3 i eq_refl B).
    + rewrite app_nil_r in B. exact (A3 i eq_refl B).
    + rewrite app_nil_r in B. exact (A3 i eq_refl B).
    + rewrite app_nil_r in B. exact (A3 i eq_refl B).
    + rewrite app_nil_r in B. exact (A3 i eq_refl B).
    + rewrite app_nil_r in B. rewrite todo_next. exact (A3 i eq_refl B).
    + rewrite app_nil_r in B. exact (A3 i eq_refl B).
    + rewrite todo_next. apply announced_app in B as [B|(m1 & [B|[]] & AP)]; [exact (A3 i eq_refl B)|discriminate B].
  - intros q1 u h1 Q1 U B. assert (q1 = q') as -> by congruence. destruct (ONE _ _ U) as [-> ->]. clear U Q1.
    inversion MV; subst; try (match goal with K : alike _ _ |- _ => destruct K as [K1 K2]; rewrite K2 in B end); try (rewrite app_nil_r).
    all: try (right; right; eexists; reflexivity).
    all: try (left; eexists; split; [apply in_or_app; right; now left|reflexivity]).
    all: try (right; left; assumption).
    all: destruct (A4 B) as [Y|[Y|[? Y]]]; try (left; first [exact Y|now apply asked_more]); try discriminate Y.
    all: try (rewrite idle_gone in Y by assumption; discriminate Y).
    all: try (subst; discriminate).
    + right. now left.
    + right. right. eauto.
  - intros N. congruence.
  - intros m i Y A. apply in_app_or in Y as [Y|Y]; [eauto|]. inversion MV; subst; try (match goal with K : forall x, In x _ -> silent x |- _ => specialize (K _ Y); cbn in K; congruence end);
      try (destruct Y; fail).
    + destruct Y as [Y|[]]. injection Y as ->. destruct A as [[_ <-]|[_ A]]; [assumption|now apply member_nonneg in A].
    + destruct Y as [Y|[]]. discriminate Y.
Qed.

Lemma minv_requester s ev s' e u c r q : hand_ok s -> thread_in s u (TRequester p r) -> nth_error (s_peers s) p = Some q -> exec s (AGo u c) = Some (s', e) -> minv s ev -> minv s' (ev ++ e).
Proof.
  intros HH U Q H M. destruct (requester_step _ _ _ _ _ _ _ U Q H) as (q' & x & Q' & X & MV & HV & KE & NE). unfold thread_in in U.
  assert (HD : forall t h, nth_error (s_threads s') t = Some (THandler p h) -> nth_error (s_threads s) t = Some (THandler p h)).
  { intros t h T. destruct (Nat.eq_dec t u) as [->|N].
    - assert (x = THandler p h) as -> by congruence. exfalso. inversion MV; subst. match goal with K : _ \/ exists r', THandler _ _ = _ |- _ => destruct K as [K|[? K]]; [cbn in K; rewrite Nat.eqb_refl in K; discriminate K|discriminate K] end.
    - destruct (NE _ _ N T) as [Y|Y]; [exact Y|]. cbn in Y. rewrite Nat.eqb_refl in Y. discriminate Y. }
  assert (KH : forall t h, nth_error (s_threads s) t = Some (THandler p h) -> nth_error (s_threads s') t = Some (THandler p h)).
  { intros t h T. apply KE; [|exact T]. intros ->. congruence. }
  assert (RD : forall t r', nth_error (s_threads s') t = Some (TRequester p r') -> t <> u -> nth_error (s_threads s) t = Some (TRequester p r')).
  { intros t r' T N. destruct (NE _ _ N T) as [Y|Y]; [exact Y|]. cbn in Y. rewrite Nat.eqb_refl in Y. discriminate Y. }
  destruct M as [M1 M2 M3 M4 M5 M6].
  assert (BITS : q_bits q' = q_bits q) by (inversion MV; reflexivity).
  assert (NR : forall m, ~ In (EvReceived p m) e).
  { intros m I. inversion MV; subst; try (match goal with K : forall y, In y _ -> silent y |- _ => specialize (K _ I); cbn in K; congruence end); try (destruct I; fail); destruct I as [I|[]]; discriminate I. }
  split.
  - intros q1 t h i Q1 T B. assert (q1 = q') as -> by congruence. apply HD in T. rewrite BITS in B. rewrite HV. destruct (M1 _ _ _ _ Q T B) as [Y|Y]; [now left|].
    inversion MV; subst; auto. destruct (M2 _ _ _ _ Q U (or_introl eq_refl) B) as [Z|(t' & rest & Z)]; [now left|]. right. right.
    pose proof (one_hand _ _ _ _ _ HH T Z) as ->. assert (h = HRecord i rest) as -> by congruence. reflexivity.
  - intros q1 t r' i Q1 T R B. assert (q1 = q') as -> by congruence. rewrite BITS in B. rewrite HV.
    assert (forall r0, nth_error (s_threads s) t = Some (TRequester p r0) -> r0 = RNotInterest \/ r0 = RNotInterested -> member (s_have s) i \/ exists t0 rest, nth_error (s_threads s') t0 = Some (THandler p (HRecord i rest))) as OLD.
    { intros r0 T0 R0. destruct (M2 _ _ _ _ Q T0 R0 B) as [Z|(t' & rest & Z)]; [now left|right; eauto]. }
    destruct (Nat.eq_dec t u) as [->|N]; [|exact (OLD _ (RD _ _ T N) R)].
    assert (x = TRequester p r') as -> by congruence. inversion MV; subst.
    + match goal with K : forall r', _ -> r' <> _ /\ _ |- _ => destruct (K _ eq_refl) as [K1 K2]; destruct R; contradiction end.
    + left. auto.
    + eapply OLD; [exact U|now left].
  - intros q1 t h i Q1 T G (m & I & A). assert (q1 = q') as -> by congruence. apply HD in T. rewrite BITS. apply in_app_or in I as [I|I]; [|exfalso; eapply NR; exact I]. apply (M3 _ _ _ _ Q T G). exists m. now split.
  - intros q1 t h Q1 T B. assert (q1 = q') as -> by congruence. apply HD in T. assert (q_interested q = true) as B0 by (inversion MV; subst; auto; discriminate B).
    destruct (M4 _ _ _ Q T B0) as [Y|Y]; [left; now apply asked_more|now right].
  - intros N. congruence.
  - intros m i Y A. apply in_app_or in Y as [Y|Y]; [eauto|]. exfalso. eapply NR. exact Y.
Qed.

Lemma minv_step s ev a s' e : locked_ok s -> hand_ok s -> hand_ok s' -> exec s a = Some (s', e) -> minv s ev -> minv s' (ev ++ e).
Proof.
  intros LK HH HH' H M. destruct (which s a) as [O|[(t & c & h & -> & T)|(t & c & r & -> & T)]].
  - exact (minv_frame _ _ _ _ _ HH HH' H (frame_step _ _ _ _ HH H O) M).
  - destruct (nth_error (s_peers s) p) as [q|] eqn:Q; [|exfalso; exact (has_peer _ _ _ HH T Q)]. exact (minv_handler _ _ _ _ _ _ _ _ LK HH HH' T Q H M).
  - destruct (nth_error (s_peers s) p) as [q|] eqn:Q; [|exfalso; unfold P2PServer.exec in H; destruct (s_crashed s); [discriminate|]; unfold step_thread in H; rewrite T in H; unfold step_requester in H; rewrite Q in H; discriminate H].
    exact (minv_requester _ _ _ _ _ _ _ _ HH T Q H M).
Qed.

(** * The last word *)
Lemma word_one ev m b : interest_in m = Some b -> last_word p (ev ++ [EvSent p m]) = Some b.
Proof. intros E. unfold last_word. rewrite fold_left_app. cbn [fold_left]. now rewrite Nat.eqb_refl, E. Qed.
Lemma kinv_step s ev a s' e : hand_ok s -> exec s a = Some (s', e) -> ~ calls_cross s p -> kinv s ev -> kinv s' (ev ++ e).
Proof.
  intros HH H NC [K1 K2]. destruct (which s a) as [O|[(t & c & h & -> & T)|(u & c & r & -> & U)]].
  - destruct (frame_step _ _ _ _ HH H O) as [FP FN FH FK FR FE].
    assert (OLD : forall q', nth_error (s_peers s') p = Some q' -> (exists q, nth_error (s_peers s) p = Some q /\ q_interested q' = q_interested q) \/ (q_interested q' = false)).
    { intros q' Q'. destruct (nth_error (s_peers s) p) as [q|] eqn:Q.
      - left. destruct (FP _ eq_refl) as (q1 & A & B & C). exists q. split; [reflexivity|]. congruence.
      - right. now destruct (FN eq_refl _ Q'). }
    split.
    + intros q' t h Q' T X. rewrite word_silent by exact FE. destruct (OLD _ Q') as [(q & Q & C)|C]; [|congruence]. rewrite C in X.
      destruct (FH _ _ T) as [T0|[_ N]]; [|congruence]. eauto.
    + intros q' u Q' U. destruct (OLD _ Q') as [(q & Q & C)|C]; [|exact C]. rewrite C. destruct (FR _ _ U) as [U0|E]; [eauto|discriminate E].
  - destruct (nth_error (s_peers s) p) as [q|] eqn:Q; [|exfalso; exact (has_peer _ _ _ HH T Q)].
    destruct (handler_step _ _ _ _ _ _ _ T Q H) as (q' & x & Q' & X & MV & KE & NE).
    assert (ONE : forall u h', nth_error (s_threads s') u = Some (THandler p h') -> u = t /\ x = THandler p h').
    { intros u h' U. destruct (Nat.eq_dec u t) as [->|N]; [split; congruence|]. destruct (NE _ _ N U) as [Y|Y]; [|discriminate Y]. exfalso. apply N. exact (one_hand _ _ _ _ _ HH Y T). }
    assert (A4 := K1 _ _ _ eq_refl T). split.
    + intros q1 u h1 Q1 U B. assert (q1 = q') as -> by congruence. destruct (ONE _ _ U) as [-> ->]. clear U Q1.
      inversion MV; subst; try (match goal with K : alike _ _ |- _ => destruct K as [A1 A2]; rewrite A2 in B end); try (rewrite app_nil_r).
      all: try (right; right; eexists; reflexivity).
      all: try (left; apply word_one; reflexivity).
      all: try (right; left; assumption).
      all: try (rewrite word_silent by assumption).
      all: try (rewrite word_silent by (intros y [<-|[]]; exact I)).
      all: try (destruct (A4 B) as [Y|[Y|[? Y]]]; [left; exact Y| |]; try discriminate Y; try (rewrite idle_gone in Y by assumption; discriminate Y); try (subst; discriminate)).
      * right. now left.
      * right. right. eauto.
      * left. destruct (A4 B) as [Y|[Y|[? Y]]]; try discriminate Y. match goal with |- context [last_word p (ev ++ ?e1)] => rewrite <- Y; unfold last_word; rewrite fold_left_app; reflexivity end.
    + intros q1 u Q1 U. assert (q1 = q') as -> by congruence.
      assert (nth_error (s_threads s) u = Some (TRequester p RNotInterested)) as U0.
      { destruct (Nat.eq_dec u t) as [->|N]; [assert (x = TRequester p RNotInterested) as -> by congruence; inversion MV|]. destruct (NE _ _ N U) as [Y|Y]; [exact Y|discriminate Y]. }
      pose proof (K2 _ _ eq_refl U0) as F. inversion MV; subst; try (match goal with K : alike _ _ |- _ => destruct K as [A1 A2]; rewrite A2; exact F end); try exact F.
      exfalso. apply NC. exists t, u. eauto.
  - destruct (nth_error (s_peers s) p) as [q|] eqn:Q; [|exfalso; unfold P2PServer.exec in H; destruct (s_crashed s); [discriminate|]; unfold step_thread in H; rewrite U in H; unfold step_requester in H; rewrite Q in H; discriminate H].
    destruct (requester_step _ _ _ _ _ _ _ U Q H) as (q' & x & Q' & X & MV & HV & KE & NE).
    assert (HD : forall t h, nth_error (s_threads s') t = Some (THandler p h) -> nth_error (s_threads s) t = Some (THandler p h)).
    { intros t h T. destruct (Nat.eq_dec t u) as [->|N].
      - assert (x = THandler p h) as -> by congruence. exfalso. inversion MV; subst. match goal with K : _ \/ exists r', THandler _ _ = _ |- _ => destruct K as [K|[? K]]; [cbn in K; rewrite Nat.eqb_refl in K; discriminate K|discriminate K] end.
      - destruct (NE _ _ N T) as [Y|Y]; [exact Y|]. cbn in Y. rewrite Nat.eqb_refl in Y. discriminate Y. }
    split.
    + intros q1 t h Q1 T B. assert (q1 = q') as -> by congruence. apply HD in T. inversion MV; subst.
      * rewrite word_silent by assumption. eauto.
      * rewrite word_silent by assumption. eauto.
      * discriminate B.
      * rewrite (K2 _ _ eq_refl U) in B. discriminate B.
    + intros q1 t Q1 T. assert (q1 = q') as -> by congruence. destruct (Nat.eq_dec t u) as [->|N].
      * assert (x = TRequester p RNotInterested) as -> by congruence. inversion MV; subst; [|reflexivity].
        match goal with K : forall r', _ -> r' <> _ /\ _ |- _ => destruct (K _ eq_refl) as [_ K3]; contradiction end.
      * destruct (NE _ _ N T) as [Y|Y]; [|cbn in Y; rewrite Nat.eqb_refl in Y; discriminate Y]. pose proof (K2 _ _ eq_refl Y) as F. inversion MV; subst; auto.
Qed.

(** * Nothing more is said while a piece is missing *)
Definition settled (i : Z) (s : sys) : Prop :=
  (exists q, nth_error (s_peers s) p = Some q /\ q_interested q = true /\ member (q_bits q) i) /\ ~ losing_interest s p /\
  (forall t rest, nth_error (s_threads s) t <> Some (THandler p (HInterested rest))).
Lemma settled_step i s a s' e : hand_ok s -> exec s a = Some (s', e) -> ~ member (s_have s) i -> settled i s -> settled i s' /\ says_nothing p e.
Proof.
  intros HH H NM ((q & Q & F & B) & NL & NI).
  assert (SN : (forall x, In x e -> silent x) -> says_nothing p e) by (intros S m I; specialize (S _ I); cbn in S; destruct S; [congruence|assumption]).
  destruct (which s a) as [O|[(t & c & h & -> & T)|(u & c & r & -> & U)]].
  - destruct (frame_step _ _ _ _ HH H O) as [FP FN FH FK FR FE]. split; [|auto]. split; [|split].
    + destruct (FP _ Q) as (q' & Q' & B' & F'). exists q'. split; [exact Q'|]. split; congruence.
    + intros (t & r & T & R). destruct (FR _ _ T) as [T0|E]; [apply NL; exists t, r; auto|destruct R; congruence].
    + intros t rest T. destruct (FH _ _ T) as [T0|[E _]]; [eapply NI; exact T0|discriminate E].
  - destruct (handler_step _ _ _ _ _ _ _ T Q H) as (q' & x & Q' & X & MV & KE & NE).
    assert (NF : forall rest, h <> HInterested rest) by (intros rest ->; eapply NI; exact T).
    split; [split; [|split]|].
    + exists q'. split; [exact Q'|]. inversion MV; subst; try (match goal with K : alike _ _ |- _ => destruct K as [A1 A2]; rewrite A1, A2 end); auto.
      split; [exact F|]. match goal with K : bf_add _ _ = Some _ |- _ => apply (proj2 (bf_add_members _ _ _ K)) end. now left.
    + intros (u & r & U & R). destruct (Nat.eq_dec u t) as [->|N]; [assert (x = TRequester p r) as -> by congruence; inversion MV|].
      destruct (NE _ _ N U) as [Y|Y]; [apply NL; exists u, r; auto|destruct R; congruence].
    + intros u rest U. destruct (Nat.eq_dec u t) as [->|N].
      * assert (x = THandler p (HInterested rest)) as -> by congruence. inversion MV; subst; try discriminate; try congruence.
        -- match goal with K : handle _ _ = _ |- _ => unfold handle in K; brk K; try discriminate K; injection K as _ K; try discriminate K; destruct (bf_items _); discriminate K end.
        -- destruct rest0; discriminate.
        -- destruct rest0; discriminate.
      * destruct (NE _ _ N U) as [Y|Y]; [eapply NI; exact Y|discriminate Y].
    + inversion MV; subst; auto; try (intros m1 [K|[]]; discriminate K); try (intros m1 K; destruct K; fail). exfalso. eapply NF. reflexivity.
  - destruct (requester_step _ _ _ _ _ _ _ U Q H) as (q' & x & Q' & X & MV & HV & KE & NE).
    assert (NR : r <> RNotInterest /\ r <> RNotInterested) by (split; intros ->; apply NL; exists u; eexists; (split; [exact U|auto])).
    inversion MV; subst; try (now destruct NR); [|exfalso; apply NM; auto].
    split; [|auto]. split; [eauto|]. split.
    + intros (t & r' & T & R). destruct (Nat.eq_dec t u) as [->|N].
      * assert (x = TRequester p r') as -> by congruence. match goal with K : forall r', _ -> r' <> _ /\ _ |- _ => destruct (K _ eq_refl) as [A1 A2] end. destruct R; contradiction.
      * destruct (NE _ _ N T) as [Y|Y]; [apply NL; exists t, r'; auto|cbn in Y; rewrite Nat.eqb_refl in Y; discriminate Y].
    + intros t rest T. destruct (Nat.eq_dec t u) as [->|N].
      * assert (x = THandler p (HInterested rest)) as -> by congruence. match goal with K : _ \/ exists r', THandler _ _ = _ |- _ => destruct K as [K|[? K]]; [cbn in K; rewrite Nat.eqb_refl in K; discriminate K|discriminate K] end.
      * destruct (NE _ _ N T) as [Y|Y]; [eapply NI; exact Y|cbn in Y; rewrite Nat.eqb_refl in Y; discriminate Y].
Qed.

(** * INTERESTED for a reason *)
Section Reason.
Variable R : Prop.   (* there has been a reason *)
Definition winv (ev : list event) (s : sys) : Prop :=
  (forall t i rest, nth_error (s_threads s) t = Some (THandler p (HRecord i rest)) \/ nth_error (s_threads s) t = Some (THandler p (HCheck i rest)) -> announced ev p i) /\
  (forall t rest, nth_error (s_threads s) t = Some (THandler p (HQueue (Some rest))) \/ nth_error (s_threads s) t = Some (THandler p (HToken (Some rest))) \/
    nth_error (s_threads s) t = Some (THandler p (HInterest rest)) \/ nth_error (s_threads s) t = Some (THandler p (HInterested rest)) -> R) /\
  (asked ev -> R).
End Reason.
Lemma winv_step (R R' : Prop) s ev a s' e : hand_ok s -> ann_ok s ev -> exec s a = Some (s', e) -> (R -> R') -> (forall i, announced ev p i -> ~ member (s_have s) i -> R') ->
  winv R ev s -> winv R' (ev ++ e) s'.
Proof.
  intros HH AN H RR NEW (W1 & W2 & W3).
  assert (SA : (forall x, In x e -> silent x) -> asked (ev ++ e) -> R').
  { intros S (m & I & E). apply RR, W3. exists m. split; [|exact E]. apply in_app_or in I as [I|I]; [exact I|]. specialize (S _ I). cbn in S. destruct S; congruence. }
  destruct (which s a) as [O|[(t & c & h & -> & T)|(u & c & r & -> & U)]].
  - destruct (frame_step _ _ _ _ HH H O) as [FP FN FH FK FR FE].
    assert (FH' : forall t h, h <> HConnect -> nth_error (s_threads s') t = Some (THandler p h) -> nth_error (s_threads s) t = Some (THandler p h)).
    { intros t h N T. destruct (FH _ _ T) as [T0|[E _]]; [exact T0|contradiction]. }
    split; [|split].
    + intros t i rest [T|T]; apply FH' in T; try discriminate; apply announced_more; eauto.
    + intros t rest [T|[T|[T|T]]]; apply FH' in T; try discriminate; apply RR; eapply W2; eauto.
    + auto.
  - destruct (nth_error (s_peers s) p) as [q|] eqn:Q; [|exfalso; exact (has_peer _ _ _ HH T Q)].
    destruct (handler_step _ _ _ _ _ _ _ T Q H) as (q' & x & Q' & X & MV & KE & NE).
    assert (ONE : forall u h', nth_error (s_threads s') u = Some (THandler p h') -> u = t /\ x = THandler p h').
    { intros u h' U. destruct (Nat.eq_dec u t) as [->|N]; [split; congruence|]. destruct (NE _ _ N U) as [Y|Y]; [|discriminate Y]. exfalso. apply N. exact (one_hand _ _ _ _ _ HH Y T). }
    split; [|split].
    + intros u i rest D. apply announced_more. destruct D as [D|D]; destruct (ONE _ _ D) as [-> ->]; inversion MV; subst; try discriminate; try (eapply W1; eauto; fail).
      all: try (match goal with K : handle _ _ = _ |- _ => unfold handle in K; brk K; try discriminate K; injection K as _ K; try discriminate K; destruct (bf_items _); discriminate K end).
      all: try (destruct rest0; discriminate).
      apply (proj2 AN _ (nth_error_In _ _ T)). now left.
    + intros u rest D.
      assert (forall h', nth_error (s_threads s') u = Some (THandler p h') -> h' = HQueue (Some rest) \/ h' = HToken (Some rest) \/ h' = HInterest rest \/ h' = HInterested rest -> R') as G.
      { clear D. intros h' D E. destruct (ONE _ _ D) as [-> ->]. inversion MV; subst.
        - destruct E as [->|[->|[->| ->]]]; discriminate.
        - destruct E as [->|[->|[->| ->]]]; discriminate.
        - apply RR. eapply (W2 t rest). destruct E as [<-|[<-|[<-|<-]]]; auto.
        - match goal with K : handle _ _ = _ |- _ => unfold handle in K; brk K; injection K as _ K end; destruct E as [->|[->|[->| ->]]]; try discriminate; destruct (bf_items _); discriminate.
        - destruct E as [E|[E|[E|E]]]; discriminate E.
        - destruct E as [E|[E|[E|E]]]; discriminate E.
        - destruct rest0; destruct E as [E|[E|[E|E]]]; discriminate E.
        - apply (NEW i); [|assumption]. eapply W1. right. exact T.
        - apply RR. eapply W2. eauto.
        - apply RR. eapply W2. eauto.
        - apply RR. eapply W2. eauto.
        - destruct rest0; destruct E as [E|[E|[E|E]]]; discriminate E.
        - apply RR. eapply W2. eauto.
        - destruct rest0; destruct E as [E|[E|[E|E]]]; discriminate E. }
      destruct D as [D|[D|[D|D]]]; eapply G; eauto.
    + inversion MV; subst; auto; try (intros A1; rewrite app_nil_r in A1; auto; fail).
      * intros (m1 & I & E). apply RR, W3. exists m1. split; [|exact E]. apply in_app_or in I as [I|[I|[]]]; [exact I|discriminate I].
      * intros _. apply RR. eapply W2. eauto.
  - destruct (nth_error (s_peers s) p) as [q|] eqn:Q; [|exfalso; unfold P2PServer.exec in H; destruct (s_crashed s); [discriminate|]; unfold step_thread in H; rewrite U in H; unfold step_requester in H; rewrite Q in H; discriminate H].
    destruct (requester_step _ _ _ _ _ _ _ U Q H) as (q' & x & Q' & X & MV & HV & KE & NE).
    assert (HD : forall t h, nth_error (s_threads s') t = Some (THandler p h) -> nth_error (s_threads s) t = Some (THandler p h)).
    { intros t h T. destruct (Nat.eq_dec t u) as [->|N].
      - assert (x = THandler p h) as -> by congruence. exfalso. inversion MV; subst. match goal with K : _ \/ exists r', THandler _ _ = _ |- _ => destruct K as [K|[? K]]; [cbn in K; rewrite Nat.eqb_refl in K; discriminate K|discriminate K] end.
      - destruct (NE _ _ N T) as [Y|Y]; [exact Y|]. cbn in Y. rewrite Nat.eqb_refl in Y. discriminate Y. }
    split; [|split].
    + intros t i rest [T|T]; apply HD in T; apply announced_more; eauto.
    + intros t rest [T|[T|[T|T]]]; apply HD in T; apply RR; eapply W2; eauto.
    + intros (m & I & E). apply RR, W3. exists m. split; [|exact E]. apply in_app_or in I as [I|I]; [exact I|]. exfalso.
      inversion MV; subst; try (match goal with K : forall y, In y _ -> silent y |- _ => specialize (K _ I); cbn in K; destruct K; congruence end); try (destruct I; fail).
      destruct I as [I|[]]. injection I as <-. discriminate E.
Qed.
End Interest.

Section Thm.
Variable hash id : bytes.
Variable n : Z.
Variable have : bytes.
Notation run := (run_of hash id n have).
Lemma run_snoc l s ev a s' e blank : bf_new n = Some blank -> run l s ev -> exec hash id blank s a = Some (s', e) -> run (l ++ [a]) s' (ev ++ e).
Proof.
  intros B (b & B' & Z & R) H. assert (b = blank) as -> by congruence. exists blank. split; [exact B|]. split; [exact Z|]. rewrite runs_app, R. cbn [runs]. now rewrite H, app_nil_r.
Qed.
Lemma run_ind (P : list action -> sys -> list event -> Prop) : (P [] (started have) []) ->
  (forall l s ev a s' e blank, bf_new n = Some blank -> run l s ev -> P l s ev -> exec hash id blank s a = Some (s', e) -> P (l ++ [a]) s' (ev ++ e)) -> forall l s ev, run l s ev -> P l s ev.
Proof.
  intros H0 HS l s ev (blank & B & Z & R). enough (run l s ev /\ P l s ev) by easy. revert R.
  apply (runs_acts_ind hash id blank (fun l s ev => run l s ev /\ P l s ev)).
  - split; [exists blank; auto|exact H0].
  - intros l1 s1 ev1 a s2 e (R & Q) H. split; [eapply run_snoc; eassumption|eapply HS; eassumption].
Qed.
Lemma run_minv p l s ev : run l s ev -> minv p s ev.
Proof.
  apply (run_ind (fun l s ev => minv p s ev)); clear l s ev.
  - assert (N : nth_error (s_peers (started have)) p = None) by (destruct p; reflexivity). split.
    + intros; congruence.
    + intros; congruence.
    + intros; congruence.
    + intros; congruence.
    + intros _ x [].
    + intros m i [].
  - intros l1 s1 ev1 a s2 e blank B R M H. pose proof (run_inv _ _ _ _ _ _ _ R) as V. pose proof (run_inv _ _ _ _ _ _ _ (run_snoc _ _ _ _ _ _ _ B R H)) as V'.
    destruct V, V'. apply (minv_step hash id blank p (blank_empty _ _ B) s1 ev1 a s2 e); assumption.
Qed.
Lemma have_stored l s ev i : run l s ev -> 0 <= i -> (member (s_have s) i <-> stored_in have ev i).
Proof.
  intros (blank & B & _ & R) I. destruct (run_events hash id blank have (blank_empty _ _ B) l s ev R) as [_ [HV _]]. now apply HV.
Qed.
Lemma wanted p l s ev i t : run l s ev -> nth_error (s_threads s) t = Some (THandler p HReceive) -> announced ev p i ->
  exists q, nth_error (s_peers s) p = Some q /\ member (q_bits q) i /\ (~ stored_in have ev i -> q_interested q = true).
Proof.
  intros R T A. pose proof (run_minv p _ _ _ R) as M. pose proof (run_inv _ _ _ _ _ _ _ R) as V. destruct V.
  destruct (nth_error (s_peers s) p) as [q|] eqn:Q; [|exfalso; exact (has_peer _ _ _ _ v_hand T Q)]. exists q. split; [reflexivity|].
  destruct (m_bits _ _ _ M _ _ _ i Q T eq_refl A) as [B|[]]. split; [exact B|]. intros N.
  destruct (m_flag _ _ _ M _ _ _ _ Q T B) as [Y|[Y|[]]]; [|exact Y]. exfalso. apply N. apply (have_stored _ _ _ _ R); [now apply member_nonneg in B|exact Y].
Qed.
Lemma run_kinv p l s ev : run l s ev -> never_cross hash id n have l p -> kinv p s ev.
Proof.
  intros R. revert l s ev R. apply (run_ind (fun l s ev => never_cross hash id n have l p -> kinv p s ev)).
  - intros _. assert (N : nth_error (s_peers (started have)) p = None) by (destruct p; reflexivity). split; intros; congruence.
  - intros l s ev a s' e blank B R K H NC. pose proof (run_inv _ _ _ _ _ _ _ R) as V. destruct V.
    assert (never_cross hash id n have l p) as NC' by (intros l1 l2 s1 ev1 -> R1; apply (NC l1 (l2 ++ [a]) s1 ev1); [now rewrite app_assoc|exact R1]).
    apply (kinv_step hash id blank p s ev a s' e); [exact v_hand|exact H|exact (NC l [a] s ev eq_refl R)|auto].
Qed.
Theorem told_interested p l s ev i : run l s ev -> waiting s p -> announced ev p i -> ~ stored_in have ev i -> never_cross hash id n have l p -> last_word p ev = Some true.
Proof.
  intros R (t & T) A N NC. destruct (wanted _ _ _ _ _ _ R T A) as (q & Q & _ & F). destruct (run_kinv _ _ _ _ R NC) as [K _].
  destruct (K _ _ _ Q T (F N)) as [Y|[Y|[? Y]]]; [exact Y|discriminate Y|discriminate Y].
Qed.
Theorem asked_once p l s ev i : run l s ev -> waiting s p -> announced ev p i -> ~ stored_in have ev i -> exists m, In (EvSent p m) ev /\ m_type m = INTERESTED.
Proof.
  intros R (t & T) A N. destruct (wanted _ _ _ _ _ _ R T A) as (q & Q & _ & F).
  destruct (m_asked _ _ _ (run_minv p _ _ _ R) _ _ _ Q T (F N)) as [(m & I & E)|[Y|[? Y]]]; [|discriminate Y|discriminate Y].
  exists m. split; [exact I|]. unfold interest_in in E. destruct (Z.eqb_spec (m_type m) INTERESTED) as [|_]; [assumption|]. destruct (_ =? _); discriminate E.
Qed.
Theorem uninterested_is_meant p l s ev a s' e m i : run l s ev -> goes_on hash id n s [a] s' e -> In (EvSent p m) e -> m_type m = NOT_INTERESTED -> waiting s p -> announced ev p i -> stored_in have ev i.
Proof.
  intros R G I MT (t & T) A. apply goes_one in G as (blank & B & H). destruct (wanted _ _ _ _ _ _ R T A) as (q & Q & MB & _).
  pose proof (run_inv _ _ _ _ _ _ _ R) as V. destruct V. pose proof (run_minv p _ _ _ R) as M.
  assert (IN : interest_in m = Some false) by (unfold interest_in; rewrite MT; reflexivity).
  assert (NS : ~ silent p (EvSent p m)) by (cbn; intros [X|X]; congruence).
  destruct (which p s a) as [O|[(t0 & c & h & -> & T0)|(u & c & r & -> & U)]].
  - exfalso. destruct (frame_step hash id blank p _ _ _ _ v_hand H O). apply NS. auto.
  - exfalso. pose proof (one_hand _ _ _ _ _ _ v_hand T T0) as <-. assert (h = HReceive) as -> by congruence.
    destruct (handler_step hash id blank p _ _ _ _ _ _ _ T Q H) as (q' & x & Q' & X & MV & _).
    inversion MV; subst; try (apply NS; auto; fail). destruct I as [I|[]]. discriminate I.
  - destruct (requester_step hash id blank p _ _ _ _ _ _ _ U Q H) as (q' & x & Q' & X & MV & _).
    inversion MV; subst; try (exfalso; apply NS; auto; fail); try (destruct I; fail).
    destruct (m_not _ _ _ M _ _ _ _ Q U (or_intror eq_refl) MB) as [Y|(t0 & rest & Y)].
    + apply (have_stored _ _ _ _ R); [now apply member_nonneg in MB|exact Y].
    + exfalso. pose proof (one_hand _ _ _ _ _ _ v_hand T Y) as <-. congruence.
Qed.
Lemma run_winv p l s ev : run l s ev ->
  winv p (exists l1 l2 s1 ev1 i, l = l1 ++ l2 /\ run l1 s1 ev1 /\ announced ev1 p i /\ ~ stored_in have ev1 i) ev s.
Proof.
  apply (run_ind (fun l s ev => winv p (exists l1 l2 s1 ev1 i, l = l1 ++ l2 /\ run l1 s1 ev1 /\ announced ev1 p i /\ ~ stored_in have ev1 i) ev s)); clear l s ev.
  - split; [|split].
    + intros [|t] i rest [X|X]; discriminate X.
    + intros [|t] rest [X|[X|[X|X]]]; discriminate X.
    + intros (m & [] & _).
  - intros l s ev a s' e blank B R W H. pose proof (run_inv _ _ _ _ _ _ _ R) as V. destruct V.
    assert (ann_ok s ev) as AN by (destruct R as (b & B' & _ & R); assert (b = blank) as -> by congruence; now destruct (run_events hash id blank have (blank_empty _ _ B) l s ev R)).
    refine (winv_step hash id blank p _ _ s ev a s' e v_hand AN H _ _ W).
    + intros (l1 & l2 & s1 & ev1 & i & -> & X). exists l1, (l2 ++ [a]), s1, ev1, i. split; [now rewrite app_assoc|exact X].
    + intros i A N. exists l, [a], s, ev, i. split; [reflexivity|]. split; [exact R|]. split; [exact A|]. intros X. apply N. apply (have_stored _ _ _ _ R); [|exact X].
      destruct A as (m & I & AP). exact (m_msgs _ _ _ (run_minv p _ _ _ R) _ _ I AP).
Qed.
Theorem interested_is_meant p l s ev m : run l s ev -> In (EvSent p m) ev -> m_type m = INTERESTED ->
  exists l1 l2 s1 ev1 i, l = l1 ++ l2 /\ run l1 s1 ev1 /\ announced ev1 p i /\ ~ stored_in have ev1 i.
Proof.
  intros R I MT. destruct (run_winv p _ _ _ R) as (_ & _ & W). apply W. exists m. split; [exact I|]. unfold interest_in. now rewrite MT.
Qed.
Theorem no_more_news p l s ev i l' s' ev' : run l s ev -> waiting s p -> announced ev p i -> ~ losing_interest s p -> goes_on hash id n s l' s' ev' -> ~ stored_in have (ev ++ ev') i ->
  says_nothing p ev'.
Proof.
  intros R (t & T) A NL (blank & B & G) N. pose proof (run_inv _ _ _ _ _ _ _ R) as V0.
  assert (ST : settled p i s).
  { destruct V0. destruct (wanted _ _ _ _ _ _ R T A) as (q & Q & MB & F). split; [|split; [exact NL|]].
    - exists q. split; [exact Q|]. split; [|exact MB]. apply F. intros X. apply N. destruct X as [X|X]; [now left|right; apply in_or_app; now left].
    - intros u rest U. pose proof (one_hand _ _ _ _ _ _ v_hand T U) as <-. congruence. }
  assert (NN : 0 <= i) by (destruct A as (m & I & AP); exact (m_msgs _ _ _ (run_minv p _ _ _ R) _ _ I AP)).
  enough (run (l ++ l') s' (ev ++ ev') /\ (settled p i s' /\ says_nothing p ev' \/ stored_in have (ev ++ ev') i)) as [_ [[_ X]|X]]; [exact X|contradiction|]. clear T A NL N V0. revert G.
  apply (runs_acts_ind hash id blank (fun l' s' ev' => run (l ++ l') s' (ev ++ ev') /\ (settled p i s' /\ says_nothing p ev' \/ stored_in have (ev ++ ev') i))).
  - rewrite !app_nil_r. split; [exact R|]. left. split; [exact ST|intros m []].
  - intros l1 s1 e1 a s2 e (R1 & D) H. rewrite !app_assoc. split; [eapply run_snoc; eassumption|]. pose proof (run_inv _ _ _ _ _ _ _ R1) as V. destruct V.
    destruct D as [[S1 S2]|D]; [|right; destruct D as [D|D]; [now left|right; apply in_or_app; now left]].
    destruct (bf_has (s_have s1) i) as [[]|] eqn:HB.
    { right. apply bf_has_member in HB. apply (have_stored _ _ _ _ R1 NN) in HB. destruct HB as [D|D]; [now left|right; apply in_or_app; now left]. }
    all: left; assert (~ member (s_have s1) i) as NM by (intros X; apply bf_has_member in X; congruence).
    all: destruct (settled_step hash id blank p i s1 a s2 e v_hand H NM S1) as [S3 S4]; split; [exact S3|]; intros m I; apply in_app_or in I as [I|I]; auto.
Qed.
End Thm.
