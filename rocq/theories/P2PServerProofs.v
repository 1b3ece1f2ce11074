(** Invariants of the server model. *)
From Verif Require Import GoBase GoBaseProofs Bitfield BitfieldSpec BitfieldProofs GoMap PeerWire NetIP Tracker P2PPeer P2PServer P2PServerSpec.

(** * Steps *)
Ltac brk H := repeat match type of H with
  | context [match ?x with _ => _ end] => destruct x eqn:?; try discriminate H
  end.
Ltac open_exec H :=
  unfold exec, step_thread, step_handler, step_requester, step_piece, add_peer, hand_over, crash in H;
  brk H; injection H as <- <-;
  repeat match goal with
  | X : Some _ = Some ?y |- _ => injection X as <- || injection X as ->
  | X : (if s_requesting ?s then _ else None) = Some _ |- _ => destruct (s_requesting s) eqn:?; [injection X as <-|discriminate X]
  end.
Ltac fields := cbn [goto spawn peer_is drop_peer block_addrs record_index remember
  set_peers set_threads set_mu set_slots set_queue set_reg set_have set_serving set_dialing set_taken set_requesting set_cancelled set_crashed
  s_peers s_threads s_mu s_slots s_queue s_reg s_have s_serving s_dialing s_taken s_requesting s_cancelled s_crashed
  set_known set_addrs set_idips set_blocked set_active set_holders set_queued set_inflight
  g_known g_addrs g_idips g_blocked g_active g_holders g_queued g_inflight].
Ltac fields_in H := cbn [goto spawn peer_is drop_peer block_addrs record_index remember
  set_peers set_threads set_mu set_slots set_queue set_reg set_have set_serving set_dialing set_taken set_requesting set_cancelled set_crashed
  s_peers s_threads s_mu s_slots s_queue s_reg s_have s_serving s_dialing s_taken s_requesting s_cancelled s_crashed
  set_known set_addrs set_idips set_blocked set_active set_holders set_queued set_inflight
  g_known g_addrs g_idips g_blocked g_active g_holders g_queued g_inflight] in H.

(** * Sums over goroutines *)
Definition tsum (f : thread -> Z) (l : list thread) : Z := fold_right (fun x a => f x + a) 0 l.
Lemma tsum_app f l l' : tsum f (l ++ l') = tsum f l + tsum f l'.
Proof. unfold tsum. induction l as [|x l IH]; cbn [app fold_right]; [easy|]. rewrite IH. lia. Qed.
Lemma tsum_set f t x y l : nth_error l t = Some x -> tsum f (list_set t y l) = tsum f l - f x + f y.
Proof.
  revert t. induction l as [|z l IH]; intros [|t]; cbn; try discriminate.
  - intros [= ->]. lia.
  - intros H. specialize (IH t H). fold (tsum f (list_set t y l)) (tsum f l). lia.
Qed.
Lemma tsum_one f x : tsum f [x] = f x. Proof. cbn. lia. Qed.
Lemma tsum_nonneg f l : (forall x, 0 <= f x) -> 0 <= tsum f l.
Proof. intros H. induction l as [|x l IH]; cbn; [lia|]. fold (tsum f l). specialize (H x). lia. Qed.
Lemma tsum_ge f t x l : (forall x, 0 <= f x) -> nth_error l t = Some x -> f x <= tsum f l.
Proof.
  intros H. revert t. induction l as [|y l IH]; intros [|t]; cbn; try discriminate; fold (tsum f l).
  - intros [= ->]. pose proof (tsum_nonneg f l H). lia.
  - intros E. specialize (IH _ E). specialize (H y). lia.
Qed.
Lemma tsum_ge2 f t u x y l : (forall x, 0 <= f x) -> nth_error l t = Some x -> nth_error l u = Some y -> t <> u -> f x + f y <= tsum f l.
Proof.
  intros H. revert t u. induction l as [|z l IH]; intros [|t] [|u]; cbn; try discriminate; try congruence; fold (tsum f l).
  - intros [= ->] E _. pose proof (tsum_ge f u y l H E). lia.
  - intros E [= ->] _. pose proof (tsum_ge f t x l H E). lia.
  - intros E1 E2 N. specialize (IH _ _ E1 E2). specialize (H z). lia.
Qed.
Lemma tsum_zero f l : (forall x, In x l -> f x = 0) -> tsum f l = 0.
Proof. induction l as [|x l IH]; cbn; [easy|]. intros H. fold (tsum f l). rewrite IH by auto. rewrite H by auto. lia. Qed.
Lemma tsum_pos f l : 0 < tsum f l -> exists t x, nth_error l t = Some x /\ 0 < f x.
Proof.
  induction l as [|x l IH]; cbn; [lia|]. fold (tsum f l). intros H.
  destruct (Z_lt_dec 0 (f x)) as [P|P]; [exists O, x; auto|].
  destruct IH as [t [y [E Q]]]; [lia|]. exists (S t), y. auto.
Qed.

(** * Stop drops every active peer *)
Definition drop_all (l : list nat) (s : sys) : sys :=
  fold_left (fun s p => match nth_error (s_peers s) p with Some q => drop_peer p q s | None => s end) l s.
Lemma drop_all_ind (P : sys -> Prop) l s : P s -> (forall s p q, P s -> nth_error (s_peers s) p = Some q -> P (drop_peer p q s)) -> P (drop_all l s).
Proof.
  intros H0 H. unfold drop_all. revert s H0. induction l as [|p l IH]; cbn; [easy|].
  intros s H0. apply IH. destruct nth_error eqn:E; auto.
Qed.
Definition same_but_peers (s s' : sys) : Prop :=
  s_threads s' = s_threads s /\ s_mu s' = s_mu s /\ s_slots s' = s_slots s /\ s_queue s' = s_queue s /\ s_have s' = s_have s /\
  s_serving s' = s_serving s /\ s_dialing s' = s_dialing s /\ s_taken s' = s_taken s /\ s_requesting s' = s_requesting s /\
  s_cancelled s' = s_cancelled s /\ s_crashed s' = s_crashed s /\
  g_known (s_reg s') = g_known (s_reg s) /\ g_blocked (s_reg s') = g_blocked (s_reg s) /\
  g_queued (s_reg s') = g_queued (s_reg s) /\ g_inflight (s_reg s') = g_inflight (s_reg s).
Lemma forget_all_same p l g : let g' := fold_left (fun g i => forget_index p i g) l g in
  g_known g' = g_known g /\ g_addrs g' = g_addrs g /\ g_idips g' = g_idips g /\ g_blocked g' = g_blocked g /\ g_active g' = g_active g /\
  g_queued g' = g_queued g /\ g_inflight g' = g_inflight g.
Proof.
  cbn. revert g. induction l as [|i l IH]; intros g; cbn; [easy|].
  destruct (IH (forget_index p i g)) as [A [B [C [D [E [F G]]]]]].
  rewrite A, B, C, D, E, F, G. unfold forget_index. destruct mget; easy.
Qed.
Lemma disconnect_same p q g : g_known (disconnect p q g) = g_known g /\ g_blocked (disconnect p q g) = g_blocked g /\
  g_queued (disconnect p q g) = g_queued g /\ g_inflight (disconnect p q g) = g_inflight g.
Proof. unfold disconnect. destruct (forget_all_same p (bf_items (q_bits q)) g) as [A [B [C [D [E [F G]]]]]]. fields. easy. Qed.
Lemma drop_peer_same p q s : same_but_peers s (drop_peer p q s).
Proof. unfold same_but_peers, drop_peer. fields. destruct (disconnect_same p q (s_reg s)) as [A [B [C D]]]. intuition auto. Qed.
Lemma drop_all_same l s : same_but_peers s (drop_all l s).
Proof.
  apply (drop_all_ind (same_but_peers s)); [unfold same_but_peers; intuition|].
  intros s1 p q H _. pose proof (drop_peer_same p q s1) as H'. unfold same_but_peers in *. intuition congruence.
Qed.

(** * Maps *)
Section MapFacts.
Context {K V : Type} (eqb : K -> K -> bool) (E : forall a b, eqb a b = true <-> a = b).
Lemma meqb_refl k : eqb k k = true. Proof. now apply E. Qed.
Lemma meqb_neq a b : a <> b -> eqb a b = false.
Proof. intros N. destruct (eqb a b) eqn:H; [|easy]. now apply E in H. Qed.
Lemma mget_put k k' (v : V) m : mget eqb k (mput eqb k' v m) = if eqb k' k then Some v else mget eqb k (mdel eqb k' m).
Proof. unfold mget, mput. cbn. now destruct (eqb k' k). Qed.
Lemma mget_del k k' (m : list (K * V)) : mget eqb k (mdel eqb k' m) = if eqb k' k then None else mget eqb k m.
Proof.
  unfold mget, mdel. induction m as [|[a v] m IH]; cbn; [now destruct (eqb k' k)|].
  destruct (eqb a k') eqn:A; cbn.
  - apply E in A as ->. rewrite IH. now destruct (eqb k' k).
  - destruct (eqb a k) eqn:B; cbn; [|easy]. apply E in B as ->. destruct (eqb k' k) eqn:C; [|easy].
    apply E in C as ->. rewrite meqb_refl in A. discriminate.
Qed.
Lemma mget_in k (v : V) m : mget eqb k m = Some v -> In (k, v) m.
Proof.
  unfold mget. destruct find as [[a w]|] eqn:F; cbn; [|discriminate]. intros [= ->].
  apply find_some in F as [F G]. cbn in G. now apply E in G as ->.
Qed.
Lemma mget_none k (m : list (K * V)) : mget eqb k m = None <-> ~ In k (map fst m).
Proof.
  unfold mget. destruct find as [[a w]|] eqn:F; cbn.
  - apply find_some in F as [F G]. cbn in G. apply E in G as ->. split; [discriminate|].
    intros N. destruct N. apply in_map_iff. now exists (k, w).
  - split; [|easy]. intros _ I. apply in_map_iff in I as [[a w] [<- I]]. cbn in I.
    pose proof (find_none _ _ F _ I) as G. cbn in G. now rewrite meqb_refl in G.
Qed.
Lemma mdel_keys k (m : list (K * V)) : NoDup (map fst m) -> NoDup (map fst (mdel eqb k m)).
Proof.
  induction m as [|[a v] m IH]; cbn; [easy|]. intros N. inversion_clear N as [|? ? N1 N2].
  destruct (eqb a k); cbn; [now apply IH|]. constructor; [|now apply IH].
  intros I. apply N1. apply in_map_iff in I as [e [<- I]]. apply filter_In in I as [I _]. now apply in_map.
Qed.
Lemma mdel_not_in k (m : list (K * V)) : ~ In k (map fst (mdel eqb k m)).
Proof. apply mget_none. now rewrite mget_del, meqb_refl. Qed.
Lemma mput_keys k v (m : list (K * V)) : NoDup (map fst m) -> NoDup (map fst (mput eqb k v m)).
Proof. intros N. cbn. constructor; [apply mdel_not_in|now apply mdel_keys]. Qed.
Lemma mdel_len k (m : list (K * V)) : zlen (mdel eqb k m) <= zlen m.
Proof. unfold zlen, mdel. induction m as [|e m IH]; cbn; [lia|]. destruct negb; cbn; lia. Qed.
Lemma mdel_in k (e : K * V) m : In e (mdel eqb k m) <-> In e m /\ fst e <> k.
Proof.
  unfold mdel. rewrite filter_In. destruct (eqb (fst e) k) eqn:A; cbn.
  - apply E in A. intuition congruence.
  - split; intros [H _]; (split; [easy|]); [|easy]. intros <-. now rewrite meqb_refl in A.
Qed.
Lemma smem_in k s : smem eqb k s = true <-> In k s.
Proof.
  unfold smem. rewrite existsb_exists. split; [intros [x [H A]]; now apply E in A as ->|].
  intros H. exists k. split; [easy|apply meqb_refl].
Qed.
Lemma sadd_in k x s : In x (sadd eqb k s) <-> x = k \/ In x s.
Proof.
  unfold sadd. destruct (smem eqb k s) eqn:M; cbn; [|intuition]. apply smem_in in M. intuition. now subst.
Qed.
Lemma sdel_in k x s : In x (sdel eqb k s) <-> x <> k /\ In x s.
Proof.
  unfold sdel. rewrite filter_In. destruct (eqb k x) eqn:A; cbn.
  - apply E in A as ->. intuition congruence.
  - split; intros [H1 H2]; (split; [|easy]); [|easy]. intros ->. now rewrite meqb_refl in A.
Qed.
End MapFacts.
Lemma beq_iff a b : bytes_eqb a b = true <-> a = b. Proof. apply bytes_eqb_eq. Qed.
Definition Zeq_iff := Z.eqb_eq.
Definition neq_iff := Nat.eqb_eq.

Section Inv.
Variable own_hash own_id blank have0 : bytes.
Notation exec := (exec own_hash own_id blank).
Notation runs := (runs own_hash own_id blank).
Set Default Proof Using "Type".

Lemma runs_ind (P : sys -> list event -> Prop) s0 l s ev : P s0 [] ->
  (forall s ev a s' e, P s ev -> exec s a = Some (s', e) -> P s' (ev ++ e)) -> runs s0 l = Some (s, ev) -> P s ev.
Proof.
  intros H0 H. assert (forall l s1 ev1, P s1 ev1 -> forall s ev, runs s1 l = Some (s, ev) -> P s (ev1 ++ ev)) as G.
  { clear l s ev. induction l as [|a l IH]; cbn [P2PServer.runs]; intros s1 ev1 H1 s ev; [intros [= <- <-]; now rewrite app_nil_r|].
    destruct (exec s1 a) as [[s2 e2]|] eqn:E; [|discriminate].
    destruct (runs s2 l) as [[s3 e3]|] eqn:R; [|discriminate]. intros [= <- <-].
    rewrite app_assoc. eapply IH; [|exact R]. now apply (H s1 ev1 a). }
  intros R. exact (G l s0 [] H0 s ev R).
Qed.
Lemma runs_state_ind (P : sys -> Prop) s0 l s ev : P s0 -> (forall s a s' e, P s -> exec s a = Some (s', e) -> P s') -> runs s0 l = Some (s, ev) -> P s.
Proof. intros H0 H R. apply (runs_ind (fun s _ => P s) s0 l s ev); eauto. Qed.
Lemma runs_app s l l' : runs s (l ++ l') = match runs s l with
  | Some (s1, e1) => match runs s1 l' with Some (s2, e2) => Some (s2, e1 ++ e2) | None => None end | None => None end.
Proof.
  revert s. induction l as [|a l IH]; intros s; cbn [app P2PServer.runs].
  - now destruct (runs s l') as [[]|].
  - destruct (exec s a) as [[s1 e1]|]; [|easy]. rewrite IH. destruct (runs s1 l) as [[s2 e2]|]; [|easy].
    destruct (runs s2 l') as [[s3 e3]|]; [|easy]. now rewrite app_assoc.
Qed.

(** * The lock *)
Definition holding (th : thread) : bool :=
  match th with
  | THandler _ (HBitfield | HToken _) | TRequester _ (RRead | RNotInterest | RNotInterested | RPick _) | TStop true => true
  | _ => false
  end.
Definition lock_ok (l : list thread) (mu : option nat) : Prop := forall t th, nth_error l t = Some th -> holding th = true -> mu = Some t.
Lemma lock_set l mu t th th' mu' : lock_ok l mu -> nth_error l t = Some th ->
  (mu' = mu /\ (holding th' = true -> holding th = true)) \/ (mu = None /\ mu' = Some t) \/ (holding th = true /\ mu' = None /\ holding th' = false) ->
  lock_ok (list_set t th' l) mu'.
Proof.
  intros L E C u th1 E1 H1. destruct (Nat.eq_dec t u) as [<-|N].
  - rewrite list_set_nth_eq in E1 by (apply nth_error_Some; congruence). injection E1 as ->.
    destruct C as [[-> C]|[[C ->]|[C [-> D]]]]; [|easy|congruence]. now apply (L t th E), C.
  - rewrite list_set_nth_neq in E1 by easy. pose proof (L u th1 E1 H1) as L1.
    destruct C as [[-> C]|[[C ->]|[C [-> D]]]]; [easy|congruence|]. pose proof (L t th E C). congruence.
Qed.
Lemma lock_app l l' mu : lock_ok l mu -> (forall x, In x l' -> holding x = false) -> lock_ok (l ++ l') mu.
Proof.
  intros L H t th E Hh. destruct (lt_dec t (List.length l)) as [A|A].
  - rewrite nth_error_app1 in E by easy. eauto.
  - rewrite nth_error_app2 in E by lia. apply nth_error_In in E. rewrite (H _ E) in Hh. discriminate.
Qed.
Definition locked_ok (s : sys) : Prop := lock_ok (s_threads s) (s_mu s).

Lemma handle_pc q m q' h : handle q m = (q', h) -> holding (THandler O h) = false /\ h <> HRelease /\ h <> HConnect /\ h <> HHandshake /\ h <> HRegister /\ h <> HDisconnect.
Proof.
  unfold handle, next_have. intros H. brk H; injection H as <- <-; repeat split; congruence.
Qed.

Ltac lockside := repeat match goal with
  | H : s_mu _ = _ |- _ => rewrite H in *
  end; cbn; auto; try (right; left; now auto); try (right; right; now auto).
Lemma not_holding_have p rest : holding (THandler p (next_have rest)) = false. Proof. now destruct rest. Qed.
Lemma not_holding_after p k : holding (THandler p (after_queue k)) = false. Proof. now destruct k. Qed.
Lemma unchoke_threads s l x : In x (flat_map (fun p => match nth_error (s_peers s) p with
    | Some q => if q_closed q || negb (q_choked q) then [] else [TUnchoke p false] | None => [] end) l) -> exists p, x = TUnchoke p false.
Proof.
  intros H. apply in_flat_map in H as [p [_ H]]. destruct nth_error; [|easy]. destruct (_ || _); [easy|].
  destruct H as [<-|[]]. eauto.
Qed.

Ltac drops := repeat match goal with
  | |- context [fold_left (fun s p => match nth_error (s_peers s) p with Some q => drop_peer p q s | None => s end) ?l ?x] => fold (drop_all l x)
  end.
Lemma lock_step s a s' e : locked_ok s -> exec s a = Some (s', e) -> locked_ok s'.
Proof.
  intros L H. open_exec H; drops; unfold locked_ok.
  all: repeat match goal with |- context [drop_all ?l ?x] => let A := fresh in let B := fresh in destruct (drop_all_same l x) as [A [B _]]; fields; rewrite ?A, ?B; clear A B end.
  all: fields; try exact L; unfold locked_ok in L.
  all: try (apply lock_app; [exact L|]; intros x [<-|[]]; easy).
  all: try (match goal with E : nth_error (s_threads _) ?t = Some ?th |- lock_ok (list_set ?t ?th' (s_threads _)) _ => apply (lock_set _ (s_mu s) _ th); [exact L|exact E|] end).
  all: try (match goal with E : nth_error (s_threads _) ?t = Some ?th |- lock_ok (list_set ?t ?th' (s_threads _) ++ _) _ => apply lock_app; [|intros x [<-|[]]; easy]; apply (lock_set _ (s_mu s) _ th); [exact L|exact E|] end).
  all: try (match goal with E : nth_error (s_threads _) ?t = Some ?th |- lock_ok (list_set ?t ?th' (s_threads _ ++ _)) _ => apply (lock_set _ (s_mu s) _ th); [apply lock_app; [exact L|]; intros x [<-|[]]; easy|rewrite nth_error_app1; [exact E|apply nth_error_Some; congruence]|] end).
  all: rewrite ?not_holding_have, ?not_holding_after.
  all: try (left; split; [reflexivity|now auto]).
  all: try (right; left; now auto).
  all: try (right; right; now auto).
  - match goal with E : handle _ _ = _ |- _ => apply handle_pc in E as [E _]; cbn [holding] in E |- *; rewrite E end. auto.
  - apply lock_app; [exact L|]. intros x I. now apply unchoke_threads in I as [p ->].
Qed.

(** * Counting goroutines *)
Definition one (b : bool) : Z := if b then 1 else 0.
Lemma one_range b : 0 <= one b <= 1. Proof. destruct b; cbn; lia. Qed.
(** Goroutines that occupy a connection slot. *)
Definition slot_of (th : thread) : Z := match th with TDial _ _ | TDialEnd | THandler _ _ => 1 | _ => 0 end.
(** Goroutines that carry the download token of peer p. *)
Definition token_of (p : nat) (th : thread) : Z :=
  match th with
  | THandler p' (HToken _) | TRequester p' (RLock | RRead | RPick _) | TWaiter p' _ => one (Nat.eqb p p')
  | TPiece p' _ q => match q with PDelete => 0 | _ => one (Nat.eqb p p') end
  | _ => 0
  end.
(** Goroutines that were started to request piece i. *)
Definition piece_of (i : Z) (th : thread) : Z := match th with TPiece _ j _ => one (i =? j) | _ => 0 end.
Lemma token_nonneg p th : 0 <= token_of p th.
Proof. destruct th as [| |? []|? []|? ? []| | | |]; cbn; try lia; apply one_range. Qed.
Lemma piece_nonneg i th : 0 <= piece_of i th.
Proof. destruct th; cbn; try lia. apply one_range. Qed.

Ltac sums := repeat match goal with
  | E : nth_error (s_threads ?s) ?t = Some ?th |- context [tsum ?f (list_set ?t ?y (s_threads ?s))] => rewrite (tsum_set f t th y (s_threads s) E)
  | E : nth_error (s_threads ?s) ?t = Some ?th |- context [tsum ?f (list_set ?t ?y (s_threads ?s ++ ?l))] =>
      rewrite (tsum_set f t th y (s_threads s ++ l)) by (rewrite nth_error_app1; [exact E|apply nth_error_Some; congruence])
  | |- context [tsum ?f (?l ++ ?l')] => rewrite (tsum_app f l l')
  | |- context [tsum ?f [?x]] => rewrite (tsum_one f x)
  end.
Ltac drop_facts := drops; try match goal with |- context [drop_all ?l ?x] =>
  let A := fresh "DA" in
  pose proof (drop_all_same l x) as A; unfold same_but_peers in A; decompose [and] A; clear A;
  fields; repeat match goal with X : _ (drop_all l x) = _ |- _ => rewrite X; clear X | X : _ (s_reg (drop_all l x)) = _ |- _ => rewrite X; clear X end;
  repeat match goal with X : _ (drop_all l x) = _ |- _ => clear X | X : _ (s_reg (drop_all l x)) = _ |- _ => clear X end end.

Definition slots_ok (s : sys) : Prop := s_slots s = tsum slot_of (s_threads s) /\ s_slots s <= 50.
Lemma unchoke_sum f s l : (forall p, f (TUnchoke p false) = 0) -> tsum f (flat_map (fun p => match nth_error (s_peers s) p with
    | Some q => if q_closed q || negb (q_choked q) then [] else [TUnchoke p false] | None => [] end) l) = 0.
Proof. intros H. apply tsum_zero. intros x I. now apply unchoke_threads in I as [p ->]. Qed.
Lemma slots_step s a s' e : slots_ok s -> exec s a = Some (s', e) -> slots_ok s'.
Proof.
  intros L H. open_exec H; unfold slots_ok in *; drop_facts; fields; sums; rewrite ?unchoke_sum by easy; cbn [slot_of]; try lia.
  all: repeat match goal with X : (_ <? _) = true |- _ => apply Z.ltb_lt in X end; lia.
Qed.

(** A peer has a token only if it is marked queued, and while the server runs also then. *)
Definition queued_of (p : nat) (s : sys) : Z := one (smem Nat.eqb p (g_queued (s_reg s))).
Definition tokens_ok (s : sys) : Prop := forall p, tsum (token_of p) (s_threads s) <= queued_of p s /\
  (s_cancelled s = false -> tsum (token_of p) (s_threads s) = queued_of p s).
Lemma smem_sadd p p' l : smem Nat.eqb p (sadd Nat.eqb p' l) = Nat.eqb p p' || smem Nat.eqb p l.
Proof.
  apply eq_true_iff_eq. rewrite orb_true_iff, !(smem_in _ neq_iff), (sadd_in _ neq_iff), Nat.eqb_eq. easy.
Qed.
Lemma smem_sdel p p' l : smem Nat.eqb p (sdel Nat.eqb p' l) = negb (Nat.eqb p p') && smem Nat.eqb p l.
Proof.
  apply eq_true_iff_eq. rewrite andb_true_iff, !(smem_in _ neq_iff), (sdel_in _ neq_iff), negb_true_iff, Nat.eqb_neq. easy.
Qed.
Lemma token_have p p' rest : token_of p (THandler p' (next_have rest)) = 0. Proof. now destruct rest. Qed.
Lemma token_after p p' k : token_of p (THandler p' (after_queue k)) = 0. Proof. now destruct k. Qed.
Lemma token_handle p p' q m q' h : handle q m = (q', h) -> token_of p (THandler p' h) = 0.
Proof. unfold handle. intros H. brk H; injection H as <- <-; rewrite ?token_have; easy. Qed.
Lemma tokens_step s a s' e : tokens_ok s -> exec s a = Some (s', e) -> tokens_ok s'.
Proof.
  intros L H. open_exec H; intros pp; specialize (L pp); unfold queued_of in *; drop_facts; fields; 
    repeat match goal with |- context [g_queued (disconnect ?p ?q ?g)] => rewrite (proj1 (proj2 (proj2 (disconnect_same p q g)))) end; fields;
    sums; rewrite ?unchoke_sum, ?token_have, ?token_after by easy.
  all: repeat match goal with X : handle _ _ = _ |- _ => rewrite (token_handle _ _ _ _ _ _ X); clear X end.
  all: cbn [token_of]; rewrite ?smem_sadd, ?smem_sdel; try (split; [|intros NC; specialize (proj2 L NC)]; lia).
  all: try (match goal with |- context [Nat.eqb ?y ?x] => destruct (Nat.eqb_spec y x) as [->|N] end; cbn [one negb orb andb]).
  all: try (split; [|intros NC; specialize (proj2 L NC)]; lia).
  all: try (split; [|intros NC; first [discriminate NC|congruence]]; lia).
  - apply orb_false_iff in Heqb0 as [_ M]. rewrite M in L. cbn [one] in L. split; [|intros NC; specialize (proj2 L NC)]; lia.
  - match goal with E : nth_error (s_threads s) t = Some _ |- _ => pose proof (tsum_ge (token_of p) t _ _ (token_nonneg p) E) as G end.
    cbn [token_of] in G. rewrite Nat.eqb_refl in G. cbn [one] in G. pose proof (one_range (smem Nat.eqb p (g_queued (s_reg s)))).
    split; [|intros NC]; lia.
  - match goal with E : nth_error (s_threads s) t = Some _ |- _ => pose proof (tsum_ge (token_of p) t _ _ (token_nonneg p) E) as G end.
    cbn [token_of] in G. rewrite Nat.eqb_refl in G. cbn [one] in G. pose proof (one_range (smem Nat.eqb p (g_queued (s_reg s)))).
    split; [|intros NC]; lia.
Qed.

(** inflight has an entry for each piece being requested, and one goroutine for each entry. *)
Definition is_some {A} (o : option A) : bool := match o with Some _ => true | None => false end.
Definition inflight_ok (s : sys) : Prop := forall i, tsum (piece_of i) (s_threads s) = one (is_some (mget Z.eqb i (g_inflight (s_reg s)))).
Lemma inflight_step s a s' e : inflight_ok s -> exec s a = Some (s', e) -> inflight_ok s'.
Proof.
  intros L H. open_exec H; intros ii; specialize (L ii); drop_facts; fields;
    repeat match goal with |- context [g_inflight (disconnect ?p ?q ?g)] => rewrite (proj2 (proj2 (proj2 (disconnect_same p q g)))) end; fields;
    sums; rewrite ?unchoke_sum by easy; cbn [piece_of]; try lia.
  - rewrite (mget_put _), (mget_del _ Zeq_iff). rewrite Z.eqb_sym. match goal with |- context [?x =? ?y] => destruct (Z.eqb_spec x y) as [->|N] end; cbn [one is_some]; [|lia].
    rewrite Heqo1 in L. cbn [is_some one] in L. lia.
  - rewrite (mget_del _ Zeq_iff). rewrite Z.eqb_sym. match goal with |- context [?x =? ?y] => destruct (Z.eqb_spec x y) as [->|N] end; cbn [one is_some]; [|lia].
    match goal with E : nth_error (s_threads s) t = Some _ |- _ => pose proof (tsum_ge (piece_of ii) t _ _ (piece_nonneg ii) E) as G end.
    cbn [piece_of] in G. rewrite Z.eqb_refl in G. cbn [one] in G. pose proof (one_range (is_some (mget Z.eqb ii (g_inflight (s_reg s))))). lia.
Qed.

(** * Registered peers *)
Lemma disconnect_active p q g : g_active (disconnect p q g) = mdel bytes_eqb (name_of q) (g_active g).
Proof. unfold disconnect. destruct (forget_all_same p (bf_items (q_bits q)) g) as [A [B [C [D [E [F G]]]]]]. fields. now rewrite E. Qed.
Definition active_ok (s : sys) : Prop := NoDup (map fst (g_active (s_reg s))) /\ zlen (g_active (s_reg s)) <= 50.
Lemma active_drop s p q : active_ok s -> active_ok (drop_peer p q s).
Proof.
  unfold active_ok. intros [A B]. fields. rewrite disconnect_active. split; [now apply mdel_keys|].
  pose proof (mdel_len bytes_eqb beq_iff (name_of q) (g_active (s_reg s))). lia.
Qed.
Ltac same L := match goal with |- ?g => let T := type of L in constr_eq T g; exact L end.
Lemma active_step s a s' e : active_ok s -> exec s a = Some (s', e) -> active_ok s'.
Proof.
  intros L H. open_exec H; drops; unfold active_ok; fields; unfold active_ok in L; try same L.
  all: rewrite ?disconnect_active; fields.
  all: try (split; [now apply mdel_keys|]; match goal with |- zlen (mdel _ ?x ?m) <= _ => pose proof (mdel_len bytes_eqb beq_iff x m) end; lia).
  - apply Z.leb_gt in Heqb0. split; [now apply (mput_keys _ beq_iff)|].
    pose proof (mdel_len bytes_eqb beq_iff (name_of r) (g_active (s_reg s))). unfold mput, zlen in *. cbn [List.length]. lia.
  - apply (drop_all_ind active_ok); [exact L|]. intros. now apply active_drop.
Qed.

(** * Events *)
Lemma count_app f l l' : count f (l ++ l') = count f l + count f l'.
Proof. unfold count, zlen. rewrite filter_app, app_length. lia. Qed.
Lemma count_nil f : count f [] = 0. Proof. reflexivity. Qed.
Lemma count_cons f x l : count f (x :: l) = one (f x) + count f l.
Proof. unfold count, zlen. cbn [filter]. destruct (f x); cbn [one List.length]; lia. Qed.
Ltac counts := rewrite ?count_app, ?count_cons, ?count_nil.

Lemma handlers_step s ev a s' e : handlers_running ev = s_slots s -> exec s a = Some (s', e) -> handlers_running (ev ++ e) = s_slots s'.
Proof.
  intros L H. open_exec H; drop_facts; fields; unfold handlers_running in *; counts; cbn [is_handler is_handler_end one]; try lia.
Qed.

(** Goroutines inside requestPiece. *)
Definition asking_piece (i : Z) (th : thread) : Z := match th with TPiece _ j PRun => one (i =? j) | _ => 0 end.
Definition asking_peer (p : nat) (th : thread) : Z := match th with TPiece q _ PRun => one (Nat.eqb p q) | _ => 0 end.
Lemma asking_piece_step i s ev a s' e : piece_outstanding i ev = tsum (asking_piece i) (s_threads s) -> exec s a = Some (s', e) ->
  piece_outstanding i (ev ++ e) = tsum (asking_piece i) (s_threads s').
Proof.
  intros L H. open_exec H; drop_facts; fields; sums; rewrite ?unchoke_sum by easy; unfold piece_outstanding in *; counts; cbn [requests_piece requested_piece asking_piece one]; try lia.
Qed.
Lemma asking_peer_step p s ev a s' e : peer_outstanding p ev = tsum (asking_peer p) (s_threads s) -> exec s a = Some (s', e) ->
  peer_outstanding p (ev ++ e) = tsum (asking_peer p) (s_threads s').
Proof.
  intros L H. open_exec H; drop_facts; fields; sums; rewrite ?unchoke_sum by easy; unfold peer_outstanding in *; counts; cbn [requests_peer requested_peer asking_peer one]; try lia.
Qed.
Lemma tsum_le f g l : (forall x, f x <= g x) -> tsum f l <= tsum g l.
Proof. intros H. unfold tsum. induction l as [|x l IH]; cbn [fold_right]; [lia|]. specialize (H x). lia. Qed.
Lemma asking_piece_le i x : asking_piece i x <= piece_of i x.
Proof. destruct x as [| | | |? ? []| | | |]; cbn; try lia; pose proof (one_range (i =? i0)); lia. Qed.
Lemma asking_peer_le p x : asking_peer p x <= token_of p x.
Proof. destruct x as [| |? []|? []|q ? []| | | |]; cbn; try lia; match goal with |- context [one ?b] => pose proof (one_range b) end; lia. Qed.

(** * Addresses to dial *)
Definition dialling (a : bytes) (th : thread) : Z :=
  match th with TDial tp _ => match remote_addr tp with Some b => one (bytes_eqb a b) | None => 0 end | _ => 0 end.
Definition waiting (a : bytes) (tp : Tracker.peer) : Z := match remote_addr tp with Some b => one (bytes_eqb a b) | None => 0 end.
Definition qsum (a : bytes) (l : list Tracker.peer) : Z := fold_right (fun x n => waiting a x + n) 0 l.
Lemma qsum_app a l x : qsum a (l ++ [x]) = qsum a l + waiting a x.
Proof. unfold qsum. induction l as [|y l IH]; cbn [app fold_right]; [lia|]. rewrite IH. lia. Qed.
Lemma qsum_cons a l x : qsum a (x :: l) = waiting a x + qsum a l. Proof. reflexivity. Qed.
Definition taken (a : bytes) (o : option Tracker.peer) : Z := match o with Some tp => waiting a tp | None => 0 end.
Definition addr_ok (a : bytes) (s : sys) (ev : list event) : Prop :=
  count (queues a) ev = one (smem bytes_eqb a (g_known (s_reg s))) /\
  count (dials a) ev + tsum (dialling a) (s_threads s) + qsum a (s_queue s) + taken a (s_taken s) <= count (queues a) ev.
Lemma smem_sadd_b x y l : smem bytes_eqb x (sadd bytes_eqb y l) = bytes_eqb x y || smem bytes_eqb x l.
Proof.
  apply eq_true_iff_eq. rewrite orb_true_iff, !(smem_in _ beq_iff), (sadd_in _ beq_iff), bytes_eqb_eq. easy.
Qed.
Lemma addr_step a s ev ac s' e : addr_ok a s ev -> exec s ac = Some (s', e) -> addr_ok a s' (ev ++ e).
Proof.
  intros L H. open_exec H; unfold addr_ok in *; drop_facts; fields; 
    repeat match goal with |- context [g_known (disconnect ?p ?q ?g)] => rewrite (proj1 (disconnect_same p q g)) end; fields;
    sums; rewrite ?unchoke_sum by easy; counts; cbn [queues dials dialling one]; try lia.
  all: unfold taken in *; repeat match goal with X : remote_addr _ = _ |- _ => rewrite X in * end; 
    repeat match goal with X : s_queue _ = _ |- _ => rewrite X in * | X : s_taken _ = _ |- _ => rewrite X in * end; try lia.
  - pose proof (one_range (bytes_eqb a l)). lia.
  - rewrite qsum_cons in L. lia.
  - unfold waiting in *. lia.
  - rewrite qsum_app, smem_sadd_b. assert (waiting a tp = one (bytes_eqb a l)) as -> by (unfold waiting; now rewrite Heqo0). apply orb_false_iff in Heqb0 as [K _].
    destruct (bytes_eqb a l) eqn:E; cbn [one orb]; [|lia]. apply bytes_eqb_eq in E as ->. rewrite K in L. cbn [one] in L. lia.
Qed.
End Inv.
