(** The registry: who is registered, and what a disconnect removes. *)
From Coq Require Import Permutation.
From Verif Require Import GoBase GoBaseProofs Bitfield BitfieldSpec BitfieldProofs GoMap PeerWire NetIP Tracker P2PPeer P2PServer P2PServerSpec P2PServerProofs P2PSortProofs P2PAnnounceProofs.

(** * What disconnect does to each index *)
Lemma holders_forget p i g p' j : In p' (holders_of (forget_index p i g) j) <-> In p' (holders_of g j) /\ ~ (p' = p /\ j = i).
Proof.
  unfold forget_index, holders_of. destruct (mget Z.eqb i (g_holders g)) as [l|] eqn:G; fields.
  - rewrite (mget_put _), (mget_del _ Zeq_iff). destruct (Z.eqb_spec i j) as [<-|N].
    + rewrite G, (sdel_in _ neq_iff). intuition congruence.
    + intuition congruence.
  - split; [|tauto]. intros H. split; [easy|]. intros [-> ->]. now rewrite G in H.
Qed.
Lemma holders_forget_all p l g p' j : In p' (holders_of (fold_left (fun g i => forget_index p i g) l g) j) <-> In p' (holders_of g j) /\ ~ (p' = p /\ In j l).
Proof.
  revert g. induction l as [|i l IH]; intros g; cbn [fold_left In]; [tauto|]. rewrite IH, holders_forget. intuition (subst; auto).
Qed.
Lemma holders_disconnect p q g p' j : In p' (holders_of (disconnect p q g) j) <-> In p' (holders_of g j) /\ ~ (p' = p /\ member (q_bits q) j).
Proof.
  unfold disconnect. unfold holders_of at 1. fields. fold (holders_of (fold_left (fun g i => forget_index p i g) (bf_items (q_bits q)) g) j).
  rewrite holders_forget_all. now rewrite (proj2 (bf_items_spec (q_bits q)) j).
Qed.
Lemma addrs_disconnect p q g x : mget bytes_eqb x (g_addrs (disconnect p q g)) = if bytes_eqb (name_of q) x then None else mget bytes_eqb x (g_addrs g).
Proof. unfold disconnect. destruct (forget_all_same p (bf_items (q_bits q)) g) as [A [B [C [D [E [F G]]]]]]. fields. now rewrite (mget_del _ beq_iff), B. Qed.
Lemma idips_disconnect p q g a x : In (a, x) (g_idips (disconnect p q g)) <-> In (a, x) (g_idips g) /\ ~ (x = name_of q /\ In a (addrs_of g (name_of q))).
Proof.
  unfold disconnect. destruct (forget_all_same p (bf_items (q_bits q)) g) as [A [B [C [D [E [F G]]]]]]. fields.
  rewrite filter_In. cbn [fst snd]. unfold addrs_of. rewrite C, B, negb_true_iff, andb_false_iff.
  rewrite <- !not_true_iff_false, (smem_in _ beq_iff), bytes_eqb_eq. destruct mget; cbn; [|tauto].
  destruct (in_dec (list_eq_dec Byte.byte_eq_dec) a l); destruct (list_eq_dec Byte.byte_eq_dec x (name_of q)); tauto.
Qed.

Section Registry.
Variable own_hash own_id blank : bytes.
Notation exec := (exec own_hash own_id blank).
Notation runs := (runs own_hash own_id blank).

(** * Handlers *)
Definition hand (p : nat) (th : thread) : Z := match th with THandler p' _ => one (Nat.eqb p p') | _ => 0 end.
Definition pre (p : nat) (th : thread) : Z := match th with THandler p' (HConnect | HHandshake | HRegister) => one (Nat.eqb p p') | _ => 0 end.
Definition live (p : nat) (th : thread) : Z := match th with
  | THandler p' (HConnect | HHandshake | HRegister | HBitfield | HRelease) => 0
  | THandler p' _ => one (Nat.eqb p p') | _ => 0 end.
Definition pending (p : nat) (th : thread) : Z := match th with THandler p' HRelease => 0 | THandler p' _ => one (Nat.eqb p p') | _ => 0 end.
Lemma hand_nonneg p th : 0 <= hand p th. Proof. destruct th; cbn; try lia. apply one_range. Qed.
Lemma pre_nonneg p th : 0 <= pre p th. Proof. destruct th as [| |? []| | | | | |]; cbn; try lia; apply one_range. Qed.
Lemma live_nonneg p th : 0 <= live p th. Proof. destruct th as [| |? []| | | | | |]; cbn; try lia; apply one_range. Qed.
Lemma pending_nonneg p th : 0 <= pending p th. Proof. destruct th as [| |? []| | | | | |]; cbn; try lia; apply one_range. Qed.
Lemma pending_hand p th : pending p th <= hand p th.
Proof. destruct th as [| |? []| | | | | |]; cbn; try lia; match goal with |- context [one ?b] => pose proof (one_range b) end; lia. Qed.
Lemma live_pending p th : live p th <= pending p th.
Proof. destruct th as [| |? []| | | | | |]; cbn; try lia; match goal with |- context [one ?b] => pose proof (one_range b) end; lia. Qed.
Lemma pre_pending p th : pre p th <= pending p th.
Proof. destruct th as [| |? []| | | | | |]; cbn; try lia; match goal with |- context [one ?b] => pose proof (one_range b) end; lia. Qed.
Lemma hand_any p p' h h' : hand p (THandler p' h) = hand p (THandler p' h'). Proof. reflexivity. Qed.
Lemma pre_have p p' rest : pre p (THandler p' (next_have rest)) = 0. Proof. now destruct rest. Qed.
Lemma pre_after p p' k : pre p (THandler p' (after_queue k)) = 0. Proof. now destruct k. Qed.
Lemma pre_handle p p' q m q' h : handle q m = (q', h) -> pre p (THandler p' h) = 0.
Proof. unfold handle. intros H. brk H; injection H as <- <-; rewrite ?pre_have; easy. Qed.
Lemma live_have p p' rest : live p (THandler p' (next_have rest)) = one (Nat.eqb p p'). Proof. now destruct rest. Qed.
Lemma live_after p p' k : live p (THandler p' (after_queue k)) = one (Nat.eqb p p'). Proof. now destruct k. Qed.
Lemma live_handle p p' q m q' h : handle q m = (q', h) -> live p (THandler p' h) = one (Nat.eqb p p').
Proof. unfold handle. intros H. brk H; injection H as <- <-; rewrite ?live_have; easy. Qed.
Lemma pending_have p p' rest : pending p (THandler p' (next_have rest)) = one (Nat.eqb p p'). Proof. now destruct rest. Qed.
Lemma pending_after p p' k : pending p (THandler p' (after_queue k)) = one (Nat.eqb p p'). Proof. now destruct k. Qed.
Lemma pending_handle p p' q m q' h : handle q m = (q', h) -> pending p (THandler p' h) = one (Nat.eqb p p').
Proof. unfold handle. intros H. brk H; injection H as <- <-; rewrite ?pending_have; easy. Qed.

Lemma drop_all_len l s : List.length (s_peers (drop_all l s)) = List.length (s_peers s).
Proof. apply (drop_all_ind (fun s' => List.length (s_peers s') = List.length (s_peers s))); [easy|]. intros s1 p q H _. fields. now rewrite list_set_length. Qed.
Definition hand_ok (s : sys) : Prop := forall p, tsum (hand p) (s_threads s) <= one (p <? List.length (s_peers s))%nat.
Lemma lt_snoc {A} (l : list A) x p : one (p <? List.length (l ++ [x]))%nat = one (p <? List.length l)%nat + one (Nat.eqb p (List.length l)).
Proof. rewrite app_length. cbn [List.length]. destruct (Nat.ltb_spec p (List.length l + 1)), (Nat.ltb_spec p (List.length l)), (Nat.eqb_spec p (List.length l)); cbn [one]; lia. Qed.
Lemma hand_step s a s' e : hand_ok s -> exec s a = Some (s', e) -> hand_ok s'.
Proof.
  intros L H. open_exec H; intros pp; specialize (L pp); drops; fields; rewrite ?drop_all_len; drop_facts; fields; sums; rewrite ?unchoke_sum by easy;
    rewrite ?list_set_length, ?lt_snoc; cbn [hand]; try lia.
  pose proof (one_range (Nat.eqb pp p)). lia.
Qed.

(** * How peers change *)
Definition grown (q q' : remote) : Prop := q_ip q' = q_ip q /\ q_port q' = q_port q /\ (forall i, member (q_bits q) i -> member (q_bits q') i) /\ (q_closed q = true -> q_closed q' = true).
Lemma grown_refl q : grown q q. Proof. unfold grown. auto. Qed.
Lemma drop_all_grown l s p q : nth_error (s_peers s) p = Some q -> exists q', nth_error (s_peers (drop_all l s)) p = Some q' /\ grown q q' /\ q_id q' = q_id q.
Proof.
  intros E. apply (drop_all_ind (fun s' => exists q', nth_error (s_peers s') p = Some q' /\ grown q q' /\ q_id q' = q_id q)).
  - exists q. auto using grown_refl.
  - intros s1 p1 q1 [q' [A [B C]]] E1. fields. destruct (Nat.eq_dec p1 p) as [->|N].
    + rewrite list_set_nth_eq by (apply nth_error_Some; congruence). exists (set_closed true q1). split; [easy|].
      assert (q1 = q') as -> by congruence. unfold grown in *. cbn. intuition.
    + rewrite list_set_nth_neq by easy. eauto.
Qed.
Lemma peers_step s a s' e p q : exec s a = Some (s', e) -> nth_error (s_peers s) p = Some q ->
  exists q', nth_error (s_peers s') p = Some q' /\ grown q q' /\ (tsum (pre p) (s_threads s) = 0 -> q_id q' = q_id q).
Proof.
  intros H E. open_exec H; drops; fields.
  all: try (exists q; split; [exact E|split; [apply grown_refl|easy]]; fail).
  all: try match goal with E : nth_error (s_peers ?s) ?p = Some ?q |- context [drop_all ?l ?s] => destruct (drop_all_grown l s p q E) as [q' [A [B C]]]; exists q'; now auto end.
  all: try (exists q; split; [rewrite nth_error_app1; [exact E|apply nth_error_Some; congruence]|split; [apply grown_refl|easy]]; fail).
  all: match goal with E1 : nth_error (s_peers _) ?y = Some _ |- context [list_set ?y _ _] =>
    destruct (Nat.eq_dec y p) as [->|N]; [rewrite list_set_nth_eq by (apply nth_error_Some; congruence)|rewrite list_set_nth_neq by easy; exists q; split; [exact E|split; [apply grown_refl|easy]]] end.
  all: match goal with E1 : nth_error (s_peers _) ?p = Some ?r, E2 : nth_error (s_peers _) ?p = Some ?q |- _ => assert (r = q) as -> by congruence end.
  all: eexists; split; [reflexivity|]; split; [|try easy].
  all: try (unfold grown; cbn; now auto).
  all: try match goal with X : handle _ _ = (_, _) |- _ => unfold handle in X; brk X; injection X as <- <-; try (unfold grown; cbn; now auto); easy end.
  all: try match goal with X : bf_add _ _ = Some _ |- _ => unfold grown; cbn; split; [easy|]; split; [easy|]; split; [|easy]; intros ii II; apply (proj2 (bf_add_members _ _ _ X)); auto end.
  all: intros Z0; exfalso; match goal with X : nth_error (s_threads _) ?t = Some ?th, Y : tsum (pre ?p) _ = 0 |- _ => pose proof (tsum_ge (pre p) t th _ (pre_nonneg p) X) as G end; cbn [pre] in G; rewrite Nat.eqb_refl in G; cbn [one] in G; lia.
Qed.

Ltac sum_cases := repeat match goal with X : handle _ _ = _ |- _ => rewrite ?(pre_handle _ _ _ _ _ _ X), ?(live_handle _ _ _ _ _ _ X), ?(pending_handle _ _ _ _ _ _ X); clear X end;
  rewrite ?pre_have, ?pre_after, ?live_have, ?live_after, ?pending_have, ?pending_after; cbn [pre live pending hand].
Ltac ones := repeat match goal with |- context [one ?b] => lazymatch goal with X : 0 <= one b <= 1 |- _ => fail | _ => pose proof (one_range b) end end.
Lemma pre_step s a s' e p : exec s a = Some (s', e) -> (p < List.length (s_peers s))%nat -> tsum (pre p) (s_threads s') <= tsum (pre p) (s_threads s).
Proof.
  intros H P. open_exec H; drop_facts; fields; sums; rewrite ?unchoke_sum by easy; sum_cases; try lia; ones; try lia.
  all: destruct (Nat.eqb_spec p (List.length (s_peers s))); cbn [one]; lia.
Qed.
Lemma pending_step s a s' e p : exec s a = Some (s', e) -> (p < List.length (s_peers s))%nat -> tsum (pending p) (s_threads s') <= tsum (pending p) (s_threads s).
Proof.
  intros H P. open_exec H; drop_facts; fields; sums; rewrite ?unchoke_sum by easy; sum_cases; try lia; ones; try lia.
  all: destruct (Nat.eqb_spec p (List.length (s_peers s))); cbn [one]; lia.
Qed.
Lemma drop_all_active l s x : In x (g_active (s_reg (drop_all l s))) -> In x (g_active (s_reg s)).
Proof.
  apply (drop_all_ind (fun s' => In x (g_active (s_reg s')) -> In x (g_active (s_reg s)))); [easy|].
  intros s1 p q IH _. fields. rewrite disconnect_active. intros H. apply IH. now apply (mdel_in _ beq_iff) in H as [H _].
Qed.
Lemma active_new s a s' e x p : exec s a = Some (s', e) -> In (x, p) (g_active (s_reg s')) -> In (x, p) (g_active (s_reg s)) \/
  exists t q, nth_error (s_threads s) t = Some (THandler p HRegister) /\ nth_error (s_peers s) p = Some q /\ x = name_of q /\
    s_threads s' = list_set t (THandler p HBitfield) (s_threads s) /\ s_peers s' = s_peers s.
Proof.
  intros H. open_exec H; drops; fields; try (left; assumption); rewrite ?disconnect_active; fields; intros X.
  all: try (apply (mdel_in _ beq_iff) in X as [X _]; left; exact X).
  all: try (apply drop_all_active in X; left; exact X).
  unfold mput in X. cbn [In] in X. destruct X as [X|X].
  - injection X as <- <-. right. eexists _, _. split; [eassumption|]. split; [eassumption|]. auto.
  - apply (mdel_in _ beq_iff) in X as [X _]. left; exact X.
Qed.
Definition act_ok (s : sys) : Prop := forall x p, In (x, p) (g_active (s_reg s)) ->
  exists q, nth_error (s_peers s) p = Some q /\ name_of q = x /\ tsum (pre p) (s_threads s) = 0.
Lemma act_step s a s' e : hand_ok s -> act_ok s -> exec s a = Some (s', e) -> act_ok s'.
Proof.
  intros HH L H x p X. destruct (active_new _ _ _ _ _ _ H X) as [Y|[t [q [A [B [C [D E]]]]]]].
  - destruct (L _ _ Y) as [q [A [B C]]]. destruct (peers_step _ _ _ _ _ _ H A) as [q' [A' [[G1 _] I']]]. exists q'. split; [easy|]. split.
    + unfold name_of in *. rewrite G1, I' by easy. easy.
    + assert (p < List.length (s_peers s))%nat as P by (apply nth_error_Some; congruence).
      pose proof (pre_step _ _ _ _ _ H P). pose proof (tsum_nonneg (pre p) (s_threads s') (pre_nonneg p)). lia.
  - exists q. rewrite E, D. split; [easy|]. split; [easy|]. rewrite (tsum_set _ _ _ _ _ A). cbn [pre]. rewrite Nat.eqb_refl. cbn [one].
    pose proof (HH p) as Hp. pose proof (one_range (p <? List.length (s_peers s))%nat).
    pose proof (tsum_le (pre p) (hand p) (s_threads s) (fun x => Z.le_trans _ _ _ (pre_pending p x) (pending_hand p x))).
    pose proof (tsum_ge (pre p) t _ _ (pre_nonneg p) A) as G. cbn [pre] in G. rewrite Nat.eqb_refl in G. cbn [one] in G. lia.
Qed.

(** * The index of holders *)
Definition todo_nonneg (th : thread) : Prop := match th with
  | THandler p h => (forall i, In i (todo h) -> 0 <= i)
  | _ => True end.
Definition nonneg_ok (s : sys) : Prop := forall th, In th (s_threads s) -> todo_nonneg th.
Lemma nonneg_step s a s' e : nonneg_ok s -> exec s a = Some (s', e) -> nonneg_ok s'.
Proof.
  intros L H. open_exec H; unfold nonneg_ok; drop_facts; fields; intros th X.
  all: repeat match type of X with
    | In ?th (_ ++ _) => apply in_app_or in X as [X|X]
    | In ?th (list_set _ _ _) => apply in_list_set in X as [->|X]
    | In ?th [_] => destruct X as [<-|[]]
    | In ?th (flat_map _ _) => apply unchoke_threads in X as [? ->]
    end; try (now apply L); try exact I.
  all: try match goal with E : nth_error (s_threads _) _ = Some _ |- _ => pose proof (L _ (nth_error_In _ _ E)) as TA end; cbn [todo_nonneg todo after_queue] in *; rewrite ?todo_next.
  all: try (intros ii II; apply TA; cbn [In]; now auto).
  all: try (intros ii []).
  - intros ii II. apply (handle_todo _ _ _ _ _ Heqp0) in II. apply Z.ltb_ge in Heqb0. destruct II as [[_ <-]|[_ II]]; [easy|now apply member_nonneg in II].
  - intros ii II. apply TA. now destruct k.
  - intros ii II. apply TA. now destruct k.
Qed.
Definition record_ok (s : sys) : Prop := forall p i rest, In (THandler p (HRecord i rest)) (s_threads s) ->
  exists q, nth_error (s_peers s) p = Some q /\ member (q_bits q) i.
Lemma record_step s a s' e : nonneg_ok s -> record_ok s -> exec s a = Some (s', e) -> record_ok s'.
Proof.
  intros NN L H. pose proof (fun p q => peers_step s a s' e p q H) as G.
  assert (forall p i rest, In (THandler p (HRecord i rest)) (s_threads s) -> exists q, nth_error (s_peers s') p = Some q /\ member (q_bits q) i) as K.
  { intros p i rest X. destruct (L _ _ _ X) as [q [A B]]. destruct (G _ _ A) as [q' [A' [[_ [_ [M _]]] _]]]. eauto. }
  clear G L. open_exec H; unfold record_ok; revert K; drop_facts; fields; intros K pp ii rr X.
  all: inthreads X; try (now apply (K pp ii rr)); try discriminate X.
  all: try match type of X with _ = THandler _ (after_queue ?k) => destruct k; discriminate X | _ = THandler _ (next_have ?r) => destruct r; discriminate X end.
  - exfalso. injection X as _ X. symmetry in X. unfold handle in Heqp0. brk Heqp0; try (injection Heqp0 as _ <-; discriminate X). injection Heqp0 as _ <-. destruct (bf_items (m_bitfield m)); discriminate X.
  - injection X as -> -> ->. rewrite list_set_nth_eq by (apply nth_error_Some; congruence). eexists. split; [reflexivity|].
    cbn [q_bits set_bits]. apply (proj2 (bf_add_members _ _ _ Heqo1)). right. split; [easy|].
    apply (NN _ (nth_error_In _ _ Heqo)). now left.
Qed.
Lemma live_step s a s' e p : exec s a = Some (s', e) -> (p < List.length (s_peers s))%nat ->
  tsum (live p) (s_threads s') < tsum (live p) (s_threads s) -> exists q, nth_error (s_peers s) p = Some q /\ e = [EvDisconnected p] /\ s_reg s' = disconnect p q (s_reg s).
Proof.
  intros H P. open_exec H; drop_facts; fields; sums; rewrite ?unchoke_sum by easy; sum_cases; try lia; ones; try lia.
  destruct (Nat.eqb_spec p p0) as [->|N]; cbn [one]; [|lia]. eauto.
Qed.
Definition holders_ok (s : sys) : Prop := forall i p, In p (holders_of (s_reg s) i) ->
  exists q, nth_error (s_peers s) p = Some q /\ member (q_bits q) i /\ 1 <= tsum (live p) (s_threads s).
Lemma drop_all_holders l s p i : In p (holders_of (s_reg (drop_all l s)) i) -> In p (holders_of (s_reg s) i).
Proof.
  apply (drop_all_ind (fun s' => In p (holders_of (s_reg s') i) -> In p (holders_of (s_reg s) i))); [easy|].
  intros s1 p1 q1 IH _. fields. rewrite holders_disconnect. tauto.
Qed.
Lemma holders_record i p g j p' : In p' (holders_of (record_index i p g) j) <-> In p' (holders_of g j) \/ (p' = p /\ j = i).
Proof.
  unfold record_index. unfold holders_of at 1. fields. rewrite (mget_put _), (mget_del _ Zeq_iff). destruct (Z.eqb_spec i j) as [<-|N].
  - rewrite (sadd_in _ neq_iff). intuition congruence.
  - fold (holders_of g j). intuition congruence.
Qed.
Lemma holders_new s a s' e p i : exec s a = Some (s', e) -> In p (holders_of (s_reg s') i) -> In p (holders_of (s_reg s) i) \/
  exists t rest, nth_error (s_threads s) t = Some (THandler p (HRecord i rest)).
Proof.
  intros H. open_exec H; drops; fields; try (left; assumption); intros X.
  all: try (rewrite holders_disconnect in X; left; apply X).
  all: try (apply drop_all_holders in X; left; exact X).
  rewrite holders_record in X. destruct X as [X|[-> ->]]; [now left|]. right. eauto.
Qed.
Lemma holders_step s a s' e : record_ok s -> holders_ok s -> exec s a = Some (s', e) -> holders_ok s'.
Proof.
  intros RO L H i p X.
  assert (exists q, nth_error (s_peers s) p = Some q /\ member (q_bits q) i /\ 1 <= tsum (live p) (s_threads s)) as [q [A [B C]]].
  { destruct (holders_new _ _ _ _ _ _ H X) as [Y|[t [rest Y]]]; [now apply L|].
    destruct (RO _ _ _ (nth_error_In _ _ Y)) as [q [A B]]. exists q. split; [easy|]. split; [easy|].
    pose proof (tsum_ge (live p) t _ _ (live_nonneg p) Y) as G. cbn [live] in G. rewrite Nat.eqb_refl in G. exact G. }
  destruct (peers_step _ _ _ _ _ _ H A) as [q' [A' [[_ [_ [M _]]] _]]]. exists q'. split; [easy|]. split; [auto|].
  assert (p < List.length (s_peers s))%nat as P by (apply nth_error_Some; congruence).
  destruct (Z_lt_dec (tsum (live p) (s_threads s')) (tsum (live p) (s_threads s))) as [D|D]; [|lia].
  destruct (live_step _ _ _ _ _ H P D) as [q1 [A1 [_ R]]]. rewrite R, holders_disconnect in X.
  exfalso. apply X. split; [easy|]. congruence.
Qed.

(** * After Disconnect *)
Definition gone_ok (s : sys) (ev : list event) : Prop := forall p, In (EvDisconnected p) ev ->
  (p < List.length (s_peers s))%nat /\ tsum (pending p) (s_threads s) = 0 /\ forall x, ~ In (x, p) (g_active (s_reg s)).
Lemma peers_len s a s' e : exec s a = Some (s', e) -> (List.length (s_peers s) <= List.length (s_peers s'))%nat.
Proof. intros H. open_exec H; drops; fields; rewrite ?drop_all_len; fields; rewrite ?list_set_length, ?app_length; lia. Qed.
Lemma gone_step s ev a s' e : hand_ok s -> act_ok s -> gone_ok s ev -> exec s a = Some (s', e) -> gone_ok s' (ev ++ e).
Proof.
  intros HH AO L H p X. apply in_app_or in X as [X|X].
  - destruct (L p X) as [P [Q R]]. pose proof (peers_len _ _ _ _ H). pose proof (pending_step _ _ _ _ _ H P). pose proof (tsum_nonneg (pending p) (s_threads s') (pending_nonneg p)).
    split; [lia|]. split; [lia|]. intros x Y. destruct (active_new _ _ _ _ _ _ H Y) as [Z0|[t [q [A _]]]]; [now apply (R x)|].
    pose proof (tsum_ge (pending p) t _ _ (pending_nonneg p) A) as G. cbn [pending] in G. rewrite Nat.eqb_refl in G. cbn [one] in G. lia.
  - pose proof (HH p) as Hp. pose proof (one_range (p <? List.length (s_peers s))%nat) as O1.
    pose proof (tsum_le (pending p) (hand p) (s_threads s) (pending_hand p)) as PL.
    open_exec H; cbn [In] in X; try tauto; repeat (destruct X as [X|X]; try discriminate X; try tauto).
    injection X as ->. fields. rewrite list_set_length. split; [apply nth_error_Some; congruence|]. split.
    + sums. cbn [pending]. rewrite Nat.eqb_refl. cbn [one].
      match goal with E : nth_error (s_threads _) _ = Some _ |- _ => pose proof (tsum_ge (pending p) _ _ _ (pending_nonneg p) E) as G end. cbn [pending] in G. rewrite Nat.eqb_refl in G. cbn [one] in G. lia.
    + intros x. rewrite disconnect_active. intros Y. apply (mdel_in _ beq_iff) in Y as [Y N]. destruct (AO _ _ Y) as [q [A [B _]]]. cbn [fst] in N. congruence.
Qed.

(** * Addresses *)
Definition places_ok (s : sys) : Prop := forall a x, In (a, x) (g_idips (s_reg s)) -> In a (addrs_of (s_reg s) x).
Lemma places_disconnect p q g : (forall a x, In (a, x) (g_idips g) -> In a (addrs_of g x)) -> forall a x, In (a, x) (g_idips (disconnect p q g)) -> In a (addrs_of (disconnect p q g) x).
Proof.
  intros L a x. rewrite idips_disconnect. intros [H N]. unfold addrs_of at 1. rewrite addrs_disconnect.
  destruct (bytes_eqb (name_of q) x) eqn:E; [|now apply L]. apply bytes_eqb_eq in E as <-. destruct N. split; [easy|]. now apply L.
Qed.
Lemma places_remember q g : (forall a x, In (a, x) (g_idips g) -> In a (addrs_of g x)) -> forall a x, In (a, x) (g_idips (remember q g)) -> In a (addrs_of (remember q g) x).
Proof.
  intros L a x. unfold remember. fields. unfold addrs_of at 1. fields. rewrite (mget_put _), (mget_del _ beq_iff).
  unfold mput. cbn [In]. intros [H|H].
  - injection H as <- <-. rewrite (proj2 (beq_iff _ _) eq_refl). apply (sadd_in _ beq_iff). now left.
  - apply (mdel_in _ beq_iff) in H as [H _]. destruct (bytes_eqb (name_of q) x) eqn:E.
    + apply bytes_eqb_eq in E as <-. apply (sadd_in _ beq_iff). right. now apply L.
    + now apply L.
Qed.
Lemma places_step s a s' e : places_ok s -> exec s a = Some (s', e) -> places_ok s'.
Proof.
  intros L H. open_exec H; drops; unfold places_ok in *; fields; try exact L.
  all: try (apply places_disconnect; exact L).
  - apply places_remember, L.
  - apply (places_remember r (s_reg s)), L.
  - apply (drop_all_ind places_ok); [exact L|]. intros s1 p1 q1 L1 _. unfold places_ok in *. fields. now apply places_disconnect.
Qed.
End Registry.
