(** What the invariants of the server give for every run. *)
From Verif Require Import GoBase GoBaseProofs Bitfield BitfieldSpec BitfieldProofs GoMap PeerWire PeerWireSpec PeerWireProofs NetIP Tracker P2PPeer P2PServer P2PServerSpec P2PServerProofs P2PSortProofs P2PAnnounceProofs P2PRegistryProofs P2PLockProofs P2PUsefulProofs P2POriginProofs P2PSoloProofs.

Record inv (l : list action) (s : sys) (ev : list event) : Prop := {
  v_locked : locked_ok s; v_slots : slots_ok s; v_tokens : tokens_ok s; v_inflight : inflight_ok s; v_active : active_ok s;
  v_hand : hand_ok s; v_act : act_ok s; v_nonneg : nonneg_ok s; v_record : record_ok s; v_holders : holders_ok s; v_gone : gone_ok s ev;
  v_places : places_ok s; v_owner : owner_ok s; v_range : range_ok s; v_useful : useful_ok s; v_sending : sending_ok s;
  v_greet : greet_ok s ev; v_first : always first_ok ev; v_once : forall p, once_ok p s ev;
  v_handlers : handlers_running ev = s_slots s; v_piece : forall i, piece_outstanding i ev = tsum (asking_piece i) (s_threads s);
  v_peer : forall p, peer_outstanding p ev = tsum (asking_peer p) (s_threads s); v_addr : forall a, addr_ok a s ev;
  v_spot : spot_ok s; v_stop : stop_ok s; v_solo : solo_ok s ev; v_here : here_ok s ev; v_keeper : keeper_ok s ev; v_ended : ended_ok s; v_cancel : cancel_ok l s }.
Section Thms.
Variable hash id : bytes.
Variable n : Z.
Variable have : bytes.

Lemma blank_empty blank : bf_new n = Some blank -> forall i, ~ member blank i.
Proof.
  unfold bf_new. intros H i [_ [x [X Y]]]. destruct (_ <? 0) in H; [discriminate|]. injection H as <-.
  apply nth_error_In, repeat_spec in X. subst x. change (b2z x00) with 0 in Y. rewrite Z.bits_0 in Y. discriminate.
Qed.
Lemma inv_step blank l s ev a s' e : (forall i, ~ member blank i) -> inv l s ev -> exec hash id blank s a = Some (s', e) -> inv (l ++ [a]) s' (ev ++ e).
Proof.
  intros BE [] H. constructor.
  - eapply lock_step; eassumption.
  - eapply slots_step; eassumption.
  - eapply tokens_step; eassumption.
  - eapply inflight_step; eassumption.
  - eapply active_step; eassumption.
  - eapply hand_step; eassumption.
  - eapply act_step; [exact v_hand0|exact v_act0|exact H].
  - eapply nonneg_step; [exact v_nonneg0|exact H].
  - eapply record_step; [exact v_nonneg0|exact v_record0|exact H].
  - eapply holders_step; [exact v_record0|exact v_holders0|exact H].
  - eapply gone_step; [exact v_hand0|exact v_act0|exact v_gone0|exact H].
  - eapply places_step; [exact v_places0|exact H].
  - eapply owner_step; [exact v_locked0|exact v_owner0|exact H].
  - eapply range_step; [exact v_act0|exact v_range0|exact H].
  - eapply useful_step; [exact BE|exact v_useful0|exact H].
  - eapply sending_step; [exact v_locked0|exact v_act0|exact v_sending0|exact H].
  - eapply greet_step; [exact v_locked0|exact v_greet0|exact H].
  - eapply first_step; [exact v_greet0|exact v_first0|exact H].
  - intros p. eapply once_step; [apply v_once0|exact H].
  - eapply handlers_step; [exact v_handlers0|exact H].
  - intros i. eapply asking_piece_step; [apply v_piece0|exact H].
  - intros p. eapply asking_peer_step; [apply v_peer0|exact H].
  - intros x. eapply addr_step; [apply v_addr0|exact H].
  - eapply spot_step; [exact v_act0|exact v_spot0|exact H].
  - eapply stop_ok_step; [exact v_stop0|exact H].
  - eapply solo_step; [exact v_hand0|exact v_act0|exact v_active0|exact v_stop0|exact v_solo0|exact H].
  - eapply here_step; [exact v_hand0|exact v_here0|exact H].
  - eapply keeper_step; [exact v_owner0|exact v_keeper0|exact H].
  - eapply ended_step; [exact v_ended0|exact H].
  - eapply cancel_step; [exact v_cancel0|exact H].
Qed.
Lemma inv_start : inv [] (started have) [].
Proof.
  constructor; try (intros ?; cbn; lia); try (intros ? ? []; fail); try (intros ? []; fail); try reflexivity; try (intros ? ? ? []; fail).
  all: try (split; cbn; lia).
  - intros [|t] th T; discriminate T.
  - split; [constructor|cbn; lia].
  - intros t T. discriminate T.
  - intros [|p] q i Q; discriminate Q.
  - apply always_nil.
  - intros p. unfold once_ok. cbn. destruct (p <? 0)%nat; cbn; lia.
  - intros t th T. discriminate T.
  - intros T. discriminate T.
Qed.
Lemma run_inv l s ev : run_of hash id n have l s ev -> inv l s ev.
Proof.
  intros [blank [B [_ R]]]. apply (runs_acts_ind hash id blank inv (started have)); [apply inv_start| |exact R].
  intros. eapply inv_step; [exact (blank_empty _ B)|eassumption|eassumption].
Qed.
Lemma goes_one s a s' e : goes_on hash id n s [a] s' e -> exists blank, bf_new n = Some blank /\ exec hash id blank s a = Some (s', e).
Proof.
  intros [blank [B R]]. exists blank. split; [easy|]. cbn [runs] in R. destruct (exec hash id blank s a) as [[s1 e1]|]; [|discriminate].
  injection R as <- <-. now rewrite app_nil_r.
Qed.
Lemma run_more l s ev l' s' ev' : run_of hash id n have l s ev -> goes_on hash id n s l' s' ev' -> run_of hash id n have (l ++ l') s' (ev ++ ev').
Proof.
  intros [b [B [Z R]]] [b' [B' R']]. assert (b' = b) as -> by congruence. exists b. split; [easy|]. split; [easy|]. rewrite runs_app, R, R'. reflexivity.
Qed.

(** * C49 *)
Lemma carries_token p th : token_of p th = one (carries p th).
Proof. destruct th as [| |? []|? []|? ? []|? []| | |]; reflexivity. Qed.
Lemma loops_token p s : loops p s = tsum (token_of p) (s_threads s).
Proof.
  unfold loops. induction (s_threads s) as [|th l IH]; [reflexivity|]. cbn [filter tsum fold_right]. rewrite carries_token.
  change (fold_right (fun x a => token_of p x + a) 0 l) with (tsum (token_of p) l). rewrite <- IH.
  destruct (carries p th); cbn [one]; rewrite ?zlen_cons; lia.
Qed.
Theorem download_loops l s ev p : run_of hash id n have l s ev ->
  0 <= peer_outstanding p ev <= 1 /\ 0 <= loops p s <= 1 /\ (loops p s = 1 -> In p (g_queued (s_reg s))) /\
  (s_cancelled s = false -> In p (g_queued (s_reg s)) -> loops p s = 1).
Proof.
  intros R. apply run_inv in R. destruct (v_tokens _ _ _ R p) as [A B]. rewrite (v_peer _ _ _ R p), loops_token.
  pose proof (tsum_le _ _ (s_threads s) (asking_peer_le p)). pose proof (one_range (smem Nat.eqb p (g_queued (s_reg s)))). unfold queued_of in *.
  assert (0 <= tsum (asking_peer p) (s_threads s)) by (apply tsum_nonneg; intros [| |? []|? []|? ? []|? []| | |]; cbn; try lia; apply one_range).
  assert (0 <= tsum (token_of p) (s_threads s)) by (apply tsum_nonneg, token_nonneg).
  split; [lia|]. split; [lia|]. split.
  - intros E. apply (smem_in _ neq_iff). destruct (smem Nat.eqb p _); [easy|]. cbn [one] in A. lia.
  - intros C I. apply (smem_in _ neq_iff) in I. rewrite (B C), I. reflexivity.
Qed.
(** * C50 *)
Theorem piece_requesters l s ev i : run_of hash id n have l s ev -> 0 <= piece_outstanding i ev <= 1.
Proof.
  intros R. apply run_inv in R. pose proof (v_inflight _ _ _ R i) as A. rewrite (v_piece _ _ _ R i).
  pose proof (tsum_le _ _ (s_threads s) (asking_piece_le i)). pose proof (one_range (is_some (mget Z.eqb i (g_inflight (s_reg s))))).
  assert (0 <= tsum (asking_piece i) (s_threads s)) by (apply tsum_nonneg; intros [| |? []|? []|? ? []|? []| | |]; cbn; try lia; apply one_range). lia.
Qed.
Definition chosen (ev : list event) (p : nat) (i : Z) : Prop := exists f1 f2, ev = f1 ++ EvLooked p :: f2 /\
  (forall x, In x f2 -> needs_lock x = false) /\ announced f1 p i /\ ~ stored_in have f1 i.
Definition choosing_ok (s : sys) (ev : list event) : Prop := forall t p l, nth_error (s_threads s) t = Some (TRequester p (RPick l)) -> forall i, In i l -> chosen ev p i.
Lemma chosen_more ev e p i : chosen ev p i -> (forall x, In x e -> needs_lock x = false) -> chosen (ev ++ e) p i.
Proof.
  intros [f1 [f2 [-> [A B]]]] C. exists f1, (f2 ++ e). rewrite <- app_assoc. split; [reflexivity|]. split; [|easy].
  intros x X. apply in_app_or in X as [X|X]; auto.
Qed.
Lemma turn_dec t a : (exists c, a = AGo t c) \/ ~ turn_of t a.
Proof. destruct a as [u c| | | | | | | | | | ]; try (right; intros [c X]; discriminate X). destruct (Nat.eq_dec u t) as [->|N]; [left; now exists c|right; intros [c' X]; congruence]. Qed.
Lemma turn_other blank s t a s' e th : locked_ok s -> holding th = true -> (forall p l, th = THandler p l -> False) -> ~ turn_of t a ->
  exec hash id blank s a = Some (s', e) -> nth_error (s_threads s') t = Some th -> nth_error (s_threads s) t = Some th.
Proof.
  intros LK HO NH N H T. open_exec H; revert T; drop_facts; fields; intros T.
  all: repeat match type of T with
    | nth_error (list_set ?t0 ?x ?l) ?t = Some _ => apply nth_set in T as [[-> T]|[_ T]]
    | nth_error (_ ++ [_]) _ = Some _ => apply nth_app in T as [[_ T]|[_ T]]
    end; try exact T.
  all: try (exfalso; apply N; eexists; reflexivity).
  all: try (subst; discriminate HO).
  destruct (Nat.lt_ge_cases t (List.length (s_threads s))) as [L|L]; [now rewrite nth_error_app1 in T by exact L|].
  rewrite nth_error_app2 in T by exact L. apply nth_error_In, unchoke_threads in T as [p ->]. discriminate HO.
Qed.
Lemma choosing_step blank s ev a s' e : locked_ok s -> ann_ok s ev -> have_ok have s ev -> choosing_ok s ev -> exec hash id blank s a = Some (s', e) -> choosing_ok s' (ev ++ e).
Proof.
  intros LK [AN _] HV O H t pp l T ii I. destruct (turn_dec t a) as [[c ->]|N].
  - open_exec H; revert T; drop_facts; fields; intros T.
    all: repeat match type of T with
      | nth_error (list_set ?t0 ?x ?l) ?t0 = Some _ => rewrite list_set_nth_eq in T by (rewrite ?app_length; cbn [List.length]; match goal with X : nth_error (s_threads ?s) t0 = Some _ |- _ => assert (t0 < List.length (s_threads s))%nat by (apply nth_error_Some; congruence); lia end)
      | nth_error (_ ++ [_]) _ = Some _ => apply nth_app in T as [[_ T]|[_ T]]
      end; try discriminate T; try congruence.
    all: injection T; intros; subst.
    + exists ev, []. split; [reflexivity|]. split; [intros x []|].
      match goal with X : sort_slice _ _ _ _ = Some _ |- _ => apply (Permutation.Permutation_in _ (sort_slice_perm _ _ _ _ _ X)) in I end. match goal with X : bf_items _ = _ :: _ |- _ => rewrite <- X in I end.
      apply (proj2 (bf_items_spec _)), diff_member in I as [I I2]. split; [eapply AN; eassumption|]. intros S. apply I2, HV; [now apply member_nonneg in I|exact S].
    + rewrite app_nil_r. eapply O; [eassumption|]. now right.
  - assert (nth_error (s_threads s) t = Some (TRequester pp (RPick l))) as T0 by (eapply turn_other; [exact LK|reflexivity|discriminate|exact N|exact H|exact T]).
    apply chosen_more; [eapply O; eassumption|]. assert (s_mu s = Some t) as M by (exact (LK _ _ T0 eq_refl)).
    exact (proj1 (proj2 (held_step _ _ _ _ _ _ _ _ LK M N H))).
Qed.
Definition choice_ok (ev : list event) (x : event) : Prop := match x with EvRequest p i => chosen ev p i | _ => True end.
Lemma choice_step blank s ev a s' e : choosing_ok s ev -> always choice_ok ev -> exec hash id blank s a = Some (s', e) -> always choice_ok (ev ++ e).
Proof.
  intros O A H. open_exec H; rewrite ?app_nil_r; try exact A; try (apply always_snoc; [exact A|exact I]).
  - match goal with |- always _ (_ ++ [?x; ?y]) => change [x; y] with ([x] ++ [y]) end. rewrite app_assoc.
    apply always_snoc; [|exact I]. apply always_snoc; [exact A|exact I].
  - apply always_snoc; [exact A|]. eapply O; [eassumption|]. now left.
Qed.
Theorem requests_chosen l s ev e1 p i e2 : run_of hash id n have l s ev -> ev = e1 ++ EvRequest p i :: e2 -> chosen e1 p i.
Proof.
  intros R E. assert (always choice_ok ev) as A; [|exact (A e1 _ e2 E)]. destruct R as [blank [B [_ R]]].
  enough (locked_ok s /\ ann_ok s ev /\ have_ok have s ev /\ choosing_ok s ev /\ always choice_ok ev) by easy.
  clear E. revert R. apply (runs_acts_ind hash id blank (fun l s ev => locked_ok s /\ ann_ok s ev /\ have_ok have s ev /\ choosing_ok s ev /\ always choice_ok ev)).
  - split; [intros [|t] th T; discriminate T|]. split; [|split; [|split]].
    + split; [intros [|q] ? ? Q; discriminate Q|intros th []].
    + intros j J. unfold stored_in. cbn. tauto.
    + intros [|t] ? ? T; discriminate T.
    + apply always_nil.
  - intros l1 s1 ev1 a s2 e [C1 [C2 [C3 [C4 C5]]]] H. split; [|split; [|split; [|split]]].
    + eapply lock_step; eassumption.
    + eapply ann_step; [exact (blank_empty _ B)|exact C2|exact H].
    + eapply have_step; [exact C3|exact H].
    + eapply choosing_step; [exact C1|exact C2|exact C3|exact C4|exact H].
    + eapply choice_step; [exact C4|exact C5|exact H].
Qed.
(** * C51 *)
Theorem limits l s ev : run_of hash id n have l s ev ->
  0 <= handlers_running ev <= 50 /\ zlen (g_active (s_reg s)) <= 50 /\ NoDup (map fst (g_active (s_reg s))) /\
  forall x p, registered s x p -> exists q, nth_error (s_peers s) p = Some q /\ name_of q = x.
Proof.
  intros R. apply run_inv in R. pose proof (v_slots _ _ _ R) as [A B]. rewrite (v_handlers _ _ _ R). destruct (v_active _ _ _ R) as [C D].
  assert (0 <= tsum slot_of (s_threads s)) by (apply tsum_nonneg; intros []; cbn; lia).
  split; [lia|]. split; [easy|]. split; [easy|]. intros x p X. destruct (v_act _ _ _ R _ _ X) as [q [Q [E _]]]. now exists q.
Qed.
Theorem one_per_name l s ev p p' x ip : run_of hash id n have l s ev -> not_stopped l -> (forall b, ~ In (EvBlocked b) ev) ->
  In (EvConnected p x ip) ev -> In (EvConnected p' x ip) ev -> ~ In (EvDisconnected p) ev -> ~ In (EvDisconnected p') ev -> p = p'.
Proof.
  intros R NS NB C C' D D'. apply run_inv in R. destruct (v_cancel _ _ _ R NS) as [NC _].
  assert (forall p, In (EvConnected p x ip) ev -> ~ In (EvDisconnected p) ev -> In (idip_of x ip, p) (g_active (s_reg s))) as A.
  { clear C C' D D' p p'. intros p C D. destruct (v_here _ _ _ R _ _ _ C) as [q [Q [E1 [E2 [_ [L|L]]]]]]; [contradiction|].
    destruct (v_solo _ _ _ R NB NC p) as [q' [Q' A]].
    { pose proof (tsum_le _ _ (s_threads s) (live_regd p)). lia. }
    assert (q' = q) as -> by congruence. unfold name_of in A. now rewrite E1, E2 in A. }
  eapply nodup_fst; [exact (proj1 (v_active _ _ _ R))|apply (A p C D)|apply (A p' C' D')].
Qed.
(** * C52 *)
Theorem refusals l s ev a s' e p : run_of hash id n have l s ev -> goes_on hash id n s [a] s' e -> In (EvRefused p) e ->
  exists t c q, a = AGo t c /\ nth_error (s_peers s') p = Some q /\
    ((s_mu s' = Some t /\ (forall x, ~ registered s' x p) /\
        (50 <= zlen (g_active (s_reg s)) \/ exists x p', In (place_of q, x) (g_idips (s_reg s)) /\ registered s x p')) \/
     (s_mu s' = s_mu s /\ s_mu s' <> Some t /\ (forall x, ~ registered s' x p)) \/
     (c = CErr /\ s_mu s' = None /\ registered s' (name_of q) p)).
Proof.
  intros R G X. apply run_inv in R. apply goes_one in G as [blank [_ H]].
  destruct (refused_step _ _ _ _ _ _ _ _ (v_owner _ _ _ R) (v_act _ _ _ R) (v_sending _ _ _ R) H X) as [t [q [h [c [-> [T [T' [Q C]]]]]]]].
  exists t, c, q. split; [easy|]. split; [easy|]. destruct C as [[_ [C1 [C2 C3]]]|[[_ [C1 [C2 C3]]]|[_ [C1 [C2 C3]]]]].
  - left. split; [easy|]. split; [easy|]. destruct C2 as [C2|[x [C2 C4]]]; [now left|right]. apply in_map_iff in C4 as [[x' p'] [E C4]]. cbn in E. subst x'.
    exists x, p'. split; [now apply (mget_in _ beq_iff)|easy].
  - right. left. easy.
  - right. right. easy.
Qed.
Theorem lock_released l s ev t : run_of hash id n have l s ev -> s_crashed s = false -> s_mu s = Some t ->
  (exists l' s' ev', (forall a, In a l' -> turn_of t a) /\ goes_on hash id n s l' s' ev' /\ s_mu s' = None) \/ (exists p, In (EvRefused p) ev) \/ s_cancelled s = true.
Proof.
  intros R NC M. pose proof (run_inv _ _ _ R) as V. destruct R as [blank [B _]].
  destruct (owner_releases hash id blank s t (v_range _ _ _ V) (v_owner _ _ _ V) NC M) as [[l' [s' [ev' [A1 [A2 A3]]]]]|[_ [th [T C]]]].
  - left. exists l', s', ev'. split; [easy|]. split; [|easy]. now exists blank.
  - right. destruct C as [C|[[p C]|[C _]]].
    + left. eapply (v_keeper _ _ _ V); [exact M|exact T|now left].
    + left. eapply (v_keeper _ _ _ V); [exact M|exact T|right; now exists p].
    + right. now apply (v_ended _ _ _ V).
Qed.
(** The lock of a goroutine that will never release it. *)
Theorem dead_lock l s ev t p : run_of hash id n have l s ev -> s_mu s = Some t ->
  (nth_error (s_threads s) t = Some TDone \/ nth_error (s_threads s) t = Some (THandler p HRelease) \/ (s_requesting s = false /\ exists k, nth_error (s_threads s) t = Some (THandler p (HToken k)))) ->
  forall l' s' ev', goes_on hash id n s l' s' ev' -> s_mu s' = Some t /\ forall x, In x ev' -> needs_lock x = false.
Proof.
  intros R M C l' s' ev' [blank [B G]]. apply run_inv in R. eapply (frozen_runs hash id blank t); [exact (v_locked _ _ _ R)| |exact G].
  split; [easy|]. destruct C as [C|[C|[C [k D]]]]; eexists; (split; [eassumption|]).
  - now left.
  - right. left. now exists p.
  - right. right. split; [easy|]. now exists p, k.
Qed.
Theorem lock_held l s ev t : run_of hash id n have l s ev -> s_mu s = Some t ->
  forall l' s' ev', goes_on hash id n s l' s' ev' -> (forall a, In a l' -> ~ turn_of t a) -> forall x, In x ev' -> needs_lock x = false.
Proof. intros R M l' s' ev' [blank [B G]] N. apply run_inv in R. exact (proj2 (held_runs hash id blank t l' s s' ev' (v_locked _ _ _ R) M N G)). Qed.
(** * C53 *)
Theorem addresses_once l s ev a : run_of hash id n have l s ev -> count (queues a) ev <= 1 /\ count (dials a) ev <= count (queues a) ev.
Proof.
  intros R. apply run_inv in R. destruct (v_addr _ _ _ R a) as [A B]. pose proof (one_range (smem bytes_eqb a (g_known (s_reg s)))).
  assert (0 <= tsum (dialling a) (s_threads s)) by (apply tsum_nonneg; intros []; cbn; try lia; destruct (remote_addr _); [apply one_range|lia]).
  assert (forall l, 0 <= qsum a l) as Q. { induction l0 as [|x l0 IH]; [cbn; lia|]. rewrite qsum_cons. unfold waiting. destruct (remote_addr x) as [bb|]; [|lia]. pose proof (one_range (bytes_eqb a bb)). lia. }
  specialize (Q (s_queue s)). assert (0 <= taken a (s_taken s)). { unfold taken, waiting. destruct (s_taken s); [|lia]. destruct (remote_addr p); [apply one_range|lia]. }
  lia.
Qed.
Lemma block_bars blank s a s' e p q x : exec hash id blank s a = Some (s', e) -> In (EvBlocked p) e -> nth_error (s_peers s) p = Some q -> In x (known_for s (name_of q)) -> barred x s'.
Proof.
  intros H X Q K. unfold barred. open_exec H; cbn [In] in X; try tauto; repeat (destruct X as [X|X]; try discriminate X; try tauto). injection X as <-.
  assert (r = q) as -> by congruence. fields. rewrite (proj1 (proj2 (disconnect_same _ _ _))). apply (proj2 (block_addrs_in _ _ _)). now right.
Qed.
Theorem blocked_addresses l s ev a s1 e p q x l' s2 ev' : run_of hash id n have l s ev -> goes_on hash id n s [a] s1 e -> In (EvBlocked p) e ->
  nth_error (s_peers s) p = Some q -> (In x (known_for s (name_of q)) \/ (registered s (name_of q) p /\ x = place_of q)) -> goes_on hash id n s1 l' s2 ev' ->
  ~ In (EvQueued x) ev' /\ ((forall th, In th (s_threads s1) -> ~ dials_now x th) -> ~ In (EvDial x) ev').
Proof.
  intros R G X Q K [blank [_ G']]. apply run_inv in R. apply goes_one in G as [blank' [_ H]].
  assert (In x (known_for s (name_of q))) as K'. { destruct K as [K|[K ->]]; [easy|]. exact (v_spot _ _ _ R _ _ _ K Q). }
  eapply barred_runs; [|exact G']. eapply block_bars; eassumption.
Qed.
(** * C55 *)
Theorem connected_peers l s ev p x ip : run_of hash id n have l s ev -> In (EvConnected p x ip) ev ->
  exists t r h r' id0 port, In (AGo t (CHand true r)) l /\ hs_decode r = Ok (h, r') /\ hs_info h = hash /\ hs_peer h = x /\ x <> id /\
    came l id0 ip port /\ (id0 = zero_id \/ id0 = x).
Proof.
  intros [blank [_ [_ R]]] X. destruct (run_connected _ _ _ _ _ _ _ R _ _ _ X) as [q [<- [<- [t [r [id0 [r' [A [B C]]]]]]]]].
  unfold peer_handshake in C. cbn [negb] in C. destruct (hs_decode r) as [[h r1]| |] eqn:D; try discriminate C.
  destruct (bytes_eqb (hs_info h) hash) eqn:E1; cbn [negb] in C; [|discriminate C]. apply bytes_eqb_eq in E1.
  destruct (negb (bytes_eqb id0 zero_id) && negb (bytes_eqb id0 (hs_peer h))) eqn:E2; [discriminate C|].
  destruct (bytes_eqb (hs_peer h) id) eqn:E3; [discriminate C|]. injection C as C <-.
  exists t, r, h, r1, id0, (q_port q). split; [easy|]. split; [easy|]. split; [easy|]. split; [easy|]. split; [rewrite <- C; now apply bytes_eqb_neq|].
  split; [easy|]. apply Bool.andb_false_iff in E2 as [E2|E2]; apply Bool.negb_false_iff, bytes_eqb_eq in E2; [now left|right; congruence].
Qed.
(** * C59 *)
Theorem disconnecting l s ev a s' e p q : run_of hash id n have l s ev -> goes_on hash id n s [a] s' e -> In (EvDisconnected p) e -> nth_error (s_peers s) p = Some q ->
  (exists q', nth_error (s_peers s') p = Some q' /\ q_closed q' = true) /\
  (forall x, ~ registered s' x p) /\ (forall i, ~ In p (holders_of (s_reg s') i)) /\ known_for s' (name_of q) = [] /\ (forall b, ~ In (b, name_of q) (g_idips (s_reg s'))) /\
  (forall i p', p' <> p -> In p' (holders_of (s_reg s') i) <-> In p' (holders_of (s_reg s) i)) /\
  (forall x, x <> name_of q -> known_for s' x = known_for s x /\ (forall p', registered s' x p' <-> registered s x p') /\ forall b, In (b, x) (g_idips (s_reg s')) <-> In (b, x) (g_idips (s_reg s))).
Proof.
  intros R G X Q. pose proof (run_inv _ _ _ (run_more _ _ _ _ _ _ R G)) as V'. apply run_inv in R. apply goes_one in G as [blank [_ H]].
  assert (In (EvDisconnected p) (ev ++ e)) as X' by (apply in_or_app; now right). destruct (v_gone _ _ _ V' p X') as [_ [P0 NA]].
  assert (s_reg s' = disconnect p q (s_reg s) /\ exists q', nth_error (s_peers s') p = Some q' /\ q_closed q' = true) as [E CL].
  { clear - H X Q. open_exec H; cbn [In] in X; try tauto; repeat (destruct X as [X|X]; try discriminate X; try tauto). injection X as <-.
    assert (r = q) as -> by congruence. split; [reflexivity|]. fields. rewrite list_set_nth_eq by (apply nth_error_Some; congruence). now eexists. }
  split; [exact CL|]. split; [exact NA|]. split.
  { intros i I. destruct (v_holders _ _ _ V' _ _ I) as [q1 [_ [_ L]]]. pose proof (tsum_le _ _ (s_threads s') (live_pending p)). lia. }
  unfold known_for, registered. rewrite E. split; [|split; [|split]].
  - unfold addrs_of. rewrite addrs_disconnect, (meqb_refl _ beq_iff). reflexivity.
  - intros b I. apply idips_disconnect in I as [I1 I2]. apply I2. split; [easy|]. now apply (v_places _ _ _ R).
  - intros i p' NE. rewrite holders_disconnect. tauto.
  - intros x NE. split; [|split].
    + unfold addrs_of. now rewrite addrs_disconnect, (meqb_neq _ beq_iff) by congruence.
    + intros p'. rewrite disconnect_active, (mdel_in _ beq_iff). cbn [fst]. tauto.
    + intros b. rewrite idips_disconnect. tauto.
Qed.
Theorem stays_disconnected l s ev p : run_of hash id n have l s ev -> In (EvDisconnected p) ev ->
  (forall x, ~ registered s x p) /\ (forall i, ~ In p (holders_of (s_reg s) i)).
Proof.
  intros R X. apply run_inv in R. destruct (v_gone _ _ _ R p X) as [_ [P0 NA]]. split; [exact NA|]. intros i I.
  destruct (v_holders _ _ _ R _ _ I) as [q1 [_ [_ L]]]. pose proof (tsum_le _ _ (s_threads s) (live_pending p)). lia.
Qed.
Theorem indices l s ev : run_of hash id n have l s ev ->
  (forall i p, In p (holders_of (s_reg s) i) -> announced ev p i /\ ~ In (EvDisconnected p) ev) /\
  (forall b x, In (b, x) (g_idips (s_reg s)) -> In b (known_for s x)) /\
  (forall x p q, registered s x p -> nth_error (s_peers s) p = Some q -> In (place_of q) (known_for s x)).
Proof.
  intros R. pose proof (run_inv _ _ _ R) as V. split; [|split; [exact (v_places _ _ _ V)|exact (v_spot _ _ _ V)]].
  intros i p I. split; [|intros X; exact (proj2 (stays_disconnected _ _ _ _ R X) i I)].
  destruct (v_holders _ _ _ V _ _ I) as [q [Q [M _]]]. destruct R as [blank [B [_ R]]].
  destruct (run_events hash id blank have (blank_empty _ B) l s ev R) as [[A _] _]. eapply A; eassumption.
Qed.
(** * C68 *)
Theorem useful_peers l s ev p q i : run_of hash id n have l s ev -> not_stopped l -> nth_error (s_peers s) p = Some q -> q_closed q = false -> q_rchoked q = false ->
  member (q_bits q) i -> ~ stored_in have ev i -> loops p s = 1 \/ exists h, In (THandler p h) (s_threads s) /\ busy_with i h.
Proof.
  intros R NS Q C U M N. pose proof (run_inv _ _ _ R) as V. destruct (v_cancel _ _ _ V NS) as [NC _].
  destruct (v_useful _ _ _ V p q i Q C U M) as [X|X].
  - destruct R as [blank [B [_ R]]]. destruct (run_events hash id blank have (blank_empty _ B) l s ev R) as [_ [HV _]]. intros Y. apply N, HV; [now apply member_nonneg in M|exact Y].
  - left. now apply (download_loops _ _ _ p R).
  - right. exact X.
Qed.
(** * C70 *)
Theorem stopping l s ev t s' e : run_of hash id n have l s ev -> nth_error (s_threads s) t = Some (TStop true) -> goes_on hash id n s [AGo t COk] s' e ->
  s_mu s' = None /\ s_cancelled s' = true /\ (forall x p, ~ registered s' x p) /\
  forall x p, registered s x p -> exists q, nth_error (s_peers s') p = Some q /\ q_closed q = true.
Proof.
  intros R T G. pose proof (run_inv _ _ _ (run_more _ _ _ _ _ _ R G)) as V'. apply run_inv in R. apply goes_one in G as [blank [_ H]].
  destruct (stop_step _ _ _ _ _ _ _ (v_act _ _ _ R) T H) as [A [B C]]. split; [exact A|]. split.
  - destruct (s_cancelled s') eqn:E; [easy|]. apply (cancelled_step _ _ _ _ _ _ _ H) in E. rewrite (v_stop _ _ _ R _ (nth_error_In _ _ T) eq_refl) in E. discriminate.
  - split; [|exact C]. intros x p X. unfold registered in X. rewrite B in X. destruct X.
Qed.
(** * C72, C73 *)
Theorem announcements l s ev e1 p m e2 : run_of hash id n have l s ev -> ev = e1 ++ EvSent p m :: e2 ->
  (forall i, announces_piece m i -> stored_in have e1 i) /\ (m_type m = BITFIELD -> forall i, 0 <= i -> stored_in have e1 i -> member (m_bitfield m) i).
Proof.
  intros [blank [B [_ R]]] E. destruct (run_events hash id blank have (blank_empty _ B) l s ev R) as [_ [_ [_ [_ A]]]]. exact (A _ _ _ E).
Qed.
Theorem greetings l s ev p : run_of hash id n have l s ev -> count (sends_bitfield p) ev <= 1 /\
  forall e1 m e2, ev = e1 ++ EvSent p m :: e2 -> m_type m = BITFIELD \/ (exists b, In (EvSent p (mk_bitfield b)) e1) \/ In (EvRefused p) e1.
Proof.
  intros R. apply run_inv in R. split; [|intros e1 m e2 E; exact (v_first _ _ _ R _ _ _ E)].
  pose proof (v_once _ _ _ R p) as A. unfold once_ok in A. pose proof (one_range (p <? List.length (s_peers s))%nat).
  assert (0 <= tsum (start p) (s_threads s)) by (apply tsum_nonneg; intros [| |? []|? []|? ? []|? []| | |]; cbn; try lia; apply one_range). lia.
Qed.
Theorem stop_waits l s ev t p k : run_of hash id n have l s ev -> s_mu s = Some t ->
  (nth_error (s_threads s) t = Some TDone \/ nth_error (s_threads s) t = Some (THandler p HRelease) \/ (s_requesting s = false /\ exists k, nth_error (s_threads s) t = Some (THandler p (HToken k)))) ->
  nth_error (s_threads s) k = Some (TStop false) -> forall l' s' ev', goes_on hash id n s l' s' ev' -> nth_error (s_threads s') k = Some (TStop false).
Proof.
  intros R M C K l' s' ev' [blank [B G]]. apply run_inv in R. pose proof (v_locked _ _ _ R) as LK.
  assert (frozen t s) as F.
  { split; [easy|]. destruct C as [C|[C|[C [k' D]]]]; eexists; (split; [eassumption|]); [now left|right; left; now exists p|right; right; split; [easy|]; now exists p, k']. }
  clear R M C. revert s LK F K s' ev' G. induction l' as [|a l' IH]; cbn [runs]; intros s LK F K s' ev' G; [now injection G as <- _|].
  destruct (exec hash id blank s a) as [[s1 e1]|] eqn:E; [|discriminate]. destruct (runs hash id blank s1 l') as [[s2 e2]|] eqn:R; [|discriminate]. injection G as <- _.
  apply (IH s1) with (ev' := e2); [eapply lock_step; eassumption|exact (proj1 (frozen_step _ _ _ _ _ _ _ _ LK F E))| |exact R].
  destruct F as [M _]. clear IH R. rewrite <- K. open_exec E; drop_facts; fields; try reflexivity; try congruence.
  all: try (rewrite nth_error_app1 by (apply nth_error_Some; congruence); reflexivity).
  all: try (rewrite list_set_nth_neq by congruence; rewrite ?nth_error_app1 by (apply nth_error_Some; congruence); reflexivity).
  all: try (rewrite nth_error_app1 by (rewrite list_set_length; apply nth_error_Some; congruence); now rewrite list_set_nth_neq by congruence).
Qed.
(** * The handshake *)
Theorem handshake_iff own_hash own_id expected r id' : proper r -> zlen own_hash = 20 ->
  (exists r', peer_handshake own_hash own_id expected true r = (id', Ok r')) <->
  (exists reserved rest, zlen reserved = 8 /\ zlen id' = 20 /\ concat r = "019"%byte :: bs "BitTorrent protocol" ++ reserved ++ own_hash ++ id' ++ rest) /\
  id' <> own_id /\ (expected = zero_id \/ expected = id').
Proof.
  intros P L. unfold peer_handshake. cbn [negb]. split.
  - intros [r' C]. destruct (hs_decode r) as [[h r1]| |] eqn:D; try discriminate C.
    destruct (bytes_eqb (hs_info h) own_hash) eqn:E1; cbn [negb] in C; [|discriminate C]. apply bytes_eqb_eq in E1.
    destruct (negb (bytes_eqb expected zero_id) && negb (bytes_eqb expected (hs_peer h))) eqn:E2; [discriminate C|].
    destruct (bytes_eqb (hs_peer h) own_id) eqn:E3; [discriminate C|]. injection C as C <-.
    destruct (proj1 (hs_decode_iff r h (concat r1) P)) as [O [reserved [R1 R2]]]; [now exists r1|]. split; [|split].
    + exists reserved, (concat r1). subst. split; [unfold zlen; now rewrite R1|]. split; [unfold zlen; rewrite (proj2 O); reflexivity|exact R2].
    + rewrite <- C. now apply bytes_eqb_neq.
    + apply Bool.andb_false_iff in E2 as [E2|E2]; apply Bool.negb_false_iff, bytes_eqb_eq in E2; [now left|right; congruence].
  - intros [[reserved [rest [R1 [R2 R3]]]] [N X]].
    destruct (proj2 (hs_decode_iff r {| hs_info := own_hash; hs_peer := id' |} rest P)) as [r' [D _]].
    { unfold zlen in L, R2. split; [split; cbn [hs_info hs_peer]; lia|]. exists reserved. split; [unfold zlen in R1; lia|exact R3]. }
    rewrite D. cbn [hs_info hs_peer]. rewrite bytes_eqb_refl. cbn [negb]. exists r'.
    replace (negb (bytes_eqb expected zero_id) && negb (bytes_eqb expected id')) with false by (destruct X as [->| ->]; rewrite bytes_eqb_refl; cbn [negb andb]; rewrite ?Bool.andb_false_r; reflexivity).
    assert (bytes_eqb id' own_id = false) as -> by now apply bytes_eqb_neq. reflexivity.
Qed.
End Thms.
