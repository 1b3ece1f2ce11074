(** On a working disk, right data is accepted, and a torrent whose blocks have all been put is complete. *)
From Verif Require Import GoBase GoBaseProofs Bitfield Metainfo MetainfoSpec Fs Storage StorageSys StorageSpec StorageSysSpec StorageMemSpec StorageWaitSpec StorageFsProofs StorageIoProofs
  StorageProofs StorageGetProofs StorageLoadProofs StorageSysProofs StorageClaimProofs StorageHealthSpec StorageHealthProofs StorageHealthSysProofs StorageMoreProofs StorageWaitProofs StorageAcceptProofs.

Lemma was_put_snoc k x es e : was_put k x (es ++ [e]) <-> (exists d r, e = Ret (CPut k x d) r) \/ (was_put k x es /\ e <> Ret (CReset k) RNil).
Proof.
  split.
  - intros (es1 & d & r & es2 & E & N). destruct es2 as [|e' es2'] using rev_ind.
    + apply app_inj_tail in E as [-> ->]. left. eauto.
    + rewrite app_comm_cons, app_assoc in E. apply app_inj_tail in E as [-> <-]. right. split.
      * exists es1, d, r, es2'. split; [reflexivity|]. intros X. apply N, in_app_iff. now left.
      * intros ->. apply N, in_app_iff. right. now left.
  - intros [(d & r & ->)|[(es1 & d & r & es2 & -> & N) H]]; [exists es, d, r, []; auto|]. exists es1, d, r, (es2 ++ [e]). rewrite <- app_assoc. split; [reflexivity|].
    intros X. apply in_app_iff in X as [X|[X|[]]]; contradiction.
Qed.
Lemma was_put_nil k x : ~ was_put k x [].
Proof. intros (es1 & d & r & es2 & E & _). destruct es1; discriminate. Qed.

Section Honest.
Variable sha1 : bytes -> bytes.
Variable cfg : config.
Variable env : nat -> choice.
Hypothesis ok : config_ok cfg.
Hypothesis W : works env.
Hypothesis FF : files_fit cfg.
Variable c : bytes.
Hypothesis Wc : whole sha1 cfg c.
Notation exec := (StorageSys.exec sha1 cfg env).
Notation execs := (StorageSys.execs sha1 cfg env).
Notation i := (c_info cfg).
Notation n := (num_pieces i).
Notation PL := (i_piece_length i).
Notation inv := (StorageSysProofs.inv sha1 cfg).
Notation PI := (StorageProofs.PI sha1 cfg).
Notation hinv := (hinv cfg env).
Notation there := (there cfg).

Lemma all_blocks_slice size o l : forall j0 data, all_blocks l = Some data -> 0 <= o -> 0 <= j0 -> (l <> [] -> BL * (j0 + zlen l - 1) < size) ->
  (forall j b, nth_error l j = Some (Some b) -> zlen b = block_size size (j0 + Z.of_nat j) /\ b = slice c (o + BL * (j0 + Z.of_nat j)) (zlen b)) ->
  data = slice c (o + BL * j0) (zlen data).
Proof using.
  induction l as [|[b|] l IH]; intros j0 data E Ho Hj Hs Hb; cbn [all_blocks] in E; [injection E as <-; reflexivity| |discriminate].
  destruct (all_blocks l) as [data'|] eqn:E'; [|discriminate]. injection E as <-. destruct (Hb 0%nat b eq_refl) as [B1 B2]. rewrite Z.add_0_r in B1, B2.
  specialize (Hs ltac:(discriminate)). rewrite zlen_cons in Hs. rewrite zlen_app. pose proof (zlen_nonneg b). pose proof (zlen_nonneg data'). unfold BL in *. destruct l as [|x l].
  - cbn in E'. injection E' as <-. rewrite app_nil_r. change (zlen (@nil byte)) with 0. rewrite Z.add_0_r. exact B2.
  - rewrite zlen_cons in Hs. pose proof (zlen_nonneg l). rewrite <- slice_app by lia. rewrite <- B2. f_equal.
    assert (zlen b = 16384) as -> by (rewrite B1; unfold block_size, BL; lia).
    rewrite (IH (j0 + 1) data') at 1; [|reflexivity|exact Ho|lia|intros _; rewrite zlen_cons; lia|].
    + f_equal. lia.
    + intros j y Hy. destruct (Hb (S j) y Hy) as [Y1 Y2]. replace (j0 + 1 + Z.of_nat j) with (j0 + Z.of_nat (S j)) by lia. auto.
Qed.

Lemma tile_check k b (d : bytes) : 0 <= k < n -> tile (piece_size i k) b (zlen d) -> check_block_size i k b (zlen d) = None.
Proof using All.
  intros Hk (B & [j Hj] & Hl). replace b with (BL * j) in * by (unfold BL; lia). apply (check_tile sha1 cfg env ok); [exact Hk| |unfold block_size, BL in *; lia].
  destruct (piece_size_eq cfg ok k Hk) as [_ Hs]. destruct (num_blocks_spec (piece_size i k)) as [N1 N2]; [lia|]. unfold BL in *. lia.
Qed.

Definition hon (p : proc) (es : list event) : Prop :=
  match p with
  | Running w ts =>
      (forall j t k x d, nth_error ts j = Some t -> th_call t = CPut k x d -> right_block cfg c k x d) /\
      (forall k p j b, nth_error (t_pieces (w_mem w)) k = Some p -> nth_error (blocks_of p) j = Some (Some b) -> b = slice c (Z.of_nat k * PL + BL * Z.of_nat j) (zlen b)) /\
      (forall k p, nth_error (t_pieces (w_mem w)) k = Some p -> pc_coalesced p = false -> full p -> piece_locked (Z.of_nat k) ts = true) /\
      ((forall k p, nth_error (t_pieces (w_mem w)) k = Some p -> pc_coalesced p = true) -> t_coalesced (w_mem w) = true) /\
      (forall k x, was_put k x es -> there (w_mem w) k x) /\
      (forall j t k x d, nth_error ts j = Some t -> th_pc t = PutMid -> th_call t = CPut k x d -> ~ was_put k x es /\ there (w_mem w) k x)
  | Dead _ _ => True
  end.
Definition put_fine (e : event) : Prop := forall k x d r, e = Ret (CPut k x d) r -> r = RNil \/ r = RErr EBlockExists.

(** Events that say nothing about blocks. *)
Definition plain (e : event) : Prop := match e with Ret (CPut _ _ _) _ | Ret (CReset _) RNil => False | _ => True end.
Lemma plain_put es es' k x : Forall plain es' -> was_put k x (es ++ es') <-> was_put k x es.
Proof.
  revert es. induction es' as [|e es' IH]; intros es F; [now rewrite app_nil_r|]. inversion F; subst. replace (es ++ e :: es') with ((es ++ [e]) ++ es') by now rewrite <- app_assoc.
  rewrite IH, was_put_snoc by assumption. split; [intros [(d & r & ->)|[H _]]; [contradiction|exact H]|]. intros H. right. split; [exact H|]. intros ->. contradiction.
Qed.
Lemma plain_fine es : Forall plain es -> Forall put_fine es.
Proof. intros F. eapply Forall_impl; [|exact F]. intros e P k x d r ->. contradiction. Qed.
Lemma other_put es e r k k' x : call_index e = k -> k <> k' -> was_put k' x (es ++ [Ret e r]) <-> was_put k' x es.
Proof.
  intros C N. rewrite was_put_snoc. split; [intros [(d & r' & E)|[H _]]; [|exact H]; injection E as -> ->; cbn in C; congruence|].
  intros H. right. split; [exact H|]. intros E. injection E as -> ->. cbn in C. congruence.
Qed.
Lemma hon_quiet w ts es w' ts' es' : hon (Running w ts) es -> w_mem w' = w_mem w ->
  (forall k, piece_locked k ts' = piece_locked k ts) -> (forall j t, nth_error ts' j = Some t -> th_pc t = PutMid -> exists j', nth_error ts j' = Some t) ->
  (forall j t k x d, nth_error ts' j = Some t -> th_call t = CPut k x d -> right_block cfg c k x d) ->
  Forall plain es' -> hon (Running w' ts') (es ++ es').
Proof.
  intros (H1 & H2 & H3 & H4 & H5 & H6) Em L T R F. unfold hon. rewrite Em. split; [exact R|]. split; [exact H2|]. split; [intros k p P Q S; rewrite L; eauto|]. split; [exact H4|]. split.
  - intros k x H. rewrite plain_put in H by exact F. auto.
  - intros j t k x d Ht Pt Ct. destruct (T _ _ Ht Pt) as [j' H']. rewrite plain_put by exact F. eauto.
Qed.
Lemma hon_step base w ts es l p' es' : inv base (Running w ts) -> hinv (Running w ts) -> hon (Running w ts) es -> right_puts cfg c [l] -> exec (Running w ts) l = Some (p', es') ->
  hon p' (es ++ es') /\ Forall put_fine es'.
Proof using All.
  intros I Hi K RP E. destruct l as [e|j| |j x| |]; try discriminate E.
  { injection E as <- <-. split; [|constructor]. eapply hon_quiet; [exact K|reflexivity| | | |constructor].
    - intros k. unfold piece_locked. rewrite existsb_app. cbn. now rewrite !orb_false_r.
    - intros a u Hu Pu. destruct (Nat.lt_ge_cases a (List.length ts)) as [L|L]; [rewrite nth_error_app1 in Hu by exact L; eauto|].
      rewrite nth_error_app2 in Hu by exact L. destruct (a - List.length ts)%nat as [|q]; cbn in Hu; [injection Hu as <-; discriminate Pu|destruct q; discriminate].
    - intros a u k x d Hu Cu. destruct (Nat.lt_ge_cases a (List.length ts)) as [L|L]; [rewrite nth_error_app1 in Hu by exact L; eapply (proj1 K); eauto|].
      rewrite nth_error_app2 in Hu by exact L. destruct (a - List.length ts)%nat as [|q]; cbn in Hu; [injection Hu as <-; cbn in Cu; subst e|destruct q; discriminate]. apply RP. now left. }
  2:{ cbn in E. injection E as <- <-. split; [exact Logic.I|constructor]. }
  2:{ cbn in E. destruct (nth_error ts j); [|discriminate]. destruct (next _ _ _ _ _ _); [|discriminate]. unfold crash_at, option_map in E. destruct (nth_error (w_past _) _); [|discriminate E]. injection E as <- <-. split; [exact Logic.I|constructor]. }
  pose proof (exec_ok sha1 cfg env ok _ _ _ _ _ I E) as (I' & X' & EV & L').
  pose proof (exec_works sha1 cfg env ok W FF _ _ _ _ _ I Hi E) as [_ FN].
  apply step_shape in E as (t & o & T & N & E). destruct o as [w1 q|w1]; destruct E as [-> ->]; [|split; [exact Logic.I|constructor]].
  pose proof I as (HJ & HM & OH & HT). cbn [disk_of] in HJ, X'. pose proof HM as (MI & MA & MT). pose proof (HT _ _ T) as TO. unfold next in N. unfold thread_ok in TO.
  pose proof K as (K1 & K2 & K3 & K4 & K5 & K6).
  assert (P0 : PI (fun k => piece_locked k ts) base (forget_past w)) by (split; [exact HJ|]; split; [constructor|exact HM]).
  assert (KT : forall q', forall a u k x d, nth_error (list_set j {| th_call := th_call t; th_pc := q' |} ts) a = Some u -> th_call u = CPut k x d -> right_block cfg c k x d).
  { intros q' a u k x d Hu Cu. apply nth_error_list_set in Hu as [(_ & -> & _)|[_ Hu]]; [cbn in Cu; eauto|eauto]. }
  assert (G : th_pc t <> PutMid -> q <> PutMid -> w_mem w1 = w_mem w -> Forall plain (events_of (th_call t) q) ->
    hon (Running w1 (list_set j {| th_call := th_call t; th_pc := q |} ts)) (es ++ events_of (th_call t) q) /\ Forall put_fine (events_of (th_call t) q)).
  { intros P Q Em F. split; [|now apply plain_fine]. eapply hon_quiet; eauto.
    - intros k. eapply (locked_same sha1 cfg env ok ts j t); eauto.
    - intros a u Hu Pu. apply nth_error_list_set in Hu as [(-> & -> & _)|[_ Hu]]; [contradiction|eauto]. }
  (* a PutBlock that finds its block there *)
  assert (GE : forall k b d, th_pc t <> PutMid -> th_call t = CPut k b d -> (forall u, In u ts -> th_pc u = PutMid -> call_index (th_call u) <> k) -> there (w_mem w) k b -> w_mem w1 = w_mem w -> q = Done (RErr EBlockExists) ->
    hon (Running w1 (list_set j {| th_call := th_call t; th_pc := q |} ts)) (es ++ events_of (th_call t) q) /\ Forall put_fine (events_of (th_call t) q)).
  { intros k b d P Ec NL TH Em ->. cbn [events_of]. rewrite Ec in *. split; [|constructor; [|constructor]; intros k' x' d' r' [= _ _ _ <-]; now right]. unfold hon. rewrite Em.
    assert (LS : forall k, piece_locked k (list_set j {| th_call := CPut (call_index (th_call t)) b d; th_pc := Done (RErr EBlockExists) |} ts) = piece_locked k ts).
    { intros k0. eapply (locked_same sha1 cfg env ok ts j t); eauto. discriminate. }
    rewrite Ec in LS. cbn [call_index] in LS.
    split; [apply KT|]. split; [exact K2|]. split; [intros k' p P' Q' S'; rewrite LS; eauto|]. split; [exact K4|]. split.
    - intros k' x H. apply was_put_snoc in H as [(d' & r' & H)|[H _]]; [injection H as <- <- <- <-; exact TH|auto].
    - intros a u k' x d' Hu Pu Cu. apply nth_error_list_set in Hu as [(_ & -> & _)|[_ Hu]]; [discriminate Pu|].
      assert (k <> k'). { intros <-. apply (NL u); [eapply nth_error_In; eauto|exact Pu|now rewrite Cu]. }
      rewrite (other_put _ _ _ k) by auto. eauto. }
  destruct (th_pc t) as [| | | |id|x] eqn:Ep, (th_call t) as [k b d|k b len|k|k|] eqn:Ec; cbn [w_mem forget_past] in N; try discriminate N; try contradiction TO.
  - (* PutBlock *)
    destruct (K1 _ _ _ _ _ T Ec) as (Rk & Rt & Rd). rewrite (tile_check k b d Rk Rt) in N.
    destruct (t_coalesced (w_mem w)) eqn:TC; injection N as <- <-; [|apply G; try easy; constructor].
    assert (AC : forall k p, nth_error (t_pieces (w_mem w)) k = Some p -> pc_coalesced p = true).
    { intros k' p' P'. apply (MA _ _ P'). unfold on_disk. specialize (MT eq_refl). destruct (content cfg (w_fs w)); [discriminate|contradiction]. }
    apply (GE k b d); auto; try discriminate.
    + intros u Hu Pu Q. apply In_nth_error in Hu as [a Hu]. assert (LK : piece_locked k ts = true) by (apply piece_locked_iff; eauto).
      destruct (piece_exists sha1 cfg env ok _ _ _ MI Rk) as [p Hp]. destruct MI as (_ & MP & _). destruct (MP _ _ Hp) as (_ & _ & _ & _ & _ & P6 & _). rewrite Z2Nat.id in P6 by lia. destruct (P6 LK) as [P6' _]. rewrite (AC _ _ Hp) in P6'. discriminate.
    + destruct (piece_exists sha1 cfg env ok _ _ _ MI Rk) as [p Hp]. split; [exact Rk|]. exists p. split; [exact Hp|]. left. eauto.
  - assert (w_mem w1 = w_mem w /\ q <> PutMid) as (B & C).
    { destruct (t_coalesced _).
      - injection N as N. pose proof (get_block_mem cfg env k b len (forget_past w)) as M2.
        destruct (get_block cfg env k b len (forget_past w)) as [w2 []]; cbn in N, M2; try discriminate N; injection N as <- <-; repeat split; auto; discriminate.
      - unfold piece_at, bind, get_mem in N. cbn [w_mem forget_past] in N. destruct (if k <? 0 then _ else _); [|discriminate]. injection N as <- <-. repeat split; discriminate. }
    apply G; auto; try discriminate. destruct q; constructor; [exact Logic.I|constructor].
  - (* ResetPiece *)
    destruct (piece_locked k ts) eqn:PLk; [discriminate|]. injection N as N. destruct (reset_piece k (forget_past w)) as [w2 r] eqn:R.
    apply (reset_piece_spec sha1 cfg env ok _ _ _ _ _ _ P0 PLk) in R. destruct r as [[]|e|]; [|destruct R|discriminate N]. cbn in N. injection N as <- <-.
    destruct R as (kn & p & -> & Hp & Cp & Fp & Hp' & Ho & Hfs & _). cbn [w_mem w_fs forget_past] in Hp, Ho, Hfs. cbn [events_of].
    split; [|constructor; [|constructor]; intros k' x' d' r' Q; discriminate].
    assert (TT : forall k' x, Z.of_nat kn <> k' -> there (w_mem w) k' x -> there (w_mem w2) k' x).
    { intros k' x NE (B & p' & P' & B'). split; [exact B|]. exists p'. split; [|exact B']. rewrite Ho by lia. exact P'. }
    split; [apply KT|]. split; [|split; [|split; [|split]]].
    + intros k' p' j' b' Q1 Q2. destruct (Nat.eq_dec k' kn) as [->|NE]; [|rewrite Ho in Q1 by exact NE; eauto].
      rewrite Hp' in Q1. injection Q1 as <-. cbn in Q2. apply nth_error_In, repeat_spec in Q2. discriminate.
    + intros k' p' Q1 Q2 Q3. rewrite (locked_same sha1 cfg env ok ts j t) by (auto; rewrite ?Ep; discriminate). destruct (Nat.eq_dec k' kn) as [->|NE]; [|rewrite Ho in Q1 by exact NE; eauto].
      rewrite Hp' in Q1. injection Q1 as <-. destruct Q3 as (l & Q & _). discriminate Q.
    + intros A. specialize (A _ _ Hp'). cbn in A. congruence.
    + intros k' x H. assert (Z.of_nat kn <> k') as NE. { intros <-. apply was_put_snoc in H as [(d & r & H)|[_ H]]; [discriminate|congruence]. }
      apply TT; [exact NE|]. apply K5. now rewrite (other_put _ _ _ (Z.of_nat kn)) in H by auto.
    + intros a u k' x d Hu Pu Cu. apply nth_error_list_set in Hu as [(_ & -> & _)|[_ Hu]]; [discriminate Pu|]. assert (Z.of_nat kn <> k') as NE.
      { intros <-. assert (piece_locked (Z.of_nat kn) ts = true) by (apply piece_locked_iff; exists a, u; rewrite Cu; auto). congruence. }
      rewrite (other_put _ _ _ (Z.of_nat kn)) by auto. destruct (K6 _ _ _ _ _ Hu Pu Cu) as [A B]. split; [exact A|]. now apply TT.
  - destruct (piece_locked k ts); [discriminate|]. unfold piece_at, bind, get_mem in N. cbn [w_mem forget_past] in N. destruct (if k <? 0 then _ else _); [|discriminate]. injection N as <- <-. apply G; try easy. constructor.
  - destruct (torrent_rlocked ts); [discriminate|]. injection N as <- <-. apply G; try easy. constructor.
  - (* first half of PutBlock *)
    destruct (K1 _ _ _ _ _ T Ec) as (Rk & Rt & Rd).
    destruct (piece_locked k ts) eqn:PLk; [discriminate|]. destruct (put_in_piece k b d (forget_past w)) as [w2 r] eqn:R.
    apply (put_in_piece_spec sha1 cfg env ok _ _ _ _ _ _ _ _ P0 PLk TO) in R. destruct r as [[]|e|]; [|destruct R as (-> & -> & R)|]; try discriminate N; injection N as <- <-.
    2:{ apply (GE k b d); auto; try discriminate.
        - intros u Hu Pu Q. apply In_nth_error in Hu as [a Hu]. assert (piece_locked k ts = true) by (apply piece_locked_iff; eauto). congruence.
        - destruct R as (kn & p & -> & Hp & B). split; [lia|]. rewrite Nat2Z.id. exists p. split; [exact Hp|]. exact B. }
    destruct R as (kn & p & bn & -> & Hp & Cp & -> & Bb & Hd & Hn & -> & _). cbn [w_mem w_fs forget_past] in Hp. cbn [events_of]. rewrite app_nil_r. split; [|constructor].
    set (w2 := with_mem (forget_past w) (with_pieces (w_mem w) (list_set kn (put_piece p bn d) (t_pieces (w_mem w))))) in *.
    assert (TT : forall k' x, there (w_mem w) k' x -> there (w_mem w2) k' x).
    { intros k' x. eapply (there_set cfg); [exact Hp|reflexivity|]. intros [B|[b B]]; [congruence|]. right. cbn. exists b. rewrite list_set_nth_neq; [exact B|]. intros ->. congruence. }
    assert (NB : ~ was_put (Z.of_nat kn) (BL * Z.of_nat bn) es).
    { intros H. apply K5 in H as (_ & p' & P' & B'). rewrite Nat2Z.id in P'. assert (p' = p) as -> by congruence. destruct B' as [B'|[b' B']]; [congruence|]. rewrite (block_quot env) in B'. congruence. }
    split; [apply KT|]. split; [|split; [|split; [|split]]].
    + intros k' p' j' b' Q1 Q2. cbn in Q1. apply nth_error_list_set in Q1 as [(-> & -> & _)|[_ Q1]]; [|eauto].
      cbn in Q2. apply nth_error_list_set in Q2 as [(-> & Q2 & _)|[_ Q2]]; [|eauto]. injection Q2 as ->. exact Rd.
    + intros k' p' Q1 Q2 Q3. rewrite (locked_take sha1 cfg env ok ts j t) by (auto; rewrite ?Ep; discriminate). unfold take. cbn [call_index th_call].
      destruct (Z.of_nat k' =? Z.of_nat kn) eqn:Ek; [reflexivity|]. cbn in Q1. rewrite list_set_nth_neq in Q1 by lia. eauto.
    + intros A. exfalso. assert (false = true); [|discriminate]. apply (A kn (put_piece p bn d)). cbn. eapply list_set_same_len; eauto.
    + intros k' x H. apply TT. now apply K5.
    + intros a u k' x d' Hu Pu Cu. apply nth_error_list_set in Hu as [(_ & -> & _)|[_ Hu]].
      * cbn [th_call] in Cu. assert (k' = Z.of_nat kn /\ x = BL * Z.of_nat bn) as [-> ->] by (split; congruence). split; [exact NB|]. split; [lia|]. rewrite Nat2Z.id. exists (put_piece p bn d). split; [cbn; eapply list_set_same_len; eauto|]. right. exists d. rewrite (block_quot env). cbn. eapply list_set_same_len; eauto.
      * destruct (K6 _ _ _ _ _ Hu Pu Cu) as [A B]. split; [exact A|now apply TT].
  - (* second half *)
    destruct TO as [Kr Ti]. destruct (torrent_rlocked ts); [discriminate|]. injection N as N. destruct (put_finish sha1 cfg env k (forget_past w)) as [w2 r] eqn:PF.
    assert (PLk : piece_locked k ts = true) by (apply piece_locked_iff; exists j, t; rewrite Ec; auto).
    destruct (piece_exists sha1 cfg env ok _ _ _ MI Kr) as [p P].
    rewrite <- (Z2Nat.id k) in PF, PLk by lia. pose proof (put_finish_spec sha1 cfg env ok _ base _ p _ _ _ P0 P PLk PF) as (NP & _ & _ & _ & Oth & NF & CO & FU).
    destruct (put_finish_more sha1 cfg env ok _ base _ p _ _ _ P0 P PLk PF) as (_ & CT & TP). rewrite Z2Nat.id in * by lia. cbn [w_mem forget_past] in *.
    assert (w2 = w1) as -> by (destruct r; cbn in N; congruence).
    pose proof I' as (_ & (MI' & MA' & _) & _). pose proof MI as (_ & MP & _). pose proof (MP _ _ P) as PO. pose proof PO as (_ & _ & _ & _ & _ & P6 & _). rewrite Z2Nat.id in P6 by lia. destruct (P6 PLk) as [Pc _].
    assert (HH : forall l data, pc_blocks p = Some l -> all_blocks l = Some data -> zlen data = piece_size i k -> sha1 data = piece_hash i k).
    { intros l data Bl Ad Zd. assert (Kr' : 0 <= Z.of_nat (Z.to_nat k) < n) by lia. destruct (piece_blocks sha1 cfg env ok _ _ _ _ Kr' PO Pc) as (B1 & _ & B3 & _). rewrite Z2Nat.id in * by lia.
      assert (Bo : blocks_of p = l) by (unfold blocks_of; now rewrite Bl). rewrite Bo in *. destruct (piece_range cfg ok k Kr) as [R1 _]. destruct (piece_size_eq cfg ok _ Kr) as [_ Hs]. destruct (num_blocks_spec (piece_size i k)) as [N1 N2]; [lia|].
      assert (Ed : data = slice c (k * PL + BL * 0) (zlen data)).
      { apply (all_blocks_slice (piece_size i k) _ l); [exact Ad|exact R1|lia|intros _; rewrite B1; lia|]. intros j' b' Q. rewrite Z.add_0_l. split; [now apply B3|].
        pose proof (K2 _ _ j' b' P) as Q2. rewrite Bo, Z2Nat.id in Q2 by lia. now apply Q2. }
      rewrite Z.mul_0_r, Z.add_0_r, Zd in Ed. rewrite Ed. destruct Wc as [_ Wk]. apply (Wk k Kr). }
    assert (r = Ok tt) as ->.
    { destruct r as [[]|e|]; [reflexivity| |easy]. exfalso. cbn in N. injection N as <-. cbn [events_of] in FN. inversion FN as [|? ? FN1 _]; subst.
      destruct (full_or p) as [Fu|Fu]; [|destruct (NF Fu); discriminate]. destruct Fu as (l & Bl & Cl). destruct (FU l Bl Cl) as (data & Ad & Zd & R). rewrite (HH l data Bl Ad Zd) in R.
      rewrite (proj2 (bytes_eqb_eq _ _) eq_refl) in R. subst e. destruct (FN1 _ _ eq_refl (or_introl eq_refl)) as (? & ? & ? & Q & _). discriminate Q. }
    cbn in N. injection N as <-. cbn [events_of]. split; [|constructor; [|constructor]; intros k' x' d' r' [= _ _ _ <-]; now left].
    assert (TT : forall k' x, there (w_mem w) k' x -> there (w_mem w1) k' x).
    { intros k' x H. destruct TP as [TP|TP]; [destruct H as (B & p' & P' & B'); split; [exact B|]; exists p'; rewrite TP; auto|]. eapply (there_set cfg); [exact P|exact TP| |exact H]. intros _. now left. }
    destruct (K6 _ _ _ _ _ T Ep Ec) as [NB TB].
    split; [apply KT|]. split; [|split; [|split; [|split]]].
    + intros k' p' j' b' Q1 Q2. destruct TP as [TP|TP]; rewrite TP in Q1; [eauto|]. apply nth_error_list_set in Q1 as [(-> & -> & _)|[_ Q1]]; [|eauto].
      cbn in Q2. apply nth_error_In, repeat_spec in Q2. discriminate.
    + intros k' p' Q1 Q2 Q3. destruct (Nat.eq_dec k' (Z.to_nat k)) as [->|NE].
      * exfalso. destruct TP as [TP|TP].
        -- rewrite TP in Q1. assert (p' = p) as -> by congruence. destruct Q3 as (l & Bl & Cl). destruct (FU l Bl Cl) as (data & Ad & Zd & R). rewrite (HH l data Bl Ad Zd) in R.
           rewrite (proj2 (bytes_eqb_eq _ _) eq_refl) in R. rewrite TP in MA'. assert (pc_coalesced p = true); [|congruence]. apply (MA' _ _ P). rewrite Z2Nat.id by lia. cbn [w_fs]. congruence.
        -- rewrite TP, (list_set_same_len _ _ _ p) in Q1 by exact P. injection Q1 as <-. discriminate Q2.
      * rewrite Oth in Q1 by exact NE. rewrite (locked_free sha1 cfg env ok ts j t) by (auto; discriminate). rewrite Ec. unfold free. cbn [call_index]. destruct (Z.of_nat k' =? k) eqn:Y; [lia|]. eauto.
    + intros A. assert (TC : t_complete (w_mem w1) = zlen (t_pieces (w_mem w1))).
      { destruct MI' as (_ & _ & _ & _ & _ & _ & M7). rewrite M7. unfold num_coalesced. f_equal. apply filter_all. intros p' Hp'. apply In_nth_error in Hp' as [k' Hp']. eauto. }
      destruct (CT (CO eq_refl TC)) as [[_ Y]|Y]; [exact Y|discriminate].
    + intros k' x H. apply was_put_snoc in H as [(d' & r' & H)|[H _]]; [injection H as <- <- <- <-; now apply TT|]. apply TT. now apply K5.
    + intros a u k' x d' Hu Pu Cu. apply nth_error_list_set in Hu as [(_ & -> & _)|[NE Hu]]; [discriminate Pu|].
      assert (k <> k'). { intros <-. elim NE. symmetry. eapply OH; [exact T|exact Hu|exact Ep|exact Pu|now rewrite Ec, Cu]. }
      rewrite (other_put _ _ _ k) by auto. destruct (K6 _ _ _ _ _ Hu Pu Cu) as [A B]. split; [exact A|now apply TT].
  - assert (w_mem w1 = w_mem w /\ q <> PutMid) as (B & C).
    { destruct (piece_locked k ts); [discriminate|]. injection N as N. pose proof (get_block_mem cfg env k b len (forget_past w)) as M2.
      destruct (get_block cfg env k b len (forget_past w)) as [w2 []]; cbn in N, M2; try discriminate N; injection N as <- <-; repeat split; auto; discriminate. }
    apply G; auto; try discriminate. destruct q; constructor; [exact Logic.I|constructor].
  - destruct (nth_error _ id) as [[[|]|]|]; try discriminate N; injection N as <- <-; apply G; try easy; now repeat constructor.
  - destruct (nth_error _ id) as [[[|]|]|]; try discriminate N; injection N as <- <-; apply G; try easy; now repeat constructor.
Qed.

(** Start leaves no blocks in memory. *)
Definition bare (m : mem) : Prop := Forall (fun p => pc_blocks p = None) (t_pieces m).
Definition stays_bare (m m' : mem) : Prop := bare m -> bare m'.
Lemma bare_same m m' : t_pieces m' = t_pieces m -> stays_bare m m'.
Proof. unfold stays_bare, bare. now intros ->. Qed.
Lemma complete_piece_bare k : keeps stays_bare (complete_piece k).
Proof.
  intros w. unfold complete_piece. unfold bind at 1. destruct (piece_at k w) as [w1 [p|e|]] eqn:P; [|pose proof (keeps_piece_at stays_bare (fun m H => H) k w) as X; rewrite P in X; exact X..].
  apply piece_at_inv in P as (-> & K & P). unfold bind at 1. destruct (deliver (pc_err p) None w) as [w1 [u|e|]] eqn:D; apply deliver_inv in D; [|destruct D|subst w1; now apply bare_same].
  destruct D as [D ->]. unfold set_piece, bind, get_mem, set_mem. cbn. destruct (bf_add _ _) as [b|]; cbn.
  all: intros B; unfold bare in *; cbn; apply Forall_forall; intros q Hq; apply In_nth_error in Hq as [a Ha]; apply nth_error_list_set in Ha as [(_ & -> & _)|[_ Ha]]; [reflexivity|];
       rewrite Forall_forall in B; apply B; eapply nth_error_In; eauto.
Qed.
Lemma complete_torrent_bare : keeps stays_bare complete_torrent.
Proof. intros w. apply bare_same. unfold complete_torrent, deliver, bind, get_mem, set_mem. cbn. destruct (nth_error _ _) as [[|]|]; reflexivity. Qed.
Lemma load_bare : keeps stays_bare (load cfg env).
Proof.
  assert (Rr : forall m, stays_bare m m) by (intros m H; exact H). assert (Rt : forall a b d, stays_bare a b -> stays_bare b d -> stays_bare a d) by (unfold stays_bare; auto).
  assert (KA : forall k, keeps stays_bare (add_downloaded k)) by (intros k w; now apply bare_same).
  assert (KC : forall m k, keeps stays_bare (complete_all m k)).
  { induction m as [|m IH]; intros k; cbn [complete_all]; [now apply keeps_ret|]. apply keeps_bind; [exact Rt|apply complete_piece_bare|intros _; apply IH]. }
  assert (KL : forall l, keeps stays_bare (load_entries cfg env l)).
  { induction l as [|x l IH]; cbn [load_entries]; [now apply keeps_ret|]. destruct (scan_piece_name x) as [ix|]; [|exact IH].
    apply keeps_bind; [exact Rt|now apply keeps_look|intros z]. apply keeps_bind; [exact Rt|apply KA|intros _]. apply keeps_bind; [exact Rt|apply complete_piece_bare|intros _; exact IH]. }
  unfold load. apply keeps_bind; [exact Rt|now apply keeps_look|intros [size|]].
  - apply keeps_bind; [exact Rt|apply KC|intros _]. apply keeps_bind; [exact Rt|apply complete_torrent_bare|intros _; apply KA].
  - apply keeps_bind; [exact Rt|now apply keeps_look|intros [l|]]; [|now apply keeps_ret].
    apply keeps_bind; [exact Rt|apply KL|intros _]. apply coalesce_pieces_keeps; auto. apply complete_torrent_bare.
Qed.
Lemma new_bare : bare (new_mem i).
Proof. unfold bare, new_mem. cbn [t_pieces]. generalize 0%nat. induction (i_pieces i) as [|h l IH]; intros z; cbn; [constructor|constructor; [reflexivity|apply IH]]. Qed.
Lemma hon_start base d t w ts es : inv base (Dead d t) -> exec (Dead d t) LStart = Some (Running w ts, es) -> hon (Running w ts) [] /\ es = [].
Proof using All.
  intros [[F _] _] E. cbn [disk_of] in F. unfold StorageSys.exec in E. pose proof (load_bare (booted cfg d t)) as B. destruct (load cfg env (booted cfg d t)) as [w1 r] eqn:L.
  destruct (load_spec sha1 cfg env ok _ _ _ _ F L) as ((_ & X) & _ & R). destruct r as [u|e|]; [|discriminate|contradiction R]. injection E as -> <- <-. split; [|reflexivity].
  destruct R as (M & _ & O & A). cbn [fst] in B. specialize (B new_bare). unfold bare in B. rewrite Forall_forall in B.
  split; [intros [|j]; discriminate|]. split; [|split; [|split; [|split]]].
  - intros k p j b P Q. unfold blocks_of in Q. rewrite (B p) in Q by (eapply nth_error_In; eauto). apply nth_error_In, repeat_spec in Q. discriminate.
  - intros k p P _ (l & Q & _). rewrite (B p) in Q by (eapply nth_error_In; eauto). discriminate.
  - intros All. apply A. intros k Hk. apply O; [exact Hk|]. destruct M as [MI _]. destruct (piece_exists sha1 cfg env ok _ _ _ MI Hk) as [p Hp]. exists p. split; [exact Hp|]. eapply All; eauto.
  - intros k x H. now apply was_put_nil in H.
  - intros [|j]; discriminate.
Qed.

Lemma right_puts_cons l ls : right_puts cfg c (l :: ls) -> right_puts cfg c [l] /\ right_puts cfg c ls.
Proof. intros R. split; intros k b d H; apply R; [destruct H as [H|[]]; now left|now right]. Qed.
Lemma right_puts_app ls ls' : right_puts cfg c (ls ++ ls') -> right_puts cfg c ls /\ right_puts cfg c ls'.
Proof. intros R. split; intros k b d H; apply R, in_or_app; auto. Qed.
Lemma hon_execs base ls : forall p es0 p' es, inv base p -> hinv p -> hon p es0 -> right_puts cfg c ls -> execs p ls = Some (p', es) -> (exists es1, hon p' es1) /\ Forall put_fine es.
Proof using All.
  induction ls as [|l ls IH]; cbn [StorageSys.execs]; intros p es0 p' es I Hi H R E; [injection E as <- <-; eauto|].
  destruct (exec p l) as [[p1 e1]|] eqn:E1; [|discriminate]. destruct (execs p1 ls) as [[p2 e2]|] eqn:E2; [|discriminate]. injection E as <- <-.
  apply right_puts_cons in R as [R1 R2]. pose proof (proj1 (exec_ok sha1 cfg env ok _ _ _ _ _ I E1)) as I1. pose proof (proj1 (exec_works sha1 cfg env ok W FF _ _ _ _ _ I Hi E1)) as H1.
  assert (X : (exists es1, hon p1 es1) /\ Forall put_fine e1).
  { destruct p as [w ts|d t].
    - destruct (hon_step _ _ _ _ _ _ _ I Hi H R1 E1) as [A B]. split; [eauto|exact B].
    - destruct l; try discriminate E1.
      + destruct p1 as [w1 ts1|d1 t1]; [destruct (hon_start _ _ _ _ _ _ I E1) as [A ->]; eauto|]. unfold StorageSys.exec in E1. destruct (load cfg env (booted cfg d t)) as [w1 []]; inversion E1; subst; (split; [exists []; exact Logic.I|constructor]).
      + unfold StorageSys.exec, crash_at, option_map in E1. destruct (nth_error (w_past _) _); [|discriminate E1]. injection E1 as <- <-. split; [exists []; exact Logic.I|constructor]. }
  destruct X as [[es1 X1] X2]. destruct (IH _ _ _ _ I1 H1 X1 R2 E2) as [Y1 Y2]. split; [exact Y1|]. now apply Forall_app.
Qed.
Lemma hon_runs base ls : forall w ts es p' es', inv base (Running w ts) -> hinv (Running w ts) -> hon (Running w ts) es -> right_puts cfg c ls -> Forall same_run ls -> execs (Running w ts) ls = Some (p', es') -> hon p' (es ++ es').
Proof using All.
  induction ls as [|l ls IH]; cbn [StorageSys.execs]; intros w ts es p' es' I Hi K R S E.
  - injection E as <- <-. now rewrite app_nil_r.
  - inversion S; subst. apply right_puts_cons in R as [R1 R2]. destruct (exec (Running w ts) l) as [[p1 e1]|] eqn:E1; [|discriminate]. destruct (execs p1 ls) as [[p2 e2]|] eqn:E2; [|discriminate]. injection E as <- <-.
    destruct (hon_step _ _ _ _ _ _ _ I Hi K R1 E1) as [K1 _]. pose proof (proj1 (exec_ok sha1 cfg env ok _ _ _ _ _ I E1)) as I1. pose proof (proj1 (exec_works sha1 cfg env ok W FF _ _ _ _ _ I Hi E1)) as Hi1. destruct p1 as [w1 ts1|f1 t1].
    + rewrite app_assoc. eapply IH; eassumption.
    + apply (dead_stays sha1 cfg env) in E2 as ->; [exact Logic.I|assumption].
Qed.

Lemma right_accepted f tick ls p es k b d r : untouched cfg f -> roomy cfg env f -> right_puts cfg c ls ->
  execs (Dead f tick) ls = Some (p, es) -> In (Ret (CPut k b d) r) es -> r = RNil \/ r = RErr EBlockExists.
Proof using All.
  intros U Rm R E Hin. destruct (hon_execs f ls _ [] _ _ (inv_start sha1 cfg env ok f tick U) (hinv_start cfg env f tick Rm) Logic.I R E) as [_ F].
  rewrite Forall_forall in F. exact (F _ Hin _ _ _ _ eq_refl).
Qed.

Lemma put_stored base w ts es k : inv base (Running w ts) -> hon (Running w ts) es -> 0 <= k < n ->
  (forall x y, tile (piece_size i k) x y -> was_put k x es) -> on_disk cfg (w_fs w) k <> None.
Proof using All.
  intros (HJ & (MI & MA & MT) & OH & TO) (K1 & K2 & K3 & K4 & K5 & K6) Hk Hall.
  destruct (piece_exists sha1 cfg env ok _ _ _ MI Hk) as [p Hp]. destruct (pc_coalesced p) eqn:Hc.
  { apply (MA _ _ Hp) in Hc. now rewrite Z2Nat.id in Hc by lia. }
  exfalso. destruct (piece_size_eq cfg ok _ Hk) as [_ Hs]. destruct (num_blocks_spec (piece_size i k)) as [N1 N2]; [lia|].
  pose proof MI as (_ & MP & _). pose proof (MP _ _ Hp) as PO. assert (Hk' : 0 <= Z.of_nat (Z.to_nat k) < n) by (rewrite Z2Nat.id; lia). destruct (piece_blocks sha1 cfg env ok _ _ _ _ Hk' PO Hc) as (B1 & B2 & B3 & B4). rewrite Z2Nat.id in * by lia.
  assert (Fu : full p).
  { apply B4. unfold num_some. f_equal. apply filter_all. intros o Ho. apply In_nth_error in Ho as [j Hj]. pose proof (nth_error_Some_lt _ _ _ Hj) as Lj.
    assert (T : tile (piece_size i k) (BL * Z.of_nat j) (block_size (piece_size i k) (Z.of_nat j))).
    { apply tiling_tile; [lia|]. unfold tiling. apply in_map_iff. exists j. split; [reflexivity|]. apply in_seq. unfold zlen in B1. lia. }
    destruct (K5 _ _ (Hall _ _ T)) as (_ & p' & Hp' & B). rewrite Hp in Hp'. injection Hp' as <-. destruct B as [B|[b Hb]]; [congruence|].
    rewrite (block_quot env), Hj in Hb. injection Hb as ->. reflexivity. }
  pose proof (K3 _ _ Hp Hc Fu) as Lk. rewrite Z2Nat.id in Lk by lia.
  unfold piece_locked in Lk. apply existsb_exists in Lk as (u & Hu & Pu). apply In_nth_error in Hu as [j Hj]. destruct (th_pc u) eqn:Pc; try discriminate. apply Z.eqb_eq in Pu.
  pose proof (TO _ _ Hj) as TU. unfold thread_ok in TU. rewrite Pc in TU. destruct (th_call u) as [k' x dd|? ? ?|?|?|] eqn:Cu; try contradiction. cbn in Pu. subst k'. destruct TU as [_ TU].
  destruct (K6 _ _ _ _ _ Hj Pc Cu) as [NB _]. apply NB. eapply Hall; eauto.
Qed.

Section Run.
Variables (f : fs) (tick : nat) (ls : list label) (d : fs) (t : nat) (es : list event) (w : world) (ts : list thread) (es1 : list event)
  (ls2 : list label) (w2 : world) (ts2 : list thread) (es2 : list event).
Hypothesis U : untouched cfg f.
Hypothesis Rm : roomy cfg env f.
Hypothesis R : right_puts cfg c ls2.
Hypothesis E : execs (Dead f tick) ls = Some (Dead d t, es).
Hypothesis E1 : exec (Dead d t) LStart = Some (Running w ts, es1).
Hypothesis S2 : Forall same_run ls2.
Hypothesis E2 : execs (Running w ts) ls2 = Some (Running w2 ts2, es2).
Lemma run_hon : inv f (Running w2 ts2) /\ hon (Running w2 ts2) es2 /\ ext cfg d (w_fs w2).
Proof using All.
  destruct (execs_works sha1 cfg env ok W FF f _ _ _ _ (inv_start sha1 cfg env ok f tick U) (hinv_start cfg env f tick Rm) E) as (I & H & _).
  pose proof (proj1 (exec_ok sha1 cfg env ok _ _ _ _ _ I E1)) as I1. pose proof (proj1 (exec_works sha1 cfg env ok W FF _ _ _ _ _ I H E1)) as H1.
  destruct (hon_start _ _ _ _ _ _ I E1) as [K _]. split; [eapply runs_inv; eauto|]. split; [exact (hon_runs _ _ _ _ _ _ _ I1 H1 K R S2 E2)|].
  exact (proj1 (proj2 (run_kept sha1 cfg env ok _ _ _ _ _ _ _ _ _ _ _ _ _ U E E1 S2 E2))).
Qed.
Lemma right_piece k : 0 <= k < n -> (forall x y, tile (piece_size i k) x y -> was_put k x es2) -> on_disk cfg (w_fs w2) k <> None.
Proof using All. destruct run_hon as (I & K & _). eapply put_stored; eauto. Qed.
Lemma right_torrent : (forall k, 0 <= k < n -> on_disk cfg d k <> None \/ forall x y, tile (piece_size i k) x y -> was_put k x es2) ->
  (exists c', content cfg (w_fs w2) = Some c' /\ whole sha1 cfg c') /\
  forall j id, nth_error ts2 j = Some {| th_call := CWaitAll; th_pc := Waiting id |} -> returns_next sha1 cfg env (Running w2 ts2) j CWaitAll RNil.
Proof using All.
  intros A. destruct run_hon as (I & K & X). pose proof I as ((F & _) & (MI & MA & MT) & OH & TO). pose proof K as (_ & _ & _ & K4 & _).
  assert (TC : t_coalesced (w_mem w2) = true).
  { apply K4. intros k p Hp. apply (MA _ _ Hp). assert (Hk : 0 <= Z.of_nat k < n) by (apply nth_error_Some_lt in Hp; destruct MI as (M1 & _); unfold num_pieces, zlen; lia).
    destruct (A _ Hk) as [D|D]; [|eapply put_stored; eauto]. destruct X as (X & _). destruct (on_disk cfg d (Z.of_nat k)) as [b|] eqn:Eb; [|congruence]. rewrite (X _ _ Hk Eb). discriminate. }
  split.
  - specialize (MT TC). destruct (content cfg (w_fs w2)) as [c'|] eqn:C; [|congruence]. exists c'. split; [reflexivity|]. eapply content_whole; eauto.
  - intros j id T. pose proof (TO _ _ T) as TO'. cbn in TO'. subst id. destruct MI as (_ & _ & _ & Fu & _). rewrite TC in Fu. exact (delivered_returns _ _ _ _ _ _ _ _ _ T Fu).
Qed.
End Run.
End Honest.
