(** What an I/O error in PutBlock leaves behind. *)
From Verif Require Import GoBase GoBaseProofs Bitfield BitfieldSpec Metainfo MetainfoSpec
  Fs Storage StorageSys StorageSpec StorageSysSpec StorageMemSpec StorageWaitSpec StorageFsProofs StorageIoProofs StorageProofs StorageLoadProofs StorageSysProofs StorageClaimProofs StorageMoreProofs StorageWaitProofs StorageRetrySpec.

Section Retry.
Variable sha1 : bytes -> bytes.
Variable cfg : config.
Variable env : nat -> choice.
Hypothesis ok : config_ok cfg.
Notation exec := (StorageSys.exec sha1 cfg env).
Notation execs := (StorageSys.execs sha1 cfg env).
Notation i := (c_info cfg).
Notation n := (num_pieces i).
Notation inv := (StorageSysProofs.inv sha1 cfg).
Notation PI := (StorageProofs.PI sha1 cfg).

(** ** A piece that is settled accepts nothing. *)
Lemma settled_shape base w ts k p v : inv base (Running w ts) -> nth_error (t_pieces (w_mem w)) k = Some p ->
  nth_error (t_futures (w_mem w)) (pc_err p) = Some (Some v) -> (pc_coalesced p = true \/ full p) /\ piece_locked (Z.of_nat k) ts = false.
Proof using sha1 cfg env ok.
  intros (_ & (((_ & M & _) & _) & _)) Hp Hf. destruct (M _ _ Hp) as (_ & _ & _ & _ & _ & B & _ & F2 & _).
  split.
  - destruct (pc_coalesced p) eqn:C; [now left|]. right. destruct (full_dec sha1 cfg env ok p) as [F|F]; [exact F|]. rewrite F2 in Hf; [discriminate|reflexivity|contradiction].
  - destruct (piece_locked (Z.of_nat k) ts) eqn:L; [|reflexivity]. destruct (B eq_refl) as [C _]. rewrite F2 in Hf; [discriminate|exact C|auto].
Qed.
Lemma next_settled base w ts j t k o : inv base (Running w ts) -> settled w k -> 0 <= k -> nth_error ts j = Some t -> next sha1 cfg env (forget_past w) ts t = Some o ->
  match o with
  | Goes w' q => settled w' k /\ (forall x d, th_call t = CPut k x d -> q <> Done RNil) /\ (th_call t = CReset k -> forall r, q <> Done r)
  | Panics _ => True
  end.
Proof using sha1 cfg env ok.
  intros I (p & v & Hp & Hf) Hk Hj N. destruct (settled_shape _ _ _ _ _ _ I Hp Hf) as (Sp & Lk). rewrite Z2Nat.id in Lk by exact Hk.
  pose proof I as (HJ & HM & O & T). pose proof (T _ _ Hj) as TO. cbn [disk_of] in HJ.
  assert (P0 : PI (fun k => piece_locked k ts) base (forget_past w)) by (split; [exact HJ|]; split; [constructor|exact HM]).
  assert (SAME : forall w', w_mem w' = w_mem w -> settled w' k) by (intros w' E; exists p, v; rewrite E; auto).
  assert (GET : forall k b l w' r, get_block cfg env k b l (forget_past w) = (w', r) -> w_mem w' = w_mem w).
  { intros k0 b l w' r G. pose proof (get_block_mem cfg env k0 b l (forget_past w)) as X. rewrite G in X. exact X. }
  unfold next in N. cbn [forget_past w_mem] in N. unfold thread_ok in TO.
  destruct (th_pc t) as [| | | |id|r] eqn:Ep.
  - destruct (th_call t) as [k' b d|k' b l|k'|k'|] eqn:Ec.
    + injection N as <-. destruct (check_block_size i k' b (zlen d)) as [e'|]; [|destruct (t_coalesced (w_mem w))]; (split; [now apply SAME|]; split; [intros ? ? _; discriminate|discriminate]).
    + destruct (t_coalesced (w_mem w)); injection N as <-.
      * destruct (get_block cfg env k' b l (forget_past w)) as [w' [r|r|]] eqn:G; cbn; auto; (split; [apply SAME; eapply GET; eauto|]; split; [intros ? ? ?; discriminate|discriminate]).
      * destruct (piece_at k' (forget_past w)) as [? [?|?|]]; cbn; auto. split; [now apply SAME|]. split; [intros ? ? ?; discriminate|discriminate].
    + destruct (piece_locked k' ts) eqn:Lk'; [discriminate|]. injection N as <-. destruct (reset_piece k' (forget_past w)) as [w' r] eqn:R.
      apply (reset_piece_spec sha1 cfg env ok _ _ _ _ _ _ P0 Lk') in R. destruct r as [u|e'|]; cbn [of_unit]; [| destruct R |exact Logic.I].
      destruct R as (k'' & p' & -> & Hp' & Cp' & Fp' & _ & Fr & _ & _ & L'). cbn [forget_past w_mem] in *.
      assert (Hne : Z.to_nat k <> k'') by (intros <-; assert (p' = p) by congruence; subst p'; destruct Sp; [congruence|contradiction]).
      split; [|split; [discriminate|intros [= Ek]; exfalso; lia]]. exists p, v. rewrite Fr by exact Hne. split; [exact Hp|]. destruct L' as (_ & _ & L' & _). now apply L'.
    + destruct (piece_locked k' ts); [discriminate|]. injection N as <-. destruct (piece_at k' (forget_past w)) as [? [?|?|]]; cbn; auto.
      split; [now apply SAME|]. split; [intros ? ? ?; discriminate|discriminate].
    + destruct (torrent_rlocked ts); [discriminate|]. injection N as <-. split; [now apply SAME|]. split; [intros ? ? ?; discriminate|discriminate].
  - destruct (th_call t) as [k' b d|k' b l|k'|k'|] eqn:Ec; try contradiction. destruct (piece_locked k' ts) eqn:Lk'; [discriminate|]. injection N as <-.
    destruct (put_in_piece k' b d (forget_past w)) as [w' r] eqn:R. apply (put_in_piece_spec sha1 cfg env ok _ _ _ _ _ _ _ _ P0 Lk' TO) in R. destruct r as [u|e'|]; [| |exact Logic.I].
    + destruct R as (k'' & p' & q & -> & Hp' & Cp' & _ & _ & _ & Hb & -> & _). cbn [forget_past w_mem with_mem with_pieces t_pieces t_futures] in *.
      split; [|split; [intros ? ? ?; discriminate|discriminate]]. exists p, v. cbn. split; [|exact Hf]. rewrite list_set_nth_neq; [exact Hp|].
      intros ->. assert (p' = p) by congruence. subst p'. destruct Sp as [Sp|Sp]; [congruence|]. exact (full_blocks sha1 cfg env ok _ _ _ _ _ q I Hp Cp' Sp Hb).
    + destruct R as (-> & -> & _). split; [now apply SAME|]. split; [intros ? ? ?; discriminate|discriminate].
  - destruct (th_call t) as [k' b d|k' b l|k'|k'|] eqn:Ec; try contradiction. destruct (torrent_rlocked ts); [discriminate|]. injection N as <-. destruct TO as (Dk & _).
    assert (Lk' : piece_locked k' ts = true) by (apply piece_locked_iff; exists j, t; rewrite Ep, Ec; auto).
    destruct (piece_exists sha1 cfg env ok _ _ k' (proj1 HM) Dk) as [p' Hp'].
    destruct (put_finish sha1 cfg env k' (forget_past w)) as [w' r] eqn:R. rewrite <- (Z2Nat.id k') in R, Lk' by lia.
    apply (put_finish_spec sha1 cfg env ok (fun k => piece_locked k ts) _ (Z.to_nat k') p' _ _ _ P0 Hp' Lk') in R.
    rewrite (Z2Nat.id k') in Lk' by lia. destruct R as (_ & _ & L' & _ & Fr & _).
    assert (Hne : Z.to_nat k <> Z.to_nat k') by (intros E; assert (k = k') by lia; congruence).
    assert (FA : settled w' k). { exists p, v. rewrite Fr by exact Hne. split; [exact Hp|]. destruct L' as (_ & _ & L' & _). now apply L'. }
    destruct r as [u|e'|]; cbn [of_unit]; [| |exact Logic.I]; (split; [exact FA|]; split; [intros ? ? [= -> _ _]; congruence|discriminate]).
  - destruct (th_call t) as [k' b d|k' b l|k'|k'|] eqn:Ec; try contradiction. destruct (piece_locked k' ts); [discriminate|]. injection N as <-.
    destruct (get_block cfg env k' b l (forget_past w)) as [w' [r|r|]] eqn:G; cbn; auto; (split; [apply SAME; eapply GET; eauto|]; split; [intros ? ? ?; discriminate|discriminate]).
  - destruct (nth_error (t_futures (w_mem w)) id) as [[[e'|]|]|] eqn:Fu; try discriminate; injection N as <-; (split; [now apply SAME|]); destruct (th_call t); try contradiction; (split; [intros ? ? ?; discriminate|discriminate]).
  - discriminate.
Qed.
Lemma settled_forever base w ts k ls p es : inv base (Running w ts) -> settled w k -> 0 <= k -> Forall same_run ls -> execs (Running w ts) ls = Some (p, es) -> Forall (refused k) es.
Proof using sha1 cfg env ok.
  revert w ts p es. induction ls as [|l ls IH]; intros w ts p es I F Hk R E; cbn [StorageSys.execs] in E.
  - injection E as <- <-. constructor.
  - apply Forall_cons_iff in R as [R Rs]. destruct (exec (Running w ts) l) as [[p1 e1]|] eqn:E1; [|discriminate].
    destruct (execs p1 ls) as [[p2 e2]|] eqn:E2; [|discriminate]. injection E as <- <-.
    pose proof (exec_ok sha1 cfg env ok _ _ _ _ _ I E1) as (I1 & _).
    assert (G : Forall (refused k) e1 /\ match p1 with Running w' _ => settled w' k | Dead _ _ => True end).
    { destruct l as [c|j| | | |]; try contradiction.
      - injection E1 as <- <-. split; [constructor|exact F].
      - apply step_shape in E1 as (t & o & Hj & N & E1). pose proof (next_settled _ _ _ _ _ _ _ I F Hk Hj N) as NF.
        destruct o as [w' q|w']; destruct E1 as [-> ->]; [|split; constructor].
        destruct NF as (F' & NP & NR). split; [|exact F']. unfold events_of. destruct q as [| | | | |r]; try constructor; [|constructor].
        unfold refused. destruct (th_call t) as [k' b d|k' b len|k'|k'|] eqn:Ec; try exact Logic.I.
        + destruct r; try exact Logic.I. intros ->. now apply (NP b d).
        + intros ->. now apply (NR eq_refl r). }
    destruct G as [G1 G2]. rewrite Forall_app. split; [exact G1|]. destruct p1 as [w1 ts1|f1 t1].
    + exact (IH _ _ _ _ I1 G2 Hk Rs E2).
    + destruct ls as [|l' ls]; cbn in E2; [injection E2 as <- <-; constructor|]. apply Forall_cons_iff in Rs as [R' _]. destruct l'; try contradiction; discriminate.
Qed.

(** ** The step that reports the I/O error. *)
Lemma io_step base w ts j p es k b d : inv base (Running w ts) -> exec (Running w ts) (LStep j) = Some (p, es) -> In (Ret (CPut k b d) (RErr EIO)) es ->
  exists w' ts' q, p = Running w' ts' /\ 0 <= k < n /\ nth_error (t_pieces (w_mem w)) (Z.to_nat k) = Some q /\ piece_locked (Z.of_nat (Z.to_nat k)) ts = true /\
    put_finish sha1 cfg env (Z.of_nat (Z.to_nat k)) (forget_past w) = (w', Err EIO).
Proof using sha1 cfg env ok.
  intros I E R. apply step_shape in E as (t & o & T & N & E). destruct o as [w1 q|w1]; destruct E as [-> ->]; [|contradiction].
  destruct q; cbn in R; try contradiction. destruct R as [R|[]]. injection R as Ec Er. pose proof (proj2 (proj2 (proj2 I)) _ _ T) as TO. unfold next in N. unfold thread_ok in TO.
  rewrite Ec in *. subst r. destruct (th_pc t) eqn:Ep; try discriminate N; try contradiction TO; cbn [w_mem forget_past] in N.
  - exfalso. destruct (check_block_size _ _ _ _) eqn:CB; [injection N as _ N; subst|destruct (t_coalesced _); discriminate N].
    unfold check_block_size in CB. repeat match type of CB with context [if ?c then _ else _] => destruct c; try discriminate CB end.
  - exfalso. destruct (piece_locked k ts); [discriminate|]. destruct (put_in_piece k b d (forget_past w)) as [w2 [u|y|]] eqn:PP; try discriminate N. injection N as _ ->.
    unfold put_in_piece, bind at 1 in PP. destruct (piece_at k (forget_past w)) as [w3 [p'|y|]] eqn:PA; [|unfold piece_at, bind, get_mem in PA; destruct (if k <? 0 then _ else _); discriminate|discriminate].
    destruct (pc_coalesced p'); [discriminate|]. destruct (match pc_blocks p' with Some l => _ | None => _ end); [|discriminate].
    destruct (if _ <? 0 then None else _) as [[|]|]; discriminate.
  - destruct TO as [K TI]. destruct (torrent_rlocked ts); [discriminate|]. injection N as N. destruct (put_finish sha1 cfg env k (forget_past w)) as [w2 r] eqn:PF.
    destruct r as [u|y|]; try discriminate N. cbn in N. injection N as -> ->.
    assert (piece_locked k ts = true) as PL by (apply piece_locked_iff; exists j, t; rewrite Ec; auto).
    pose proof I as (_ & HM & _). destruct (piece_exists sha1 cfg env ok _ _ k (proj1 HM) K) as [p' Hp'].
    eexists _, _, p'. split; [reflexivity|]. rewrite Z2Nat.id by lia. auto.
Qed.
Lemma io_settles base w ts j p es k b d : inv base (Running w ts) -> exec (Running w ts) (LStep j) = Some (p, es) -> In (Ret (CPut k b d) (RErr EIO)) es ->
  exists w' ts', p = Running w' ts' /\ settled w' k /\ 0 <= k < n.
Proof using sha1 cfg env ok.
  intros I E R. destruct (io_step _ _ _ _ _ _ _ _ _ I E R) as (w' & ts' & q & -> & K & Q & L & PF). exists w', ts'. split; [reflexivity|]. split; [|exact K].
  destruct I as (HJ & HM & _). assert (P0 : PI (fun k => piece_locked k ts) base (forget_past w)) by (split; [exact HJ|]; split; [constructor|exact HM]).
  destruct (put_finish_more sha1 cfg env ok _ base _ q _ _ _ P0 Q L PF) as (D & _ & PS). destruct (D EIO eq_refl) as [v V].
  destruct PS as [PS|PS]; [exists q, v|exists (done_piece q), v]; rewrite PS; (split; [|exact V]); [exact Q|]. cbn. now apply list_set_nth_eq with (1 := Q) || (eapply list_set_same_len; eauto).
Qed.
Lemma refused_after_io f tick ls w ts es j p1 es1 k b d ls2 p2 es2 : untouched cfg f -> execs (Dead f tick) ls = Some (Running w ts, es) ->
  exec (Running w ts) (LStep j) = Some (p1, es1) -> In (Ret (CPut k b d) (RErr EIO)) es1 ->
  Forall same_run ls2 -> execs p1 ls2 = Some (p2, es2) -> Forall (refused k) es2.
Proof using sha1 cfg env ok.
  intros U E E1 H R E2. apply (execs_inv sha1 cfg env ok) in E; [|exact U]. pose proof (exec_ok sha1 cfg env ok _ _ _ _ _ E E1) as (I1 & _).
  destruct (io_settles _ _ _ _ _ _ _ _ _ E E1 H) as (w' & ts' & -> & F & Hk). exact (settled_forever _ _ _ _ _ _ _ I1 F (proj1 Hk) R E2).
Qed.

(** ** All pieces there, the torrent not assembled. *)
Lemma stuck_facts base w ts : inv base (Running w ts) -> all_stored cfg w -> torrent_waits w ->
  t_coalesced (w_mem w) = false /\ (forall k p, nth_error (t_pieces (w_mem w)) k = Some p -> pc_coalesced p = true /\ nth_error (t_futures (w_mem w)) (pc_err p) = Some (Some None)) /\
  (forall k, piece_locked k ts = true -> ~ 0 <= k < n).
Proof using sha1 cfg env ok.
  intros (_ & (MI & _) & _) A W. pose proof MI as (_ & MP & _ & TE & _ & MB & _). unfold torrent_waits in W.
  assert (C : forall k p, nth_error (t_pieces (w_mem w)) k = Some p -> pc_coalesced p = true).
  { intros k p P. pose proof (piece_bound sha1 cfg env ok _ _ _ _ MI P) as B. apply A in B. apply MB in B as (_ & p' & P' & Cp). rewrite Nat2Z.id in P'. congruence. }
  split; [destruct (t_coalesced (w_mem w)); [congruence|reflexivity]|]. split.
  - intros k p P. pose proof (C _ _ P) as Cp. split; [exact Cp|]. destruct (MP _ _ P) as (_ & _ & _ & _ & _ & _ & F & _). now apply F.
  - intros k L B. destruct (piece_exists sha1 cfg env ok _ _ k MI B) as [p P]. destruct (MP _ _ P) as (_ & _ & _ & _ & _ & F & _). rewrite Z2Nat.id in F by lia. destruct (F L) as [X _].
    rewrite (C _ _ P) in X. discriminate.
Qed.
Lemma stuck_next base w ts j t o : inv base (Running w ts) -> all_stored cfg w -> torrent_waits w -> nth_error ts j = Some t -> next sha1 cfg env (forget_past w) ts t = Some o ->
  match o with
  | Goes w' q => w_mem w' = w_mem w /\ w_fs w' = w_fs w /\ Forall no_way_on (events_of (th_call t) q)
  | Panics w' => w_fs w' = w_fs w
  end.
Proof using sha1 cfg env ok.
  intros I A W T N. destruct (stuck_facts _ _ _ I A W) as (TC & PC & LK). pose proof (proj2 (proj2 (proj2 I)) _ _ T) as TO. unfold next in N. unfold thread_ok in TO.
  cbn [w_mem forget_past] in N.
  assert (GET : forall k b l, w_mem (fst (get_block cfg env k b l (forget_past w))) = w_mem w /\ w_fs (fst (get_block cfg env k b l (forget_past w))) = w_fs w)
    by (intros k b l; split; [exact (get_block_mem cfg env k b l (forget_past w))|exact (get_block_fs cfg env k b l (forget_past w))]).
  assert (PA : forall k, piece_at k (forget_past w) = (forget_past w, Panic) \/ exists p, piece_at k (forget_past w) = (forget_past w, Ok p) /\ nth_error (t_pieces (w_mem w)) (Z.to_nat k) = Some p).
  { intros k. unfold piece_at, bind, get_mem. cbn [w_mem forget_past]. destruct (k <? 0); [now left|]. destruct (nth_error (t_pieces (w_mem w)) (Z.to_nat k)) as [q|] eqn:Q; [|now left]. right. exists q. auto. }
  destruct (th_pc t) as [| | | |id|r] eqn:Ep.
  - destruct (th_call t) as [k' b d|k' b l|k'|k'|] eqn:Ec.
    + injection N as <-. destruct (check_block_size i k' b (zlen d)) as [e'|]; [|rewrite TC]; cbn; repeat split; repeat constructor.
    + rewrite TC in N. injection N as <-. destruct (PA k') as [->|(p & -> & _)]; cbn; repeat split; constructor.
    + destruct (piece_locked k' ts); [discriminate|]. injection N as <-. unfold reset_piece, bind at 1. destruct (PA k') as [->|(p & -> & P)]; [reflexivity|].
      unfold bind at 1. unfold deliver, bind, get_mem. cbn [w_mem forget_past]. rewrite (proj2 (PC _ _ P)). reflexivity.
    + destruct (piece_locked k' ts); [discriminate|]. injection N as <-. destruct (PA k') as [->|(p & -> & _)]; cbn; repeat split; constructor.
    + destruct (torrent_rlocked ts); [discriminate|]. injection N as <-. cbn. repeat split; constructor.
  - destruct (th_call t) as [k' b d|k' b l|k'|k'|] eqn:Ec; try contradiction. destruct (piece_locked k' ts) eqn:Lk'; [discriminate|]. injection N as <-.
    unfold put_in_piece, bind at 1. destruct (PA k') as [->|(p & -> & P)]; [reflexivity|]. rewrite (proj1 (PC _ _ P)). cbn. repeat split; repeat constructor.
  - exfalso. destruct (th_call t) as [k' b d|k' b l|k'|k'|] eqn:Ec; try contradiction. destruct TO as (Dk & _). apply (LK k'); [|exact Dk].
    apply piece_locked_iff. exists j, t. rewrite Ep, Ec. auto.
  - destruct (th_call t) as [k' b d|k' b l|k'|k'|] eqn:Ec; try contradiction. destruct (piece_locked k' ts); [discriminate|]. injection N as <-.
    destruct (GET k' b l) as [G1 G2]. destruct (get_block cfg env k' b l (forget_past w)) as [w' [r|r|]]; cbn in *; repeat split; auto; repeat constructor.
  - destruct (th_call t) as [k' b d|k' b l|k'|k'|] eqn:Ec; try contradiction.
    + destruct (nth_error (t_futures (w_mem w)) id) as [[[e'|]|]|]; try discriminate; injection N as <-; cbn; repeat split; repeat constructor.
    + subst id. unfold torrent_waits in W. rewrite W in N. discriminate.
  - discriminate.
Qed.
Lemma stuck_forever base w ts ls p es : inv base (Running w ts) -> all_stored cfg w -> torrent_waits w -> Forall same_run ls -> execs (Running w ts) ls = Some (p, es) ->
  disk_of p = w_fs w /\ Forall no_way_on es.
Proof using sha1 cfg env ok.
  revert w ts p es. induction ls as [|l ls IH]; intros w ts p es I A W R E; cbn [StorageSys.execs] in E.
  - injection E as <- <-. split; [reflexivity|constructor].
  - apply Forall_cons_iff in R as [R Rs]. destruct (exec (Running w ts) l) as [[p1 e1]|] eqn:E1; [|discriminate].
    destruct (execs p1 ls) as [[p2 e2]|] eqn:E2; [|discriminate]. injection E as <- <-.
    pose proof (exec_ok sha1 cfg env ok _ _ _ _ _ I E1) as (I1 & _). rewrite Forall_app.
    destruct l as [c|j| | | |]; try contradiction.
    + injection E1 as <- <-. destruct (IH _ _ _ _ I1 A W Rs E2) as [X Y]. auto.
    + apply step_shape in E1 as (t & o & Hj & N & E1). pose proof (stuck_next _ _ _ _ _ _ I A W Hj N) as NF.
      destruct o as [w' q|w']; destruct E1 as [-> ->].
      * destruct NF as (F1 & F2 & F3).
        assert (A' : all_stored cfg w') by (unfold all_stored, advertised; rewrite F1; exact A). assert (W' : torrent_waits w') by (unfold torrent_waits; rewrite F1; exact W).
        destruct (IH _ _ _ _ I1 A' W' Rs E2) as [X Y]. rewrite X. auto.
      * destruct ls as [|l' ls]; cbn in E2; [injection E2 as <- <-; cbn; auto|]. apply Forall_cons_iff in Rs as [R' _]. destruct l'; try contradiction; discriminate.
Qed.
Lemma never_assembled f tick ls w ts es ls2 p2 es2 : untouched cfg f -> execs (Dead f tick) ls = Some (Running w ts, es) -> all_stored cfg w -> torrent_waits w ->
  Forall same_run ls2 -> execs (Running w ts) ls2 = Some (p2, es2) -> disk_of p2 = w_fs w /\ Forall no_way_on es2.
Proof using sha1 cfg env ok. intros U E. apply (execs_inv sha1 cfg env ok) in E; [|exact U]. now apply stuck_forever with (1 := E). Qed.

(** ... which is where an I/O error while assembling the torrent leads. *)
Definition err_same {A} (a : io A) : Prop := forall w w' e, a w = (w', Err e) -> w_mem w' = w_mem w.
Lemma same_r : forall m, same_mem m m. Proof. reflexivity. Qed.
Lemma same_t : forall a b c, same_mem a b -> same_mem b c -> same_mem a c. Proof. unfold same_mem. congruence. Qed.
Lemma err_bind {A B} (a : io A) (g : A -> io B) : keeps same_mem a -> (forall x, err_same (g x)) -> err_same (bind a g).
Proof. intros Ka G w w' e E. unfold bind in E. specialize (Ka w). unfold same_mem in Ka. destruct (a w) as [w1 [x|y|]]; cbn in Ka; [rewrite (G x _ _ _ E); congruence|injection E as <- _; congruence|discriminate]. Qed.
Lemma err_finally {A} (a : io A) c : err_same a -> keeps same_mem c -> err_same (finally a c).
Proof.
  intros Ga Kc w w' e E. unfold finally in E. destruct (a w) as [w1 r] eqn:E1. specialize (Kc w1). unfold same_mem in Kc. destruct (c w1) as [w2 x]. injection E as <- ->. cbn in Kc.
  rewrite <- (Ga _ _ _ E1). congruence.
Qed.
Lemma err_complete : err_same complete_torrent.
Proof. intros w w' e E. unfold complete_torrent, bind, get_mem, set_mem, deliver in E. cbn in E. unfold bind, get_mem in E. destruct (nth_error _ _) as [[|]|] in E; discriminate. Qed.
Lemma err_coalesce_pieces : err_same (coalesce_pieces cfg env).
Proof.
  unfold coalesce_pieces. apply err_bind; [intros w; reflexivity|intros m]. destruct (negb _); [discriminate|]. pose proof same_r as Sr. pose proof same_t as St.
  destruct (i_files _).
  - unfold coalesce_single. apply err_bind; [now apply keeps_act|intros _]. apply err_bind; [now apply keeps_temp|intros temp]. apply err_finally; [|now apply keeps_act].
    apply err_bind; [intros w; reflexivity|intros m']. apply err_bind; [now apply keeps_look|intros r]. apply err_bind; [now apply keeps_act|intros _].
    apply err_bind; [destruct (snd r); [now apply keeps_ret|now apply keeps_fails]|intros _]. apply err_bind; [now apply keeps_act|intros _]. apply err_bind; [now apply keeps_act|intros _]. exact err_complete.
  - unfold coalesce_multi. apply err_bind; [now apply keeps_act|intros _]. apply err_bind; [now apply keeps_temp|intros temp]. apply err_finally; [|now apply keeps_act].
    apply err_bind; [intros w; reflexivity|intros m']. apply err_bind; [now apply keeps_look|intros r]. apply err_bind; [now apply copy_files_keeps|intros _].
    apply err_bind; [now apply keeps_act|intros _]. apply err_bind; [now apply keeps_act|intros _]. exact err_complete.
Qed.
Lemma put_finish_err k w w' e : put_finish sha1 cfg env k w = (w', Err e) -> t_coalesced (w_mem w') = t_coalesced (w_mem w).
Proof.
  intros E. unfold put_finish in E. destruct (coalesce_blocks sha1 cfg env k w) as [w1 r1] eqn:E1. pose proof (coalesce_blocks_inv sha1 cfg env k w w1 r1 E1) as B.
  destruct r1 as [u|x|]; [| |discriminate].
  - apply err_coalesce_pieces in E. rewrite E. destruct B as [->|(a & c & <- & Cp & ->)]; [reflexivity|]. revert Cp. unfold complete_piece. unfold bind at 1.
    destruct (piece_at k a) as [a1 [p|y|]] eqn:P; [|discriminate..]. apply piece_at_inv in P as (-> & K & P). unfold bind at 1.
    destruct (deliver (pc_err p) None a) as [a1 [v|y|]] eqn:D; [|discriminate..]. apply deliver_inv in D as [D ->].
    unfold set_piece, bind, get_mem, set_mem. cbn. destruct (bf_add _ _) as [y|]; [|discriminate]. intros [= <-]. reflexivity.
  - rewrite <- B. unfold bind at 1 in E. destruct (piece_at k w1) as [a [p|y|]] eqn:P; [| |discriminate].
    + apply piece_at_inv in P as (-> & _ & _). unfold add_downloaded, deliver, bind, get_mem, set_mem, fails in E. cbn in E.
      destruct (nth_error (t_futures (w_mem w1)) (pc_err p)) as [[y|]|]; [discriminate| |discriminate]. injection E as <- _. reflexivity.
    + unfold piece_at, bind, get_mem in P. destruct (if k <? 0 then _ else _); discriminate.
Qed.
Lemma io_leaves f tick ls w ts es j w1 ts1 es1 k b d : untouched cfg f -> execs (Dead f tick) ls = Some (Running w ts, es) ->
  exec (Running w ts) (LStep j) = Some (Running w1 ts1, es1) -> In (Ret (CPut k b d) (RErr EIO)) es1 -> torrent_waits w1.
Proof using sha1 cfg env ok.
  intros U E E1 R. apply (execs_inv sha1 cfg env ok) in E; [|exact U]. rename E into I. pose proof (exec_ok sha1 cfg env ok _ _ _ _ _ I E1) as (I1 & _).
  destruct (io_step _ _ _ _ _ _ _ _ _ I E1 R) as (w' & ts' & q & [= -> ->] & K & Q & L & PF). apply put_finish_err in PF.
  destruct I as (HJ & HM & _). destruct I1 as (_ & ((_ & _ & _ & TE & _) & _) & _). unfold torrent_waits. rewrite TE, PF. cbn [w_mem forget_past].
  pose proof HM as ((_ & MP & _) & _). destruct (MP _ _ Q) as (_ & _ & _ & _ & _ & B & _). destruct (B L) as [Cq _].
  destruct (incomplete_absent sha1 cfg env ok _ _ _ _ _ (proj1 HJ) HM Q Cq) as (_ & _ & _ & _ & X). now rewrite X.
Qed.

(** A restart finds the pieces and assembles the torrent. *)
Lemma restart_assembles f tick ls w ts es w' ts' es' : untouched cfg f -> execs (Dead f tick) ls = Some (Running w ts, es) -> all_stored cfg w ->
  execs (Running w ts) [LCrash; LStart] = Some (Running w' ts', es') -> all_stored cfg w' /\ ~ torrent_waits w' /\ exists c, content cfg (w_fs w') = Some c /\ whole sha1 cfg c.
Proof using sha1 cfg env ok.
  intros U E A X. apply (execs_inv sha1 cfg env ok) in E; [|exact U]. pose proof (bitfield_exact sha1 cfg env ok _ _ _ E) as B.
  cbn [StorageSys.execs StorageSys.exec] in X. destruct (load cfg env (booted cfg (w_fs w) (w_tick w))) as [v r] eqn:L. destruct r as [u|x|]; try discriminate. injection X as <- <- <-.
  apply (load_spec sha1 cfg env ok) in L; [|apply E]. destruct L as (L1 & _ & (MI & _) & _ & L4 & L5).
  assert (D : forall k, 0 <= k < n -> on_disk cfg (w_fs w) k <> None) by (intros k K; apply B, A, K).
  pose proof MI as (_ & _ & _ & TE & _ & Hb & _). destruct (L5 D) as [C T]. split; [|split].
  - intros k K. unfold advertised. apply Hb. destruct (proj2 (L4 k K) (D k K)) as (p & P & Cp). split; [lia|eauto].
  - unfold torrent_waits. rewrite TE, T. discriminate.
  - destruct (content cfg (w_fs v)) as [c|] eqn:Ec; [|congruence]. exists c. split; [reflexivity|]. exact (content_whole sha1 cfg env ok _ _ (proj1 L1) Ec).
Qed.
End Retry.
