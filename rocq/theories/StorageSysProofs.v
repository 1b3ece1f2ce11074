(** The invariant of a Storage with concurrent calls, crashes and restarts. *)
From Verif Require Import GoBase GoBaseProofs BencDecode Bitfield BitfieldSpec BitfieldProofs Metainfo MetainfoSpec MetainfoProofs
  Fs FsProofs Storage StorageSys StorageSpec StorageSysSpec StorageMemSpec StorageFsProofs StorageIoProofs StorageCoalesceProofs StorageProofs StorageGetProofs StorageLoadProofs.

Lemma existsb_list_set {A} (g : A -> bool) k x y l : nth_error l k = Some y ->
  existsb g (list_set k x l) = true <-> g x = true \/ exists j z, j <> k /\ nth_error l j = Some z /\ g z = true.
Proof.
  intros Hk. rewrite existsb_exists. split.
  - intros (z & Hz & Gz). apply In_nth_error in Hz as [j Hj]. apply nth_error_list_set in Hj as [(-> & -> & _)|[Hne Hj]]; [now left|]. right. eauto.
  - intros [Gx|(j & z & Hne & Hj & Gz)].
    + exists x. split; [|exact Gx]. eapply nth_error_In. eapply list_set_same_len. exact Hk.
    + exists z. split; [|exact Gz]. apply (nth_error_In _ j). rewrite list_set_nth_neq by congruence. exact Hj.
Qed.
Lemma existsb_nth {A} (g : A -> bool) l : existsb g l = true <-> exists j z, nth_error l j = Some z /\ g z = true.
Proof.
  rewrite existsb_exists. split.
  - intros (z & Hz & G). apply In_nth_error in Hz as [j Hj]. eauto.
  - intros (j & z & Hj & G). exists z. split; [eapply nth_error_In; eauto|exact G].
Qed.
Lemma filter_all {A} (g : A -> bool) l : (forall x, In x l -> g x = true) -> filter g l = l.
Proof. induction l as [|a l IH]; intros H; [reflexivity|]. cbn. rewrite H by now left. f_equal. apply IH. intros x Hx. apply H. now right. Qed.
Lemma nth_error_Some_lt {A} (l : list A) j x : nth_error l j = Some x -> (j < List.length l)%nat.
Proof. intros H. apply nth_error_Some. congruence. Qed.
Definition mid_on (k : Z) (t : thread) : bool := match th_pc t with PutMid => call_index (th_call t) =? k | _ => false end.
Lemma piece_locked_iff k ts : piece_locked k ts = true <-> exists j t, nth_error ts j = Some t /\ th_pc t = PutMid /\ call_index (th_call t) = k.
Proof.
  unfold piece_locked. rewrite existsb_nth. split.
  - intros (j & t & Hj & G). exists j, t. split; [exact Hj|]. destruct (th_pc t); try discriminate. split; [reflexivity|lia].
  - intros (j & t & Hj & E & <-). exists j, t. split; [exact Hj|]. rewrite E. apply Z.eqb_refl.
Qed.

Section Sys.
Variable sha1 : bytes -> bytes.
Variable cfg : config.
Variable env : nat -> choice.
Hypothesis ok : config_ok cfg.
Set Default Proof Using "All".
Notation i := (c_info cfg).
Notation n := (num_pieces i).
Notation PL := (i_piece_length i).

Definition thread_ok (m : mem) (t : thread) : Prop :=
  match th_pc t, th_call t with
  | Start, _ | Done _, _ => True
  | PutPiece, CPut k b d => check_block_size i k b (zlen d) = None
  | PutMid, CPut k b d => 0 <= k < n /\ tile (piece_size i k) b (zlen d)
  | GetPiece, CGet k _ _ => True
  | Waiting id, CWait k => exists p, nth_error (t_pieces m) (Z.to_nat k) = Some p /\ 0 <= k < n /\
                             (pc_err p = id \/ exists e, nth_error (t_futures m) id = Some (Some (Some e)))
  | Waiting id, CWaitAll => id = t_err m
  | _, _ => False
  end.
Definition one_holder (ts : list thread) : Prop :=
  forall a b t u, nth_error ts a = Some t -> nth_error ts b = Some u -> th_pc t = PutMid -> th_pc u = PutMid ->
    call_index (th_call t) = call_index (th_call u) -> a = b.
Definition inv (base : fs) (p : proc) : Prop :=
  J sha1 cfg base (disk_of p) /\
  match p with
  | Dead _ _ => True
  | Running w ts => mem_ok cfg (fun k => piece_locked k ts) (w_fs w) (w_mem w) /\ one_holder ts /\
                    forall j t, nth_error ts j = Some t -> thread_ok (w_mem w) t
  end.
(** What the return of a call says about the disk after it. *)
Definition event_ok (p : proc) (e : event) : Prop :=
  let f := disk_of p in
  match e with
  | Ret (CGet k b len) (RBlock d) =>
      zlen d = len /\
      (d = [] \/ (exists c s, content cfg f = Some c /\ 0 <= s /\ s + len <= zlen c /\ d = slice c s len) \/
       (exists c, 0 <= k < n /\ on_disk cfg f k = Some c /\ 0 <= b /\ b + len <= zlen c /\ d = slice c b len)) /\
      (in_piece cfg k b len -> exists c, on_disk cfg f k = Some c /\ d = slice c b len)
  | Ret (CGet k b len) (RErr e) => e = EIO \/ (e = EIncompletePiece /\ 0 <= k < n /\ on_disk cfg f k = None) \/ ~ in_piece cfg k b len
  | Ret (CGet _ _ _) RNil => False
  | Ret (CPut k b d) RNil => 0 <= k < n /\ tile (piece_size i k) b (zlen d) /\
      ((forall j, 0 <= j < n -> on_disk cfg f j <> None) -> content cfg f <> None)
  | Ret (CPut k b d) (RErr (EChecksum x got want)) => x = k /\ got <> want /\ want = piece_hash i k
  | Ret (CPut k b d) (RErr e) => In e [EIO; EBlockExists; EMisaligned; EBlockLength]
  | Ret (CWait k) RNil => 0 <= k < n /\ on_disk cfg f k <> None
  | Ret CWaitAll r => r = RNil /\ content cfg f <> None
  | Ret (CReset k) r => r = RNil
  | Ret (CPut _ _ _) (RBlock _) | Ret (CWait _) (RBlock _) => False
  | Ret (CWait _) (RErr _) => True
  end.

Lemma thread_ok_later m m' t : later m m' -> thread_ok m t -> thread_ok m' t.
Proof.
  intros (L1 & L2 & L3 & L4). unfold thread_ok. destruct (th_pc t) as [| | | |id|r]; auto. destruct (th_call t) as [k b d|k b l|k|k|]; auto.
  - intros (p & Hp & Hk & H). destruct (L4 _ _ Hp) as (p' & Hp' & _ & He). exists p'. split; [exact Hp'|]. split; [exact Hk|].
    destruct H as [<-|(e & H)]; [|right; exists e; now apply L3]. destruct He as [He|He]; [now left|now right].
  - congruence.
Qed.
Lemma one_holder_app ts t : th_pc t <> PutMid -> one_holder ts -> one_holder (ts ++ [t]).
Proof.
  intros Ht O a b x y Ha Hb Hx Hy E.
  assert (W : forall a x, nth_error (ts ++ [t]) a = Some x -> th_pc x = PutMid -> nth_error ts a = Some x).
  { intros a0 x0 H P. destruct (Nat.lt_ge_cases a0 (List.length ts)) as [L|L]; [now rewrite nth_error_app1 in H|].
    rewrite nth_error_app2 in H by assumption. destruct (a0 - List.length ts)%nat as [|q]; cbn in H; [injection H as <-; contradiction|]. destruct q; discriminate. }
  exact (O a b x y (W _ _ Ha Hx) (W _ _ Hb Hy) Hx Hy E).
Qed.
Lemma locked_app ts t k : th_pc t <> PutMid -> piece_locked k (ts ++ [t]) = piece_locked k ts.
Proof. intros Ht. unfold piece_locked. rewrite existsb_app. cbn [existsb]. destruct (th_pc t); try contradiction; now rewrite ?orb_false_r. Qed.
Lemma one_holder_set ts j t : (th_pc t = PutMid -> piece_locked (call_index (th_call t)) ts = false) -> one_holder ts -> one_holder (list_set j t ts).
Proof.
  intros Ht O a b x y Ha Hb Hx Hy E.
  assert (L : forall a x, nth_error ts a = Some x -> th_pc x = PutMid -> call_index (th_call x) = call_index (th_call t) -> th_pc t = PutMid -> False).
  { intros a0 x0 H P Q R. specialize (Ht R). assert (piece_locked (call_index (th_call t)) ts = true) by (apply piece_locked_iff; eauto). congruence. }
  apply nth_error_list_set in Ha. apply nth_error_list_set in Hb.
  destruct Ha as [(-> & -> & _)|[Na Ha]], Hb as [(-> & -> & _)|[Nb Hb]]; [reflexivity| | |exact (O a b x y Ha Hb Hx Hy E)].
  - exfalso. eapply L; eauto.
  - exfalso. eapply L; eauto.
Qed.
Lemma locked_same ts j t t' k : nth_error ts j = Some t -> th_pc t <> PutMid -> th_pc t' <> PutMid -> piece_locked k (list_set j t' ts) = piece_locked k ts.
Proof.
  intros Hj H H'. apply eq_true_iff_eq. rewrite !piece_locked_iff. split.
  - intros (a & x & Ha & Px & Ix). apply nth_error_list_set in Ha as [(-> & -> & _)|[Na Ha]]; [contradiction|eauto].
  - intros (a & x & Ha & Px & Ix). exists a, x. split; [|auto]. rewrite list_set_nth_neq; [exact Ha|]. intros ->. congruence.
Qed.
Lemma locked_take ts j t t' k : nth_error ts j = Some t -> th_pc t <> PutMid -> th_pc t' = PutMid ->
  piece_locked k (list_set j t' ts) = take (fun k => piece_locked k ts) (call_index (th_call t')) k.
Proof.
  intros Hj H H'. unfold take. destruct (k =? call_index (th_call t')) eqn:E.
  - apply piece_locked_iff. exists j, t'. split; [eapply list_set_same_len; eauto|]. split; [exact H'|lia].
  - apply eq_true_iff_eq. rewrite !piece_locked_iff. split.
    + intros (a & x & Ha & Px & Ix). apply nth_error_list_set in Ha as [(-> & -> & _)|[Na Ha]]; [lia|eauto].
    + intros (a & x & Ha & Px & Ix). exists a, x. split; [|auto]. rewrite list_set_nth_neq; [exact Ha|]. intros ->. congruence.
Qed.
Lemma locked_free ts j t t' k : one_holder ts -> nth_error ts j = Some t -> th_pc t = PutMid -> th_pc t' <> PutMid ->
  piece_locked k (list_set j t' ts) = free (fun k => piece_locked k ts) (call_index (th_call t)) k.
Proof.
  intros O Hj H H'. unfold free. destruct (k =? call_index (th_call t)) eqn:E.
  - apply not_true_is_false. rewrite piece_locked_iff. intros (a & x & Ha & Px & Ix).
    apply nth_error_list_set in Ha as [(-> & -> & _)|[Na Ha]]; [contradiction|]. apply Na. eapply (O a j); eauto. lia.
  - apply eq_true_iff_eq. rewrite !piece_locked_iff. split.
    + intros (a & x & Ha & Px & Ix). apply nth_error_list_set in Ha as [(-> & -> & _)|[Na Ha]]; [contradiction|eauto].
    + intros (a & x & Ha & Px & Ix). exists a, x. split; [|auto]. rewrite list_set_nth_neq; [exact Ha|]. intros ->. assert (x = t) by congruence. subst x. lia.
Qed.

Definition panic_reason (w : world) (c : call) : Prop :=
  match c with
  | CPut k b _ => ~ 0 <= k < n \/ b < 0 \/ piece_size i k <= b
  | CGet k _ len => ~ 0 <= k < n \/ make_ok len = false
  | CReset k => ~ 0 <= k < n \/ settled w k
  | CWait k => ~ 0 <= k < n
  | CWaitAll => False
  end.
Definition step_ok (base : fs) (w : world) (ts : list thread) (j : nat) (t : thread) (o : outcome) : Prop :=
  J sha1 cfg base (w_fs (world_of o)) /\ Forall (J sha1 cfg base) (w_past (world_of o)) /\ ext cfg (w_fs w) (w_fs (world_of o)) /\
  match o with
  | Goes w' q => let p' := Running w' (list_set j {| th_call := th_call t; th_pc := q |} ts) in
      inv base p' /\ Forall (event_ok p') (events_of (th_call t) q) /\ later (w_mem w) (w_mem w')
  | Panics w' => panic_reason w (th_call t)
  end.
Lemma goes_ok base w ts j t w' q busy' :
  one_holder ts -> (forall j t, nth_error ts j = Some t -> thread_ok (w_mem w) t) -> nth_error ts j = Some t ->
  PI sha1 cfg busy' base w' -> ext cfg (w_fs w) (w_fs w') -> later (w_mem w) (w_mem w') ->
  (forall k, 0 <= k < n -> piece_locked k (list_set j {| th_call := th_call t; th_pc := q |} ts) = busy' k) ->
  (q = PutMid -> piece_locked (call_index (th_call t)) ts = false) ->
  thread_ok (w_mem w') {| th_call := th_call t; th_pc := q |} ->
  Forall (event_ok (Running w' (list_set j {| th_call := th_call t; th_pc := q |} ts))) (events_of (th_call t) q) ->
  step_ok base w ts j t (Goes w' q).
Proof.
  intros O T Hj (P1 & P2 & P3) X L B Q TO EV. unfold step_ok. cbn [world_of]. split; [exact P1|]. split; [exact P2|]. split; [exact X|].
  split; [|split; [exact EV|exact L]]. split; [exact P1|]. split; [|split].
  - eapply mem_ok_busy; eauto.
  - now apply one_holder_set.
  - intros a x Ha. apply nth_error_list_set in Ha as [(-> & -> & _)|[Na Ha]]; [exact TO|]. eapply thread_ok_later; eauto.
Qed.
Lemma next_ok base w ts j t o : inv base (Running w ts) -> nth_error ts j = Some t -> next sha1 cfg env (forget_past w) ts t = Some o ->
  step_ok base w ts j t o.
Proof.
  intros (HJ & HM & O & T) Hj N. pose proof (T _ _ Hj) as TO.
  cbn [disk_of] in HJ.
  assert (P0 : PI sha1 cfg (fun k => piece_locked k ts) base (forget_past w)) by (split; [exact HJ|]; split; [constructor|exact HM]).
  assert (X0 : ext cfg (w_fs w) (w_fs (forget_past w))) by apply ext_refl.
  assert (L0 : later (w_mem w) (w_mem (forget_past w))) by apply later_refl.
  assert (SM : forall q, th_pc t <> PutMid -> q <> PutMid -> forall k, 0 <= k < n ->
     piece_locked k (list_set j {| th_call := th_call t; th_pc := q |} ts) = piece_locked k ts) by (intros; eapply locked_same; eauto).
  assert (STAY : forall r, th_pc t <> PutMid -> Forall (event_ok (Running (forget_past w) (list_set j {| th_call := th_call t; th_pc := Done r |} ts))) (events_of (th_call t) (Done r)) ->
     step_ok base w ts j t (Goes (forget_past w) (Done r))).
  { intros r H EV. eapply goes_ok; eauto; [apply SM; [exact H|discriminate]|discriminate|exact I]. }
  assert (GET : forall k b l o, th_call t = CGet k b l -> th_pc t <> PutMid -> of_bytes (get_block cfg env k b l (forget_past w)) = o -> step_ok base w ts j t o).
  { intros k b l o' Ec Ep E. destruct (get_block cfg env k b l (forget_past w)) as [w' r] eqn:G.
    apply (get_block_spec cfg env ok sha1 (fun k => piece_locked k ts) (w_fs w)) in G; [|exact (proj1 HJ)|exact HM|reflexivity].
    destruct G as ((S1 & S2 & S3) & G). cbn [forget_past w_fs w_past w_mem] in S1, S2, S3.
    assert (P' : PI sha1 cfg (fun k => piece_locked k ts) base w') by (unfold PI; rewrite S1, S2, S3; exact P0).
    destruct r as [d|e|]; cbn in E; subst o'.
    - eapply goes_ok; eauto; [rewrite S1; apply ext_refl|rewrite S3; apply later_refl|apply SM; [exact Ep|discriminate]|discriminate|exact I|].
      rewrite Ec. constructor; [|constructor]. cbn [event_ok disk_of]. rewrite S1. exact G.
    - eapply goes_ok; eauto; [rewrite S1; apply ext_refl|rewrite S3; apply later_refl|apply SM; [exact Ep|discriminate]|discriminate|exact I|].
      rewrite Ec. constructor; [|constructor]. cbn [event_ok disk_of]. rewrite S1. exact G.
    - unfold step_ok. cbn [world_of]. rewrite S1, S2. split; [exact HJ|]. split; [constructor|]. split; [apply ext_refl|]. rewrite Ec. cbn. tauto. }
  assert (BAD : panic_reason w (th_call t) -> step_ok base w ts j t (Panics (forget_past w))).
  { intros H. split; [exact HJ|]. split; [constructor|]. split; [exact X0|exact H]. }
  assert (PA : forall k, (exists p, piece_at k (forget_past w) = (forget_past w, Ok p) /\ nth_error (t_pieces (w_mem w)) (Z.to_nat k) = Some p /\ 0 <= k < n) \/
                         (piece_at k (forget_past w) = (forget_past w, Panic) /\ ~ 0 <= k < n)).
  { intros k. assert (D : 0 <= k < n \/ ~ 0 <= k < n) by lia. destruct D as [D|D].
    - left. destruct (piece_exists sha1 cfg env ok _ _ k (proj1 HM) D) as [p Hp]. exists p. split; [|split; [exact Hp|exact D]].
      rewrite <- (Z2Nat.id k) at 1 by lia. exact (piece_at_in sha1 cfg env ok _ p (forget_past w) Hp).
    - right. split; [|exact D]. exact (piece_at_out sha1 cfg env ok k _ (forget_past w) (proj1 HM) D). }
  unfold next in N. cbn [forget_past w_mem] in N. unfold thread_ok in TO.
  destruct (th_pc t) as [| | | |id|r] eqn:Ep.
  - (* Start *) destruct (th_call t) as [k b d|k b l|k|k|] eqn:Ec.
    + injection N as <-. destruct (check_block_size i k b (zlen d)) as [e|] eqn:Ck; [|destruct (t_coalesced (w_mem w))].
      * apply STAY; [discriminate|]. constructor; [|constructor]. unfold check_block_size in Ck.
        repeat match type of Ck with (if ?x then _ else _) = _ => destruct x end; inversion Ck; subst; cbn; tauto.
      * apply STAY; [discriminate|]. constructor; [|constructor]. cbn. tauto.
      * eapply goes_ok; eauto; rewrite ?Ec; [apply SM; discriminate|discriminate|exact Ck|constructor].
    + destruct (t_coalesced (w_mem w)).
      * injection N as <-. eapply GET; eauto. discriminate.
      * injection N as <-. destruct (PA k) as [(p & -> & Hp & D)|[-> D]]; [|apply BAD; now left].
        eapply goes_ok; eauto; rewrite ?Ec; [apply SM; discriminate|discriminate|exact I|constructor].
    + destruct (piece_locked k ts) eqn:Lk; [discriminate|]. injection N as <-.
      destruct (reset_piece k (forget_past w)) as [w' r] eqn:R. pose proof R as R0.
      apply (reset_piece_spec sha1 cfg env ok _ _ _ _ _ _ P0 Lk) in R. destruct r as [u|e|]; cbn [of_unit].
      * destruct R as (k' & p & -> & Hp & _ & _ & _ & _ & Ef & P' & L'). eapply goes_ok; eauto; rewrite ?Ec;
          [rewrite Ef; apply ext_refl|apply SM; discriminate|discriminate|]. constructor; [reflexivity|constructor].
      * destruct R.
      * destruct R as [-> R]. apply BAD. destruct R as [R|(k' & p & -> & Hp & R)]; [now left|]. right.
        cbn [forget_past w_mem] in Hp. exists p. rewrite Nat2Z.id.
        destruct (proj1 (proj2 (proj1 HM)) _ _ Hp) as (_ & _ & _ & _ & _ & _ & F1 & _ & F3). rewrite Lk in F3.
        destruct (pc_coalesced p) eqn:Cp; [exists None; auto|]. destruct R as [R|R]; [discriminate|].
        destruct (F3 eq_refl R eq_refl) as [e He]. exists (Some e). auto.
    + destruct (piece_locked k ts) eqn:Lk; [discriminate|]. injection N as <-.
      destruct (PA k) as [(p & -> & Hp & D)|[-> D]]; [|apply BAD; exact D].
      eapply goes_ok; eauto; rewrite ?Ec; [apply SM; discriminate|discriminate| |constructor].
      cbn. exists p. auto.
    + destruct (torrent_rlocked ts); [discriminate|]. injection N as <-.
      eapply goes_ok; eauto; rewrite ?Ec; [apply SM; discriminate|discriminate|reflexivity|constructor].
  - (* PutPiece *) destruct (th_call t) as [k b d|k b l|k|k|] eqn:Ec; try contradiction.
    destruct (piece_locked k ts) eqn:Lk; [discriminate|]. injection N as <-.
    destruct (put_in_piece k b d (forget_past w)) as [w' r] eqn:R.
    apply (put_in_piece_spec sha1 cfg env ok _ _ _ _ _ _ _ _ P0 Lk TO) in R. destruct r as [u|e|].
    + destruct R as (k' & p & q & -> & Hp & Cp & Eb & Rb & Zd & _ & Ew & P' & L').
      eapply goes_ok; eauto; rewrite ?Ec.
      * rewrite Ew. apply ext_refl.
      * intros k0 _. change (Z.of_nat k') with (call_index (th_call {| th_call := CPut (Z.of_nat k') b d; th_pc := PutMid |})).
        eapply locked_take; eauto. rewrite Ep. discriminate.
      * intros _. exact Lk.
      * cbn. pose proof (piece_bound sha1 cfg env ok _ _ _ _ (proj1 HM) Hp). split; [assumption|].
        destruct (check_ok sha1 cfg env ok _ _ _ H TO) as (q' & Eq' & Q). destruct (Q Rb) as [Q1 Q2]. unfold block_size, BL in Q2. unfold BL in Eq'. split; [exact Rb|]. split; [exists q'|]; lia.
      * constructor.
    + destruct R as (-> & -> & _). apply STAY; [discriminate|]. constructor; [|constructor]. cbn. tauto.
    + destruct R as (-> & R). apply BAD. exact R.
  - (* PutMid *) destruct (th_call t) as [k b d|k b l|k|k|] eqn:Ec; try contradiction.
    destruct (torrent_rlocked ts); [discriminate|]. injection N as <-. destruct TO as (Dk & Db).
    assert (Lk : piece_locked k ts = true) by (apply piece_locked_iff; exists j, t; rewrite Ep, Ec; auto).
    destruct (piece_exists sha1 cfg env ok _ _ k (proj1 HM) Dk) as [p Hp].
    destruct (put_finish sha1 cfg env k (forget_past w)) as [w' r] eqn:R.
    rewrite <- (Z2Nat.id k) in R, Lk by lia.
    apply (put_finish_spec sha1 cfg env ok (fun k => piece_locked k ts) _ (Z.to_nat k) p _ _ _ P0 Hp Lk) in R.
    rewrite (Z2Nat.id k) in R, Lk by lia. destruct R as (R1 & P' & L' & X' & _ & R2 & R3 & R4).
    assert (G : forall r', Forall (event_ok (Running w' (list_set j {| th_call := CPut k b d; th_pc := Done r' |} ts))) (events_of (CPut k b d) (Done r')) ->
      step_ok base w ts j t (Goes w' (Done r'))).
    { intros r' EV. eapply goes_ok; eauto; rewrite ?Ec; [|discriminate|exact I|exact EV].
      intros k0 _. pose proof (locked_free ts j t {| th_call := CPut k b d; th_pc := Done r' |} k0 O Hj Ep ltac:(discriminate)) as F. rewrite Ec in F. exact F. }
    destruct r as [u|e|]; cbn [of_unit]; [| |contradiction].
    + apply G. constructor; [|constructor]. cbn [event_ok disk_of]. split; [exact Dk|]. split; [exact Db|].
      intros A. destruct u. apply R3; [reflexivity|]. destruct P' as (_ & _ & M').
      destruct M' as ((Hl & _ & _ & _ & _ & _ & Hc) & Hd & _). rewrite Hc. unfold num_coalesced. f_equal. apply filter_all.
      intros x Hx. apply In_nth_error in Hx as [q Hq]. apply (Hd _ _ Hq). apply A. apply nth_error_Some_lt in Hq as Hq'. unfold num_pieces, zlen. lia.
    + apply G. constructor; [|constructor]. cbn [event_ok disk_of]. destruct (full_dec sha1 cfg env ok p) as [F|F]; [|destruct (R2 F); discriminate].
      destruct F as (l & Hl & Hc). destruct (R4 l Hl Hc) as (data & _ & _ & R5). destruct (bytes_eqb (sha1 data) (piece_hash i k)) eqn:Eq.
      * subst e. cbn. tauto.
      * destruct R5 as (e' & [= <-] & [->| ->] & _); [cbn; tauto|]. split; [reflexivity|]. split; [|reflexivity]. intros Q. rewrite Q in Eq. rewrite (proj2 (bytes_eqb_eq _ _) eq_refl) in Eq. discriminate.
  - (* GetPiece *) destruct (th_call t) as [k b d|k b l|k|k|] eqn:Ec; try contradiction.
    destruct (piece_locked k ts) eqn:Lk; [discriminate|]. injection N as <-. eapply GET; eauto. discriminate.
  - (* Waiting *)
    destruct (nth_error (t_futures (w_mem w)) id) as [[[e|]|]|] eqn:Fu; try discriminate; injection N as <-; (apply STAY; [discriminate|]); constructor; try constructor;
      destruct (th_call t) as [k b d|k b l|k|k|]; try contradiction; try exact I.
    + (* Torrent.Wait failed *) subst id. destruct HM as ((_ & _ & _ & Hf & _) & _). rewrite Hf in Fu. destruct (t_coalesced (w_mem w)); discriminate.
    + destruct TO as (p & Hp & Dk & Id). cbn [event_ok disk_of forget_past w_fs]. split; [exact Dk|]. destruct Id as [<-|[e He]]; [|congruence].
      rewrite <- (Z2Nat.id k) by lia. apply (proj1 (proj2 HM) _ _ Hp).
      destruct (pc_coalesced p) eqn:Cp; [reflexivity|]. exfalso.
      destruct (proj1 (proj2 (proj1 HM)) _ _ Hp) as (_ & _ & _ & _ & _ & _ & F1 & F2 & F3).
      destruct (piece_locked (Z.of_nat (Z.to_nat k)) ts) eqn:Lk.
      * assert (Some (Some None) = Some (@None (option serr))) by (rewrite <- Fu; apply F2; auto). discriminate.
      * destruct (full_dec sha1 cfg env ok p) as [F|F]; [destruct (F3 Cp F eq_refl) as [e He]; congruence|].
        assert (Some (Some None) = Some (@None (option serr))) by (rewrite <- Fu; apply F2; [exact Cp|contradiction]). discriminate.
    + subst id. destruct HM as ((_ & _ & _ & Hf & _) & _ & Hc). rewrite Hf in Fu. cbn. split; [reflexivity|]. apply Hc. destruct (t_coalesced (w_mem w)); [reflexivity|discriminate].
  - discriminate.
Qed.

Definition exec_later (p p' : proc) : Prop :=
  match p, p' with Running w _, Running w' _ => later (w_mem w) (w_mem w') | _, _ => True end.
Lemma crash_ok base w j p es : Forall (J sha1 cfg base) (w_past w) -> crash_at w j = Some (p, es) -> inv base p /\ es = [].
Proof.
  intros F. unfold crash_at. destruct (nth_error (w_past w) j) as [f|] eqn:E; [|discriminate]. intros [= <- <-]. split; [|reflexivity].
  split; [|exact I]. cbn. rewrite Forall_forall in F. apply F. eapply nth_error_In; eauto.
Qed.
Lemma J_trans f0 f1 f2 : J sha1 cfg f0 f1 -> J sha1 cfg f1 f2 -> J sha1 cfg f0 f2.
Proof. intros [_ A] [B C]. split; [exact B|eapply ext_trans; eauto]. Qed.
Lemma inv_dead base p tick : inv base p -> inv base (Dead (disk_of p) tick).
Proof. intros [H _]. now split. Qed.
Lemma inv_rebase base p : inv base p -> inv (disk_of p) p.
Proof. intros [[H _] K]. split; [|exact K]. split; [exact H|apply ext_refl]. Qed.
Lemma mem_none f m : mem_ok cfg (fun _ => false) f m -> mem_ok cfg (fun k => piece_locked k []) f m.
Proof. apply mem_ok_busy; auto. Qed.
Lemma exec_inv base p l p' es : inv base p -> exec sha1 cfg env p l = Some (p', es) ->
  inv base p' /\ Forall (event_ok p') es /\ exec_later p p'.
Proof.
  intros I E. destruct p as [w ts|f tick], l as [c|t| |t j| |j]; cbn [exec] in E; try discriminate.
  - injection E as <- <-. split; [|split; [constructor|apply later_refl]]. destruct I as (HJ & HM & O & T). split; [exact HJ|]. split; [|split].
    + eapply (mem_ok_busy sha1 cfg env ok); [|exact HM]. intros k _. apply locked_app. discriminate.
    + apply one_holder_app; [discriminate|exact O].
    + intros j t Hj. destruct (Nat.lt_ge_cases j (List.length ts)) as [L|L]; [rewrite nth_error_app1 in Hj by exact L; eauto|].
      rewrite nth_error_app2 in Hj by exact L. destruct (j - List.length ts)%nat as [|[|q]]; cbn in Hj; [injection Hj as <-; exact Logic.I|discriminate|discriminate].
  - destruct (nth_error ts t) as [th|] eqn:Ht; [|discriminate]. destruct (next sha1 cfg env (forget_past w) ts th) as [o|] eqn:N; [|discriminate].
    apply (next_ok base w ts t th) in N; [|exact I|exact Ht]. destruct N as (N1 & N2 & N3 & N4). destruct o as [w' q|w'].
    + injection E as <- <-. exact N4.
    + injection E as <- <-. split; [now split|]. split; [constructor|exact Logic.I].
  - injection E as <- <-. split; [exact (inv_dead _ _ _ I)|]. split; [constructor|exact Logic.I].
  - destruct (nth_error ts t) as [th|] eqn:Ht; [|discriminate]. destruct (next sha1 cfg env (forget_past w) ts th) as [o|] eqn:N; [|discriminate].
    apply (next_ok base w ts t th) in N; [|exact I|exact Ht]. destruct N as (_ & N2 & _). destruct (crash_ok _ _ _ _ _ N2 E) as [H ->].
    split; [exact H|]. split; [constructor|]. unfold crash_at in E. destruct (nth_error (w_past _) _); [cbn in E|discriminate]. inversion E; subst. exact Logic.I.
  - destruct (load cfg env (booted cfg f tick)) as [w r] eqn:L. apply (load_spec sha1 cfg env ok) in L; [|exact (proj1 (proj1 I))]. destruct L as (L1 & L2 & L3).
    pose proof (J_trans _ _ _ (proj1 I) L1) as L1'.
    destruct r as [u|e|]; injection E as <- <-; (split; [|split; [constructor|exact Logic.I]]); split; try exact L1'; try exact Logic.I.
    split; [apply mem_none; exact (proj1 L3)|]. split; [intros [|a] ?; discriminate|intros [|a]; discriminate].
  - destruct (load cfg env (booted cfg f tick)) as [w r] eqn:L. apply (load_spec sha1 cfg env ok) in L; [|exact (proj1 (proj1 I))]. destruct L as (L1 & L2 & L3).
    cbn [fst] in E. assert (F : Forall (J sha1 cfg base) (w_past w)) by (eapply Forall_impl; [|exact L2]; intros a; apply J_trans; exact (proj1 I)).
    destruct (crash_ok _ _ _ _ _ F E) as [H ->]. split; [exact H|]. split; [constructor|exact Logic.I].
Qed.
Lemma exec_ok base p l p' es : inv base p -> exec sha1 cfg env p l = Some (p', es) ->
  inv base p' /\ ext cfg (disk_of p) (disk_of p') /\ Forall (event_ok p') es /\ exec_later p p'.
Proof.
  intros I E. destruct (exec_inv _ _ _ _ _ I E) as (A & B & C). split; [exact A|]. split; [|auto].
  exact (proj2 (proj1 (proj1 (exec_inv _ _ _ _ _ (inv_rebase _ _ I) E)))).
Qed.
(** The part of [event_ok] that stays true. *)
Definition event_said (f : fs) (e : event) : Prop :=
  match e with
  | Ret (CGet k b len) (RBlock d) =>
      zlen d = len /\
      (d = [] \/ (exists c s, content cfg f = Some c /\ 0 <= s /\ s + len <= zlen c /\ d = slice c s len) \/
       (exists c, 0 <= k < n /\ on_disk cfg f k = Some c /\ 0 <= b /\ b + len <= zlen c /\ d = slice c b len)) /\
      (in_piece cfg k b len -> exists c, on_disk cfg f k = Some c /\ d = slice c b len)
  | Ret (CWait k) RNil => 0 <= k < n /\ exists b, on_disk cfg f k = Some b
  | Ret CWaitAll r => r = RNil /\ exists c, content cfg f = Some c
  | _ => True
  end.
Lemma event_ok_said p e : event_ok p e -> event_said (disk_of p) e.
Proof.
  destruct e as [[k b d|k b l|k|k|] [|x|x]]; cbn; auto.
  - intros [A B]. split; [exact A|]. destruct (on_disk cfg (disk_of p) k); [eauto|congruence].
  - intros [A B]. split; [exact A|]. destruct (content cfg (disk_of p)); [eauto|congruence].
  - intros [A B]. discriminate.
  - intros [A B]. discriminate.
Qed.
Lemma event_said_mono f f' e : ext cfg f f' -> event_said f e -> event_said f' e.
Proof.
  intros (X & Y & _). destruct e as [[k b d|k b l|k|k|] [|x|x]]; cbn; auto.
  - intros (A & B & C). split; [exact A|]. split.
    + destruct B as [B|[(c & s & B & B')|(c & B1 & B2 & B3)]]; [now left|right; left; exists c, s; auto|right; right; exists c; auto].
    + intros P. destruct (C P) as (c & C1 & C2). exists c. destruct P as [P _]. auto.
  - intros [A [c B]]. eauto.
  - intros [A [c B]]. eauto.
  - intros [A [c B]]. eauto.
  - intros [A [c B]]. eauto.
Qed.
Lemma execs_ok base p ls p' es : inv base p -> execs sha1 cfg env p ls = Some (p', es) ->
  inv base p' /\ ext cfg (disk_of p) (disk_of p') /\ Forall (event_said (disk_of p')) es.
Proof.
  revert p es. induction ls as [|l ls IH]; intros p es I E; cbn in E.
  - injection E as <- <-. split; [exact I|]. split; [apply ext_refl|constructor].
  - destruct (exec sha1 cfg env p l) as [[p1 es1]|] eqn:E1; [|discriminate]. destruct (execs sha1 cfg env p1 ls) as [[p2 es2]|] eqn:E2; [|discriminate].
    injection E as <- <-. destruct (exec_ok _ _ _ _ _ I E1) as (I1 & X1 & V1 & _). destruct (IH _ _ I1 E2) as (I2 & X2 & V2).
    split; [exact I2|]. split; [eapply ext_trans; eauto|]. apply Forall_app. split; [|exact V2].
    eapply Forall_impl; [|exact V1]. intros e H. apply event_ok_said in H. eapply event_said_mono; eauto.
Qed.
Lemma inv_start f tick : untouched cfg f -> inv f (Dead f tick).
Proof.
  intros (N & T & P & Q). split; [|exact I]. cbn. split; [|apply ext_refl]. split; [split|split; [exact N|split; [exact P|split]]].
  - now left.
  - intros nm nd H. rewrite Q in H. discriminate.
  - intros _ nm nd H. rewrite Q in H. discriminate.
  - intros k b c _ H. rewrite (content_target_none cfg) in H by exact T. discriminate.
Qed.
End Sys.
