(** What the byte counts say: accepted bytes against stored bytes, and Downloaded. *)
From Verif Require Import GoBase GoBaseProofs Metainfo MetainfoSpec
  Fs Storage StorageSys StorageSpec StorageSysSpec StorageMemSpec StorageWaitSpec StorageAcceptSpec StorageCountSpec StorageFsProofs StorageIoProofs StorageProofs StorageLoadProofs StorageSysProofs StorageClaimProofs StorageMoreProofs StorageWaitProofs StorageAcceptProofs StorageHealthSpec StorageHealthProofs StorageHealthSysProofs StorageHonestProofs.

Lemma sum_app a b : sum (a ++ b) = sum a + sum b.
Proof. unfold sum. induction a as [|x a IH]; cbn; lia. Qed.
Lemma sum_cons x l : sum (x :: l) = x + sum l. Proof. reflexivity. Qed.
Lemma sum_set {A} (g : A -> Z) l : forall j x y, nth_error l j = Some x -> sum (map g (list_set j y l)) = sum (map g l) - g x + g y.
Proof.
  induction l as [|a l IH]; intros [|j] x y H; try discriminate; cbn in *; [injection H as ->; unfold sum; cbn; lia|].
  unfold sum in *. cbn. rewrite (IH j x y H). lia.
Qed.
Lemma sum_pos {A} (g : A -> Z) l : (forall x, In x l -> 0 <= g x) -> 0 <= sum (map g l).
Proof. unfold sum. induction l as [|a l IH]; intros H; cbn; [lia|]. pose proof (H a (or_introl eq_refl)). specialize (IH (fun x Hx => H x (or_intror Hx))). lia. Qed.
Lemma sum_zero {A} (g : A -> Z) l : (forall x, In x l -> g x = 0) -> sum (map g l) = 0.
Proof. unfold sum. induction l as [|a l IH]; intros H; cbn; [lia|]. rewrite (H a (or_introl eq_refl)), IH; [lia|]. intros x Hx. apply H. now right. Qed.
Lemma sum_le {A} (g h : A -> Z) l : (forall x, In x l -> g x <= h x) -> sum (map g l) <= sum (map h l).
Proof. unfold sum. induction l as [|a l IH]; intros H; cbn; [lia|]. pose proof (H a (or_introl eq_refl)). specialize (IH (fun x Hx => H x (or_intror Hx))). lia. Qed.
Lemma sum_split {A B} (g : A -> B -> Z) (l : list A) (l' : list B) : sum (map (fun a => sum (map (g a) l')) l) = sum (map (fun b => sum (map (fun a => g a b) l)) l').
Proof.
  induction l as [|a l IH]; cbn [map].
  - symmetry. apply sum_zero. reflexivity.
  - rewrite sum_cons, IH. clear IH. induction l' as [|b l' IH]; [reflexivity|]. cbn [map]. rewrite !sum_cons. lia.
Qed.

(** The blocks of a piece in memory. *)
Definition bytes_in (l : list (option bytes)) : Z := sum (map (fun o => match o with Some b => zlen b | None => 0 end) l).
Lemma bytes_in_all l : forall data, all_blocks l = Some data -> bytes_in l = zlen data.
Proof.
  induction l as [|[b|] l IH]; cbn; intros data E; [injection E as <-; reflexivity| |discriminate].
  destruct (all_blocks l) as [d|]; [|discriminate]. injection E as <-. specialize (IH _ eq_refl). unfold bytes_in, sum in *. cbn. unfold zlen in *. rewrite app_length. lia.
Qed.
Lemma bytes_in_repeat k : bytes_in (repeat None k) = 0.
Proof. unfold bytes_in, sum. induction k; [reflexivity|exact IHk]. Qed.
Definition put_on (k : Z) (e : event) : Z := match e with Ret (CPut k' _ d) RNil => if k' =? k then zlen d else 0 | _ => 0 end.
Definition acc (k : Z) (es : list event) : Z := sum (map (put_on k) es).
Definition pending (k : Z) (t : thread) : Z := match th_pc t, th_call t with PutMid, CPut k' _ d => if k' =? k then zlen d else 0 | _, _ => 0 end.
Definition pend (k : Z) (ts : list thread) : Z := sum (map (pending k) ts).
Lemma acc_app k a b : acc k (a ++ b) = acc k a + acc k b. Proof. unfold acc. now rewrite map_app, sum_app. Qed.
Lemma acc_pos k es : 0 <= acc k es.
Proof. apply sum_pos. intros [c r] _. unfold put_on. destruct c as [k' b d| | | |], r; try lia. unfold zlen. destruct (k' =? k); lia. Qed.
Lemma pend_pos k ts : 0 <= pend k ts.
Proof. apply sum_pos. intros t _. unfold pending. destruct (th_pc t), (th_call t) as [k' b d| | | |]; try lia. unfold zlen. destruct (k' =? k); lia. Qed.
Lemma pend_free k ts : piece_locked k ts = false -> pend k ts = 0.
Proof.
  intros L. apply sum_zero. intros t Ht. unfold pending. destruct (th_pc t) eqn:P, (th_call t) as [k' b d| | | |] eqn:C; try reflexivity. destruct (k' =? k) eqn:K; [|reflexivity].
  exfalso. apply Bool.not_true_iff_false in L. apply L. unfold piece_locked. apply existsb_exists. exists t. rewrite P, C. auto.
Qed.
Lemma no_waste_less a b : no_waste (a ++ b) -> no_waste a.
Proof. intros N es1 k es2 x d -> H. eapply N; [|exact H]. rewrite <- app_assoc. reflexivity. Qed.
Lemma acc_none k es : (forall b d, ~ In (Ret (CPut k b d) RNil) es) -> acc k es = 0.
Proof.
  intros N. apply sum_zero. intros [c r] H. unfold put_on. destruct c as [k' b d| | | |], r; try reflexivity. destruct (k' =? k) eqn:K; [|reflexivity].
  apply Z.eqb_eq in K as ->. now apply N in H.
Qed.
Lemma no_io_less a b : ~ Exists io_error (a ++ b) -> ~ Exists io_error a.
Proof. intros N H. apply N, Exists_app. now left. Qed.

Section Count.
Variable sha1 : bytes -> bytes.
Variable cfg : config.
Variable env : nat -> choice.
Hypothesis ok : config_ok cfg.
Notation exec := (StorageSys.exec sha1 cfg env).
Notation execs := (StorageSys.execs sha1 cfg env).
Notation i := (c_info cfg).
Notation n := (num_pieces i).
Notation inv := (StorageSysProofs.inv sha1 cfg).
Notation PI := (StorageProofs.PI sha1 cfg).
Notation kept := (StorageAcceptProofs.kept cfg).

Definition held (p : piece) : Z := bytes_in (blocks_of p).
Definition counts (d0 : fs) (k : Z) (p : piece) (ts : list thread) (es : list event) : Prop :=
  (no_waste es -> if pc_coalesced p then acc k es <= piece_size i k /\ (on_disk cfg d0 k <> None -> acc k es = 0) else acc k es + pend k ts <= held p) /\
  (~ Exists io_error es -> if pc_coalesced p then on_disk cfg d0 k = None -> piece_size i k <= acc k es
                           else (full p -> piece_locked k ts = true) -> held p <= acc k es + pend k ts).
Definition counted (d0 : fs) (p : proc) (es : list event) : Prop :=
  match p with
  | Running w ts =>
      (forall k b d, In (Ret (CPut k b d) RNil) es -> 0 <= k < n) /\
      forall k p, nth_error (t_pieces (w_mem w)) k = Some p -> counts d0 (Z.of_nat k) p ts es
  | Dead _ _ => True
  end.
Lemma counts_same d0 k p ts es ts' es' : acc k es' = 0 -> pend k ts' = pend k ts -> piece_locked k ts' = piece_locked k ts ->
  counts d0 k p ts es -> counts d0 k p ts' (es ++ es').
Proof.
  intros A P L [C1 C2]. unfold counts. rewrite acc_app, A, P, L, Z.add_0_r. split.
  - intros N. exact (C1 (no_waste_less _ _ N)). - intros N. exact (C2 (no_io_less _ _ N)).
Qed.
Lemma acc_other k k' c r : call_index c = k' -> k' <> k -> acc k [Ret c r] = 0.
Proof. intros <- N. unfold acc, sum. cbn. destruct c as [a b d| | | |], r; cbn in *; try lia. destruct (a =? k) eqn:E; lia. Qed.
Lemma dull_acc k es : Forall dull es -> acc k es = 0.
Proof. intros F. apply acc_none. intros b d H. rewrite Forall_forall in F. exact (F _ H). Qed.
Lemma pend_set k ts j t t' : nth_error ts j = Some t -> pend k (list_set j t' ts) = pend k ts - pending k t + pending k t'.
Proof. apply sum_set. Qed.
Lemma counted_quiet d0 w ts es w' ts' es' : counted d0 (Running w ts) es -> w_mem w' = w_mem w -> (forall k, pend k ts' = pend k ts) ->
  (forall k, piece_locked k ts' = piece_locked k ts) -> Forall dull es' -> counted d0 (Running w' ts') (es ++ es').
Proof.
  intros [C1 C2] M P L F. split.
  - intros k b d H. apply in_app_iff in H as [H|H]; [eauto|]. rewrite Forall_forall in F. now apply F in H.
  - rewrite M. intros k p H. apply counts_same with (ts := ts); auto. now apply dull_acc.
Qed.
Lemma counted_plain d0 w ts es w' j t q : counted d0 (Running w ts) es -> nth_error ts j = Some t -> th_pc t <> PutMid -> q <> PutMid -> w_mem w' = w_mem w ->
  Forall dull (events_of (th_call t) q) -> counted d0 (Running w' (list_set j {| th_call := th_call t; th_pc := q |} ts)) (es ++ events_of (th_call t) q).
Proof using All.
  intros K T P Q Em F. eapply counted_quiet; eauto.
  - intros k. rewrite (pend_set _ _ _ _ _ T). unfold pending. cbn. destruct (th_pc t); try congruence; destruct q; try congruence; lia.
  - intros k. eapply (locked_same sha1 cfg env ok ts j t); eauto.
Qed.
Lemma held_put p bn d : nth_error (blocks_of p) bn = Some None -> held (put_piece p bn d) = held p + zlen d.
Proof. intros H. unfold held, bytes_in. change (blocks_of (put_piece p bn d)) with (list_set bn (Some d) (blocks_of p)). rewrite (sum_set _ _ _ _ _ H). lia. Qed.
Lemma held_full busy k p m : mem_int cfg busy m -> nth_error (t_pieces m) k = Some p -> pc_coalesced p = false -> full p -> held p = piece_size i (Z.of_nat k).
Proof using All.
  intros MI P C F. pose proof (piece_bound sha1 cfg env ok _ _ _ _ MI P) as Hk. pose proof MI as (_ & MP & _). destruct F as (l & F1 & F2).
  destruct (full_data sha1 cfg env ok _ _ _ _ l Hk (MP _ _ P) F1 F2) as (data & A & Z). unfold held, blocks_of. rewrite F1, (bytes_in_all _ _ A). exact Z.
Qed.
Lemma counted_step d0 base w ts es l p' es' : inv base (Running w ts) -> kept d0 (Running w ts) es -> counted d0 (Running w ts) es -> exec (Running w ts) l = Some (p', es') -> counted d0 p' (es ++ es').
Proof using All.
  intros I K C E. destruct p' as [w' ts'|]; [|exact Logic.I]. destruct l as [c|j| |j x| |]; try discriminate E.
  { injection E as <- <- <-. eapply counted_quiet; [exact C|reflexivity| | |constructor].
    - intros k. unfold pend. rewrite map_app, sum_app. cbn. unfold sum. cbn. lia.
    - intros k. unfold piece_locked. rewrite existsb_app. cbn. now rewrite !orb_false_r. }
  2:{ cbn in E. destruct (nth_error ts j); [|discriminate]. destruct (next _ _ _ _ _ _); [|discriminate]. unfold crash_at, option_map in E. destruct (nth_error (w_past _) _); discriminate E. }
  pose proof (exec_ok sha1 cfg env ok _ _ _ _ _ I E) as (I' & _).
  apply step_shape in E as (t & o & T & N & E). destruct o as [w1 q|w1]; destruct E as [E ->]; [|discriminate E]. injection E as -> ->.
  pose proof I as (HJ & HM & OH & HT). cbn [disk_of] in HJ. pose proof HM as (MI & MA & _). pose proof (HT _ _ T) as TO. unfold next in N. unfold thread_ok in TO.
  assert (P0 : PI (fun k => piece_locked k ts) base (forget_past w)) by (split; [exact HJ|]; split; [constructor|exact HM]).
  assert (G : th_pc t <> PutMid -> q <> PutMid -> w_mem w1 = w_mem w -> Forall dull (events_of (th_call t) q) ->
    counted d0 (Running w1 (list_set j {| th_call := th_call t; th_pc := q |} ts)) (es ++ events_of (th_call t) q)) by (intros; eapply counted_plain; eauto).
  destruct (th_pc t) as [| | | |id|x] eqn:Ep, (th_call t) as [k b d|k b len|k|k|] eqn:Ec; cbn [w_mem forget_past] in N; try discriminate N; try contradiction TO.
  - destruct (check_block_size _ _ _ _) as [e|]; [injection N as <- <-; apply G; try easy; now repeat constructor|].
    destruct (t_coalesced _); injection N as <- <-; apply G; try easy; now repeat constructor.
  - assert (w_mem w1 = w_mem w /\ q <> PutMid) as (B & D).
    { destruct (t_coalesced _).
      - injection N as N. pose proof (get_block_mem cfg env k b len (forget_past w)) as M2.
        destruct (get_block cfg env k b len (forget_past w)) as [w2 []]; cbn in N, M2; try discriminate N; injection N as <- <-; repeat split; auto; discriminate.
      - unfold piece_at, bind, get_mem in N. cbn [w_mem forget_past] in N. destruct (if k <? 0 then _ else _); [|discriminate]. injection N as <- <-. repeat split; discriminate. }
    apply G; auto; try discriminate. destruct q; constructor; [exact Logic.I|constructor].
  - (* ResetPiece *)
    destruct (piece_locked k ts) eqn:PL; [discriminate|]. injection N as N. destruct (reset_piece k (forget_past w)) as [w2 r] eqn:R.
    apply (reset_piece_spec sha1 cfg env ok _ _ _ _ _ _ P0 PL) in R. destruct r as [[]|e|]; [|destruct R|discriminate N]. cbn in N. injection N as <- <-.
    destruct R as (kn & p & -> & Hp & Cp & Fp & Hp' & Ho & Hfs & _). cbn [w_mem w_fs forget_past] in Hp, Ho, Hfs. cbn [events_of].
    assert (LS : forall k', piece_locked k' (list_set j {| th_call := CReset (Z.of_nat kn); th_pc := Done RNil |} ts) = piece_locked k' ts) by (intros k'; eapply (locked_same sha1 cfg env ok ts j t); eauto; rewrite ?Ep; discriminate).
    assert (PS : forall k', pend k' (list_set j {| th_call := CReset (Z.of_nat kn); th_pc := Done RNil |} ts) = pend k' ts).
    { intros k'. rewrite (pend_set _ _ _ _ _ T). unfold pending. rewrite Ep. cbn. lia. }
    destruct C as [C1 C2]. split.
    + intros k' b' d' H. apply in_app_iff in H as [H|[H|[]]]; [eauto|discriminate].
    + intros k' p' Hq. destruct (Nat.eq_dec k' kn) as [->|NE].
      * rewrite Hp' in Hq. injection Hq as <-. unfold counts. cbn [pc_coalesced reset_of]. rewrite Cp, acc_app, PS, LS, (pend_free _ _ PL). replace (held (reset_of p _)) with 0 by (symmetry; apply bytes_in_repeat).
        change (acc (Z.of_nat kn) [Ret (CReset (Z.of_nat kn)) RNil]) with 0. split.
        -- intros NW. rewrite acc_none; [lia|]. intros b' d'. eapply NW. reflexivity.
        -- intros _ _. pose proof (acc_pos (Z.of_nat kn) es). lia.
      * rewrite Ho in Hq by exact NE. apply counts_same with (ts := ts); auto.
  - destruct (piece_locked k ts); [discriminate|]. unfold piece_at, bind, get_mem in N. cbn [w_mem forget_past] in N. destruct (if k <? 0 then _ else _); [|discriminate]. injection N as <- <-. apply G; try easy. constructor.
  - destruct (torrent_rlocked ts); [discriminate|]. injection N as <- <-. apply G; try easy. constructor.
  - (* first half of PutBlock *)
    destruct (piece_locked k ts) eqn:PL; [discriminate|]. destruct (put_in_piece k b d (forget_past w)) as [w2 r] eqn:R.
    apply (put_in_piece_spec sha1 cfg env ok _ _ _ _ _ _ _ _ P0 PL TO) in R. destruct r as [[]|e|]; [|destruct R as (-> & -> & _)|]; try discriminate N; injection N as <- <-; [|apply G; try easy; now repeat constructor].
    destruct R as (kn & p & bn & -> & Hp & Cp & -> & Bb & Hd & Hn & -> & _). cbn [w_mem w_fs forget_past] in Hp. cbn [events_of]. rewrite app_nil_r.
    set (ts1 := list_set j {| th_call := CPut (Z.of_nat kn) (BL * Z.of_nat bn) d; th_pc := PutMid |} ts).
    assert (LS : forall k', piece_locked k' ts1 = if k' =? Z.of_nat kn then true else piece_locked k' ts) by (intros k'; unfold ts1; rewrite (locked_take sha1 cfg env ok ts j t) by (auto; rewrite ?Ep; discriminate); reflexivity).
    assert (PS : forall k', pend k' ts1 = pend k' ts + if Z.of_nat kn =? k' then zlen d else 0).
    { intros k'. unfold ts1. rewrite (pend_set _ _ _ _ _ T). unfold pending. rewrite Ep. cbn [th_pc th_call]. lia. }
    destruct C as [C1 C2]. split; [exact C1|]. cbn [w_mem with_mem t_pieces with_pieces]. intros k' p' Hq. apply nth_error_list_set in Hq as [(-> & -> & _)|[NE Hq]].
    + pose proof (C2 _ _ Hp) as [D1 D2]. unfold counts. cbn [pc_coalesced put_piece]. rewrite held_put by exact Hn. rewrite PS, LS, !Z.eqb_refl. rewrite Cp in D1, D2. split.
      * intros NW. specialize (D1 NW). lia.
      * intros NI _. assert (held p <= acc (Z.of_nat kn) es + pend (Z.of_nat kn) ts); [|lia]. apply D2; [exact NI|]. intros F. exfalso.
        pose proof MI as (_ & MP & _). pose proof (piece_bound sha1 cfg env ok _ _ _ _ MI Hp) as Hkn. destruct (piece_blocks sha1 cfg env ok _ _ _ _ Hkn (MP _ _ Hp) Cp) as (_ & _ & _ & B4). apply B4 in F.
        apply all_blocks_full in F as (ds & F & _). rewrite F in Hn. rewrite nth_error_map in Hn. destruct (nth_error ds bn); discriminate.
    + rewrite <- (app_nil_r es). apply counts_same with (ts := ts); auto; [rewrite PS|rewrite LS]; destruct (_ =? _) eqn:Q; lia || reflexivity.
  - (* second half *)
    destruct TO as [Kr Ti]. destruct (torrent_rlocked ts); [discriminate|]. injection N as N. destruct (put_finish sha1 cfg env k (forget_past w)) as [w2 r] eqn:PF.
    assert (PL : piece_locked k ts = true) by (apply piece_locked_iff; exists j, t; rewrite Ec; auto).
    destruct (piece_exists sha1 cfg env ok _ _ _ MI Kr) as [p P].
    rewrite <- (Z2Nat.id k) in PF, PL by lia. pose proof (put_finish_spec sha1 cfg env ok _ base _ p _ _ _ P0 P PL PF) as (NP & _ & _ & _ & Oth & NF & CO & FU).
    destruct (put_finish_more sha1 cfg env ok _ base _ p _ _ _ P0 P PL PF) as (_ & _ & TP). rewrite Z2Nat.id in * by lia. cbn [w_mem forget_past] in *.
    assert (w2 = w1) as -> by (destruct r; cbn in N; congruence). destruct K as (K0 & _).
    pose proof MI as (_ & MP & _). destruct (MP _ _ P) as (_ & _ & _ & _ & _ & P6 & _). rewrite Z2Nat.id in P6 by lia. destruct (P6 PL) as [Pc _].
    assert (Q : q <> PutMid) by (destruct r; cbn in N; try discriminate N; injection N as <-; discriminate).
    set (ts1 := list_set j {| th_call := CPut k b d; th_pc := q |} ts).
    assert (LS : forall k', k' <> k -> piece_locked k' ts1 = piece_locked k' ts).
    { intros k' NE. unfold ts1. rewrite (locked_free sha1 cfg env ok ts j t) by auto. rewrite Ec. unfold free. cbn [call_index]. destruct (k' =? k) eqn:Y; [lia|reflexivity]. }
    assert (LK : piece_locked k ts1 = false).
    { unfold ts1. rewrite (locked_free sha1 cfg env ok ts j t) by auto. rewrite Ec. unfold free. cbn [call_index]. now rewrite Z.eqb_refl. }
    assert (PS : forall k', pend k' ts1 = pend k' ts - if k =? k' then zlen d else 0).
    { intros k'. unfold ts1. rewrite (pend_set _ _ _ _ _ T). unfold pending. rewrite Ep, Ec. cbn [th_pc th_call]. destruct q; try congruence; lia. }
    assert (OD : on_disk cfg d0 k = None).
    { destruct (on_disk cfg d0 k) as [z|] eqn:Y; [|reflexivity]. destruct K0 as [K0 _]. apply (K0 _ _ Kr) in Y. assert (pc_coalesced p = true); [|congruence].
      apply (MA _ _ P). rewrite Z2Nat.id by lia. congruence. }
    destruct C as [C1 C2]. pose proof (C2 _ _ P) as [D1 D2]. rewrite Z2Nat.id in D1, D2 by lia. rewrite Pc in D1, D2.
    assert (HF : full p -> held p = piece_size i k) by (intros F; rewrite <- (Z2Nat.id k) by lia; eapply held_full; eauto).
    assert (Oth' : forall e k' p', nth_error (t_pieces (w_mem w1)) k' = Some p' -> k' <> Z.to_nat k -> counts d0 (Z.of_nat k') p' ts1 (es ++ [Ret (CPut k b d) e])).
    { intros e k' p' Hq NE. rewrite Oth in Hq by exact NE. apply counts_same with (ts := ts); auto; [apply acc_other with (k' := k); [reflexivity|lia]|rewrite PS|apply LS; lia]. destruct (k =? Z.of_nat k') eqn:Y; lia. }
    pose proof I' as (_ & (_ & MA' & _) & _).
    pose proof (pend_free k ts1 LK) as PP. rewrite PS, Z.eqb_refl in PP.
    assert (Kn : Z.of_nat (Z.to_nat k) = k) by lia.
    destruct r as [[]|e|]; cbn in N; [| |easy]; injection N as <-; cbn [events_of].
    + split; [intros k' b' d' H; apply in_app_iff in H as [H|[H|[]]]; [eauto|injection H as <- <- <-; exact Kr]|].
      intros k' p' Hq. destruct (Nat.eq_dec k' (Z.to_nat k)) as [->|NE]; [|now apply Oth'].
      assert (AK : acc k (es ++ [Ret (CPut k b d) RNil]) = acc k es + zlen d) by (rewrite acc_app; unfold acc at 2, sum; cbn; rewrite Z.eqb_refl; lia).
      assert (Hl : piece_locked k ts = true) by exact PL.
      destruct (full_or p) as [Fp|Fp].
      * specialize (HF Fp). destruct Fp as (l & Q1 & Q2). destruct (FU _ Q1 Q2) as (data & _ & _ & HH). destruct (bytes_eqb _ _); [|destruct HH as (e & HH & _); discriminate].
        assert (pc_coalesced p' = true) as Cp' by (apply (MA' _ _ Hq); rewrite Kn; congruence).
        unfold counts. rewrite Kn, Cp', AK. split.
        -- intros NW. specialize (D1 (no_waste_less _ _ NW)). split; [lia|]. intros X. contradiction.
        -- intros NI _. specialize (D2 (no_io_less _ _ NI) (fun _ => Hl)).
           lia.
      * destruct (NF Fp) as [-> _]. cbn [w_mem forget_past] in Hq. assert (p' = p) as -> by congruence. unfold counts. rewrite Kn, Pc, AK, PS, Z.eqb_refl. split.
        -- intros NW. specialize (D1 (no_waste_less _ _ NW)). lia.
        -- intros NI _. specialize (D2 (no_io_less _ _ NI) (fun _ => Hl)). lia.
    + split; [intros k' b' d' H; apply in_app_iff in H as [H|[H|[]]]; [eauto|discriminate]|].
      intros k' p' Hq. destruct (Nat.eq_dec k' (Z.to_nat k)) as [->|NE]; [|now apply Oth'].
      assert (AK : acc k (es ++ [Ret (CPut k b d) (RErr e)]) = acc k es) by (rewrite acc_app; unfold acc at 2, sum; cbn; lia).
      destruct (full_or p) as [Fp|Fp]; [|destruct (NF Fp); discriminate]. specialize (HF Fp). pose proof Fp as (l & Q1 & Q2). destruct (FU _ Q1 Q2) as (data & _ & _ & HH).
      unfold counts. rewrite Kn, AK, PS, Z.eqb_refl, LK. split.
      * intros NW. specialize (D1 (no_waste_less _ _ NW)). destruct TP as [TP|TP].
        -- rewrite TP in Hq. assert (p' = p) as -> by congruence. rewrite Pc. unfold zlen in *. lia.
        -- rewrite TP, (list_set_same_len _ _ _ p) in Hq by exact P. injection Hq as <-. cbn [pc_coalesced done_piece]. split; [unfold zlen in *; lia|]. intros X. contradiction.
      * intros NI. destruct (bytes_eqb _ _).
        -- exfalso. apply NI, Exists_app. right. left. cbn. now rewrite HH.
        -- destruct HH as (_ & _ & _ & HP & _). rewrite HP in Hq. assert (p' = p) as -> by congruence. rewrite Pc. intros X. specialize (X Fp). discriminate.
  - assert (w_mem w1 = w_mem w /\ q <> PutMid) as (B & D).
    { destruct (piece_locked k ts); [discriminate|]. injection N as N. pose proof (get_block_mem cfg env k b len (forget_past w)) as M2.
      destruct (get_block cfg env k b len (forget_past w)) as [w2 []]; cbn in N, M2; try discriminate N; injection N as <- <-; repeat split; auto; discriminate. }
    apply G; auto; try discriminate. destruct q; constructor; [exact Logic.I|constructor].
  - destruct (nth_error _ id) as [[[|]|]|]; try discriminate N; injection N as <- <-; apply G; try easy; now repeat constructor.
  - destruct (nth_error _ id) as [[[|]|]|]; try discriminate N; injection N as <- <-; apply G; try easy; now repeat constructor.
Qed.
Lemma counted_runs d0 base ls : forall w ts es p' es', inv base (Running w ts) -> kept d0 (Running w ts) es -> counted d0 (Running w ts) es -> Forall same_run ls ->
  execs (Running w ts) ls = Some (p', es') -> counted d0 p' (es ++ es').
Proof using All.
  induction ls as [|l ls IH]; cbn [StorageSys.execs]; intros w ts es p' es' I K C S E.
  - injection E as <- <-. now rewrite app_nil_r.
  - inversion S; subst. destruct (exec (Running w ts) l) as [[p1 e1]|] eqn:E1; [|discriminate]. destruct (execs p1 ls) as [[p2 e2]|] eqn:E2; [|discriminate]. injection E as <- <-.
    pose proof (kept_step sha1 cfg env ok _ _ _ _ _ _ _ _ I K E1) as K1. pose proof (counted_step _ _ _ _ _ _ _ _ I K C E1) as C1. pose proof (proj1 (exec_ok sha1 cfg env ok _ _ _ _ _ I E1)) as I1. destruct p1 as [w1 ts1|f1 t1].
    + rewrite app_assoc. eapply IH; eassumption.
    + apply (dead_stays sha1 cfg env) in E2 as ->; [exact Logic.I|assumption].
Qed.
Lemma counted_start base d t w ts es : inv base (Dead d t) -> exec (Dead d t) LStart = Some (Running w ts, es) -> counted d (Running w ts) [].
Proof using All.
  intros [[F _] _] E. cbn [disk_of] in F. unfold StorageSys.exec in E. pose proof (load_bare cfg env (booted cfg d t)) as B. destruct (load cfg env (booted cfg d t)) as [w1 r] eqn:L.
  destruct (load_spec sha1 cfg env ok _ _ _ _ F L) as ((_ & X) & _ & R). destruct r as [u|e|]; [|discriminate|contradiction R]. injection E as -> <- <-.
  destruct R as (M & _ & O & A). cbn [fst] in B. specialize (B (new_bare cfg)). unfold bare in B. rewrite Forall_forall in B.
  split; [intros k b dd []|]. intros k p P. unfold counts. change (acc (Z.of_nat k) []) with 0. change (pend (Z.of_nat k) []) with 0.
  pose proof (piece_bound sha1 cfg env ok _ _ _ _ (proj1 M) P) as Hk. destruct (piece_size_eq cfg ok _ Hk) as [_ Hs].
  destruct (pc_coalesced p) eqn:Cp.
  - split; [intros _; split; [lia|reflexivity]|]. intros _ N. exfalso. apply (proj1 (O _ Hk)); [|exact N]. exists p. rewrite Nat2Z.id. auto.
  - replace (held p) with 0; [split; lia|]. unfold held, blocks_of. rewrite (B p) by (eapply nth_error_In; eauto). symmetry. apply bytes_in_repeat.
Qed.

(** The blocks in memory are at most the piece. *)
Lemma bytes_in_le s l : (forall j b, nth_error l j = Some (Some b) -> zlen b = block_size s (Z.of_nat j)) -> (forall j, (j < List.length l)%nat -> 0 <= block_size s (Z.of_nat j)) ->
  bytes_in l <= sum (map (fun j => block_size s (Z.of_nat j)) (seq 0 (List.length l))).
Proof.
  intros H P. assert (G : forall l a, (forall j b, nth_error l j = Some (Some b) -> zlen b = block_size s (Z.of_nat (a + j))) -> (forall j, (j < List.length l)%nat -> 0 <= block_size s (Z.of_nat (a + j))) ->
    bytes_in l <= sum (map (fun j => block_size s (Z.of_nat j)) (seq a (List.length l)))).
  2:{ apply (G l 0%nat); auto. }
  clear. induction l as [|o l IH]; intros a H P; [unfold bytes_in, sum; cbn; lia|]. unfold bytes_in. cbn [map List.length seq]. rewrite !sum_cons.
  assert (bytes_in l <= sum (map (fun j => block_size s (Z.of_nat j)) (seq (S a) (List.length l)))).
  { apply IH; intros j; [intros b Hb; rewrite (H (S j) b Hb)|intros Hj; specialize (P (S j) ltac:(cbn; lia))]; rewrite <- ?Nat.add_succ_comm in *; [reflexivity|exact P]. }
  unfold bytes_in in *. specialize (P 0%nat ltac:(cbn; lia)). rewrite Nat.add_0_r in P. destruct o as [b|]; [|lia]. specialize (H 0%nat b eq_refl). rewrite Nat.add_0_r in H. lia.
Qed.
Lemma held_le busy k p m : mem_int cfg busy m -> nth_error (t_pieces m) k = Some p -> pc_coalesced p = false -> held p <= piece_size i (Z.of_nat k).
Proof using All.
  intros MI P C. pose proof (piece_bound sha1 cfg env ok _ _ _ _ MI P) as Hk. pose proof MI as (_ & MP & _).
  destruct (piece_blocks sha1 cfg env ok _ _ _ _ Hk (MP _ _ P) C) as (B1 & _ & B3 & _). destruct (piece_size_eq cfg ok _ Hk) as [_ Hs]. set (s := piece_size i (Z.of_nat k)) in *.
  destruct (num_blocks_spec s) as [N1 N2]; [lia|].
  assert (BP : forall j, (j < List.length (blocks_of p))%nat -> 0 <= block_size s (Z.of_nat j)) by (intros j Hj; unfold block_size, zlen, BL in *; rewrite <- B1 in *; lia).
  unfold held. etransitivity; [apply (bytes_in_le s); assumption|]. set (L := List.length (blocks_of p)) in *.
  set (ds := map (fun j => repeat Byte.x00 (Z.to_nat (block_size s (Z.of_nat j)))) (seq 0 L)).
  assert (T : zlen (concat ds) = s).
  { apply blocks_total; [lia|unfold ds, zlen in *; rewrite map_length, seq_length; exact B1|]. intros j d H. unfold ds in H. rewrite nth_error_map in H. destruct (nth_error (seq 0 L) j) as [x|] eqn:X; [|discriminate]. injection H as <-.
    assert (j < L)%nat by (apply nth_error_Some_lt in X; now rewrite seq_length in X). rewrite (nth_error_nth' _ 0%nat) in X by (now rewrite seq_length). injection X as <-. rewrite seq_nth by assumption. cbn [plus]. unfold zlen. rewrite repeat_length. specialize (BP _ H). lia. }
  eapply Z.le_trans; [|apply Z.eq_le_incl; exact T]. unfold ds. clear - BP. assert (G : forall js, (forall j, In j js -> 0 <= block_size s (Z.of_nat j)) -> sum (map (fun j => block_size s (Z.of_nat j)) js) <= zlen (concat (map (fun j => repeat Byte.x00 (Z.to_nat (block_size s (Z.of_nat j)))) js))).
  { induction js as [|j js IH]; intros H; [unfold sum, zlen; cbn; lia|]. cbn [map concat]. rewrite sum_cons. unfold zlen in *. rewrite app_length, repeat_length. specialize (IH (fun x Hx => H x (or_intror Hx))). specialize (H j (or_introl eq_refl)). lia. }
  apply G. intros j Hj. apply in_seq in Hj. apply BP. lia.
Qed.
Lemma accepted_sum es : (forall k b d, In (Ret (CPut k b d) RNil) es -> 0 <= k < n) -> accepted es = sum (map (fun k => acc (Z.of_nat k) es) (seq 0 (List.length (i_pieces i)))).
Proof.
  intros H. unfold acc. rewrite (sum_split (fun k e => put_on (Z.of_nat k) e)). unfold accepted, sum. apply sum_map_in. intros [c r] He.
  destruct c as [k b d| | | |]; [|symmetry; apply sum_zero; reflexivity..]. destruct r; [|symmetry; apply sum_zero; reflexivity..].
  specialize (H _ _ _ He). unfold num_pieces, zlen in H. cbn [put_on].
  assert (G : forall c a, (a <= Z.to_nat k < a + c)%nat -> fold_right Z.add 0 (map (fun x => if k =? Z.of_nat x then zlen d else 0) (seq a c)) = zlen d).
  { assert (Z0 : forall c a, (Z.to_nat k < a)%nat -> fold_right Z.add 0 (map (fun x => if k =? Z.of_nat x then zlen d else 0) (seq a c)) = 0).
    { clear - H. induction c as [|c IH]; intros a Ha; [reflexivity|]. cbn [seq map fold_right]. rewrite IH by lia. destruct (k =? Z.of_nat a) eqn:X; lia. }
    clear - H Z0. induction c as [|c IH]; intros a Ha; [lia|]. cbn [seq map fold_right]. destruct (k =? Z.of_nat a) eqn:X; [rewrite Z0 by lia; lia|rewrite IH by lia; lia]. }
  symmetry. apply G. lia.
Qed.
Lemma sum_minus {A} (g h : A -> Z) l : sum (map (fun x => g x - h x) l) = sum (map g l) - sum (map h l).
Proof. unfold sum. induction l as [|a l IH]; cbn; lia. Qed.

Section Run.
Variables (f : fs) (tick : nat) (ls : list label) (d : fs) (t : nat) (es : list event) (w : world) (ts : list thread) (es1 : list event)
  (ls2 : list label) (w2 : world) (ts2 : list thread) (es2 : list event).
Hypothesis U : untouched cfg f.
Hypothesis E : execs (Dead f tick) ls = Some (Dead d t, es).
Hypothesis E1 : exec (Dead d t) LStart = Some (Running w ts, es1).
Hypothesis S2 : Forall same_run ls2.
Hypothesis E2 : execs (Running w ts) ls2 = Some (Running w2 ts2, es2).
Lemma run_counted : inv f (Dead d t) /\ inv f (Running w2 ts2) /\ kept d (Running w2 ts2) es2 /\ counted d (Running w2 ts2) es2.
Proof using All.
  pose proof (execs_inv sha1 cfg env ok _ _ _ _ _ U E) as I. pose proof (proj1 (exec_ok sha1 cfg env ok _ _ _ _ _ I E1)) as I1.
  destruct (run_kept sha1 cfg env ok _ _ _ _ _ _ _ _ _ _ _ _ _ U E E1 S2 E2) as [I2 K2].
  pose proof (kept_start sha1 cfg env ok _ _ _ _ _ _ I E1) as K. pose proof (counted_start _ _ _ _ _ _ I E1) as C.
  exact (conj I (conj I2 (conj K2 (counted_runs _ _ _ _ _ _ _ _ I1 K C S2 E2)))).
Qed.
Definition size_on (g : fs) (k : nat) : Z := match on_disk cfg g (Z.of_nat k) with Some b => zlen b | None => 0 end.
Lemma size_on_some base p k b : inv base p -> 0 <= Z.of_nat k < n -> on_disk cfg (disk_of p) (Z.of_nat k) = Some b -> zlen b = piece_size i (Z.of_nat k).
Proof using env ok. intros [[F _] _] Hk H. destruct (fs_ok_verified sha1 cfg env ok _ _ _ F Hk H) as [V _]. exact V. Qed.
Lemma accepted_covers_new : ~ Exists io_error es2 -> stored_bytes cfg (w_fs w2) - stored_bytes cfg d <= accepted es2.
Proof using All.
  intros N. destruct run_counted as (I0 & I2 & (K0 & _) & C1 & C2). rewrite (accepted_sum _ C1). unfold stored_bytes. change (fold_right Z.add 0) with sum. rewrite <- sum_minus. apply sum_le.
  intros k Hk. apply in_seq in Hk. assert (Hkn : 0 <= Z.of_nat k < n) by (unfold num_pieces, zlen; lia). pose proof (acc_pos (Z.of_nat k) es2) as AP.
  destruct (on_disk cfg (w_fs w2) (Z.of_nat k)) as [b|] eqn:O2; [|destruct (on_disk cfg d (Z.of_nat k)) as [b|]; unfold zlen; lia].
  rewrite (size_on_some _ _ _ _ I2 Hkn O2). destruct (on_disk cfg d (Z.of_nat k)) as [b0|] eqn:O0; [rewrite (size_on_some _ _ _ _ I0 Hkn O0); lia|].
  destruct I2 as (_ & (MI & MA & _) & _). destruct (piece_exists sha1 cfg env ok _ _ _ MI Hkn) as [p P]. rewrite Nat2Z.id in P.
  assert (Cp : pc_coalesced p = true) by (apply (MA _ _ P); congruence). destruct (C2 _ _ P) as [_ X]. rewrite Cp in X. specialize (X N O0). lia.
Qed.
Lemma accepted_at_most : no_waste es2 -> accepted es2 <= total_size i - stored_bytes cfg d.
Proof using All.
  intros N. destruct run_counted as (I0 & I2 & (K0 & _) & C1 & C2). rewrite (accepted_sum _ C1). destruct (sizes cfg ok) as [Hs1 Hs2].
  assert (TS : total_size i = sum (map (fun k => piece_size i (Z.of_nat k)) (seq 0 (List.length (i_pieces i))))).
  { unfold sum. rewrite (sum_sizes sha1 cfg env ok) by (unfold num_pieces, zlen; lia). unfold num_pieces, zlen in *. lia. }
  rewrite TS. unfold stored_bytes. change (fold_right Z.add 0) with sum. rewrite <- sum_minus. apply sum_le.
  intros k Hk. apply in_seq in Hk. assert (Hkn : 0 <= Z.of_nat k < n) by (unfold num_pieces, zlen; lia). pose proof (pend_pos (Z.of_nat k) ts2) as AP.
  destruct I2 as (_ & (MI & MA & _) & _). destruct (piece_exists sha1 cfg env ok _ _ _ MI Hkn) as [p P]. rewrite Nat2Z.id in P. destruct (C2 _ _ P) as [X _]. specialize (X N).
  destruct (on_disk cfg d (Z.of_nat k)) as [b0|] eqn:O0.
  - rewrite (size_on_some _ _ _ _ I0 Hkn O0). destruct K0 as [K0 _]. assert (Cp : pc_coalesced p = true) by (apply (MA _ _ P); rewrite (K0 _ _ Hkn O0); discriminate). rewrite Cp in X. destruct X as [_ X]. rewrite X by discriminate. lia.
  - destruct (pc_coalesced p) eqn:Cp; [lia|]. pose proof (held_le _ _ _ _ MI P Cp). lia.
Qed.
Lemma accepted_exact c : ~ Exists io_error es2 -> no_waste es2 -> content cfg (w_fs w2) = Some c -> accepted es2 = total_size i - stored_bytes cfg d.
Proof using All.
  intros N W C. pose proof (accepted_covers_new N). pose proof (accepted_at_most W). destruct run_counted as (_ & I2 & _). pose proof I2 as [[F _] _]. cbn [disk_of] in F.
  pose proof F as ((D & _) & _). destruct D as [D|(c' & D & Wz & _)]; [rewrite (content_target_none cfg) in C by exact D; discriminate|]. rewrite (stored_whole sha1 cfg env ok _ _ D Wz) in H. unfold zlen in *. lia.
Qed.
End Run.
(** ** Downloaded *)
Lemma put_finish_downloaded busy f0 k p w w' r : PI busy f0 w -> nth_error (t_pieces (w_mem w)) k = Some p -> busy (Z.of_nat k) = true ->
  put_finish sha1 cfg env (Z.of_nat k) w = (w', r) -> r <> Err EIO ->
  t_downloaded (w_mem w') = t_downloaded (w_mem w) + match r with Err (EChecksum _ _ _) => piece_size i (Z.of_nat k) | _ => 0 end.
Proof using All.
  intros P Hk Hb E NE. pose proof (PI_St sha1 cfg env ok _ _ _ P) as S. pose proof P as ([F X] & _ & M). pose proof M as (MI & MA & MC). pose proof MI as (M1 & M2 & _).
  pose proof (M2 _ _ Hk) as PO. pose proof PO as (P1 & P2 & P3 & P4 & P5 & P6 & P7 & P8 & P9). destruct (P6 Hb) as [Pc Pb].
  pose proof (put_finish_spec sha1 cfg env ok _ _ _ _ _ _ _ P Hk Hb E) as (NP & _ & _ & _ & _ & NF & _ & FU).
  destruct (incomplete_absent sha1 cfg env ok _ _ _ _ _ F M Hk Pc) as (Ho & Hcn & Ht & Hp & Htc).
  destruct (full_or p) as [Fp|Fp]; [|destruct (NF Fp) as [-> ->]; lia].
  pose proof (piece_bound sha1 cfg env ok _ _ _ _ MI Hk) as Hkn. pose proof Fp as (l & Hl & Hc). destruct (FU _ Hl Hc) as (data0 & Hd0 & _ & HH).
  destruct (full_data sha1 cfg env ok (t_futures (w_mem w)) (busy (Z.of_nat k)) k p l) as (data & Hd & Hs); auto. assert (data0 = data) as -> by congruence.
  unfold put_finish in E. destruct (coalesce_blocks sha1 cfg env (Z.of_nat k) w) as [w1 r1] eqn:E1.
  eapply (t_coalesce_full sha1 cfg env ok) in E1; eauto. destruct r1 as [u1|e1|]; cbn in E1; [| |easy].
  - destruct E1 as (Hh & f2 & b & S1 & MI2 & L1 & T1 & T2 & T3 & X2).
    assert (MO2 : mem_ok cfg (free busy (Z.of_nat k)) f2 (m_piece_done k p b (w_mem w))) by (eapply (mem_ok_piece_done sha1 cfg env ok); eauto).
    destruct (coalesce_pieces_spec sha1 cfg env ok _ _ _ _ _ _ _ S1 MO2 T1 E) as (R1 & R2 & R3 & R4 & R5 & Rd & R6 & R7). rewrite Rd. cbn [t_downloaded m_piece_done].
    rewrite (proj2 (bytes_eqb_eq _ _) Hh) in HH. destruct r as [[]|e|]; [lia|congruence|easy].
  - destruct E1 as [(T1 & T2 & T3 & T4) He]. assert (Hf : nth_error (t_futures (w_mem w)) (pc_err p) = Some None) by (apply P8; auto).
    unfold bind at 1 in E. rewrite (piece_at_in sha1 cfg env ok k p) in E by (now rewrite T3).
    unfold add_downloaded, deliver, bind, get_mem, set_mem, fails in E. cbn in E. rewrite T3, Hf in E. injection E as <- <-. cbn [w_mem with_mem t_downloaded].
    destruct He as [->|[_ ->]]; [congruence|]. rewrite P3. reflexivity.
Qed.
Lemma failed_app a b : failed_bytes i (a ++ b) = failed_bytes i a + failed_bytes i b.
Proof. unfold failed_bytes. now rewrite map_app, sum_app. Qed.
Lemma downloaded_step base w ts l w' ts' es : inv base (Running w ts) -> exec (Running w ts) l = Some (Running w' ts', es) -> ~ Exists io_error es ->
  t_downloaded (w_mem w') = t_downloaded (w_mem w) + failed_bytes i es.
Proof using All.
  intros I E NI. destruct l as [c|j| |j x| |]; try discriminate E.
  { injection E as <- <- <-. cbn. unfold failed_bytes, sum. cbn. lia. }
  2:{ cbn in E. destruct (nth_error ts j); [|discriminate]. destruct (next _ _ _ _ _ _); [|discriminate]. unfold crash_at, option_map in E. destruct (nth_error (w_past _) _); discriminate E. }
  apply step_shape in E as (t & o & T & N & E). destruct o as [w1 q|w1]; destruct E as [E ->]; [|discriminate E]. injection E as -> ->.
  pose proof I as (HJ & HM & OH & HT). cbn [disk_of] in HJ. pose proof HM as (MI & MA & _). pose proof (HT _ _ T) as TO. unfold next in N. unfold thread_ok in TO.
  assert (P0 : PI (fun k => piece_locked k ts) base (forget_past w)) by (split; [exact HJ|]; split; [constructor|exact HM]).
  assert (G : t_downloaded (w_mem w1) = t_downloaded (w_mem w) -> failed_bytes i (events_of (th_call t) q) = 0 -> t_downloaded (w_mem w1) = t_downloaded (w_mem w) + failed_bytes i (events_of (th_call t) q)) by lia.
  destruct (th_pc t) as [| | | |id|x] eqn:Ep, (th_call t) as [k b d|k b len|k|k|] eqn:Ec; cbn [w_mem forget_past] in N; try discriminate N; try contradiction TO.
  - destruct (check_block_size _ _ _ _) as [e|] eqn:CB; [injection N as <- <-|destruct (t_coalesced _); injection N as <- <-; apply G; reflexivity].
    apply G; [reflexivity|]. unfold check_block_size in CB. cbn [events_of]. destruct (negb _); [injection CB as <-; reflexivity|]. cbn zeta in CB. destruct (negb _); [injection CB as <-; reflexivity|discriminate].
  - assert (w_mem w1 = w_mem w) as B.
    { destruct (t_coalesced _).
      - injection N as N. pose proof (get_block_mem cfg env k b len (forget_past w)) as M2.
        destruct (get_block cfg env k b len (forget_past w)) as [w2 []]; cbn in N, M2; try discriminate N; injection N as <- <-; auto.
      - unfold piece_at, bind, get_mem in N. cbn [w_mem forget_past] in N. destruct (if k <? 0 then _ else _); [|discriminate]. injection N as <- <-. reflexivity. }
    apply G; [now rewrite B|]. destruct q; reflexivity.
  - destruct (piece_locked k ts) eqn:PL; [discriminate|]. injection N as N.
    assert (M : t_downloaded (w_mem (fst (reset_piece k (forget_past w)))) = t_downloaded (w_mem w)).
    { unfold reset_piece, piece_at, deliver, set_piece, get_mem, set_mem, bind. cbn. destruct (if k <? 0 then _ else _) as [q0|]; [|reflexivity]. cbn. destruct (nth_error _ (pc_err q0)) as [[|]|]; reflexivity. }
    destruct (reset_piece k (forget_past w)) as [w2 []]; cbn in N, M; try discriminate N; injection N as <- <-; apply G; auto.
  - destruct (piece_locked k ts); [discriminate|]. unfold piece_at, bind, get_mem in N. cbn [w_mem forget_past] in N. destruct (if k <? 0 then _ else _); [|discriminate]. injection N as <- <-. now apply G.
  - destruct (torrent_rlocked ts); [discriminate|]. injection N as <- <-. now apply G.
  - destruct (piece_locked k ts) eqn:PL; [discriminate|]. destruct (put_in_piece k b d (forget_past w)) as [w2 r] eqn:R.
    apply (put_in_piece_spec sha1 cfg env ok _ _ _ _ _ _ _ _ P0 PL TO) in R. destruct r as [[]|e|]; [|destruct R as (-> & -> & _)|]; try discriminate N; injection N as <- <-; [|now apply G].
    destruct R as (kn & p & bn & -> & Hp & Cp & -> & Bb & Hd & Hn & -> & _). now apply G.
  - destruct TO as [Kr Ti]. destruct (torrent_rlocked ts); [discriminate|]. injection N as N. destruct (put_finish sha1 cfg env k (forget_past w)) as [w2 r] eqn:PF.
    assert (PL : piece_locked k ts = true) by (apply piece_locked_iff; exists j, t; rewrite Ec; auto).
    destruct (piece_exists sha1 cfg env ok _ _ _ MI Kr) as [p P]. assert (w2 = w1) as -> by (destruct r; cbn in N; congruence).
    rewrite <- (Z2Nat.id k) in PF, PL by lia. pose proof (put_finish_downloaded _ base _ p _ _ _ P0 P PL PF) as D. rewrite Z2Nat.id in D by lia. cbn [w_mem forget_past] in D.
    destruct r as [[]|e|]; cbn in N; try discriminate N; injection N as <-; cbn [events_of] in *.
    + rewrite D by discriminate. unfold failed_bytes, sum. cbn. lia.
    + rewrite D. { unfold failed_bytes, sum. cbn. lia. } intros [= ->]. apply NI. now left.
  - assert (w_mem w1 = w_mem w) as B.
    { destruct (piece_locked k ts); [discriminate|]. injection N as N. pose proof (get_block_mem cfg env k b len (forget_past w)) as M2.
      destruct (get_block cfg env k b len (forget_past w)) as [w2 []]; cbn in N, M2; try discriminate N; injection N as <- <-; auto. }
    apply G; [now rewrite B|]. destruct q; reflexivity.
  - destruct (nth_error _ id) as [[[|]|]|]; try discriminate N; injection N as <- <-; now apply G.
  - destruct (nth_error _ id) as [[[|]|]|]; try discriminate N; injection N as <- <-; now apply G.
Qed.
Lemma downloaded_runs base ls : forall w ts w' ts' es, inv base (Running w ts) -> Forall same_run ls -> execs (Running w ts) ls = Some (Running w' ts', es) -> ~ Exists io_error es ->
  t_downloaded (w_mem w') = t_downloaded (w_mem w) + failed_bytes i es.
Proof using All.
  induction ls as [|l ls IH]; cbn [StorageSys.execs]; intros w ts w' ts' es I S E NI; [injection E as <- _ <-; unfold failed_bytes, sum; cbn; lia|].
  inversion S; subst. destruct (exec (Running w ts) l) as [[p1 e1]|] eqn:E1; [|discriminate]. destruct (execs p1 ls) as [[p2 e2]|] eqn:E2; [|discriminate]. injection E as -> <-.
  destruct p1 as [w1 ts1|f1 t1]; [|apply (dead_stays sha1 cfg env) in E2; [discriminate|assumption]]. rewrite failed_app.
  rewrite (IH _ _ _ _ _ (proj1 (exec_ok sha1 cfg env ok _ _ _ _ _ I E1)) H2 E2) by (intros X; apply NI, Exists_app; auto). rewrite (downloaded_step _ _ _ _ _ _ _ I E1) by (intros X; apply NI, Exists_app; auto). lia.
Qed.
Lemma downloaded_exact f tick ls d t es w ts es1 ls2 w2 ts2 es2 : untouched cfg f -> execs (Dead f tick) ls = Some (Dead d t, es) -> (i_files i = [] \/ content cfg d = None) ->
  exec (Dead d t) LStart = Some (Running w ts, es1) -> Forall same_run ls2 -> execs (Running w ts) ls2 = Some (Running w2 ts2, es2) -> ~ Exists io_error es2 ->
  t_downloaded (w_mem w2) = stored_bytes cfg d + failed_bytes i es2.
Proof using All.
  intros U E C E1 S E2 NI. rewrite <- (downloaded_after_load sha1 cfg env ok _ _ _ _ _ _ _ _ _ U E C E1).
  pose proof (execs_inv sha1 cfg env ok _ _ _ _ _ U E) as I. pose proof (proj1 (exec_ok sha1 cfg env ok _ _ _ _ _ I E1)) as I1. eapply downloaded_runs; eauto.
Qed.
End Count.
