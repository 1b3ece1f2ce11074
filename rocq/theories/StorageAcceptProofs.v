(** Accepted blocks are kept: when all blocks of a piece have been accepted the piece is
    stored, and when this holds of all pieces the torrent is complete. *)
From Verif Require Import GoBase GoBaseProofs Metainfo MetainfoSpec
  Fs Storage StorageSys StorageSpec StorageSysSpec StorageMemSpec StorageWaitSpec StorageAcceptSpec StorageFsProofs StorageIoProofs StorageProofs StorageLoadProofs StorageSysProofs StorageClaimProofs StorageMoreProofs StorageWaitProofs.

Lemma has_block_snoc k x es e : has_block k x (es ++ [e]) <-> (exists d, e = Ret (CPut k x d) RNil) \/ (has_block k x es /\ e <> Ret (CReset k) RNil).
Proof.
  split.
  - intros (es1 & d & es2 & E & N). destruct es2 as [|e' es2'] using rev_ind.
    + apply app_inj_tail in E as [-> ->]. left. eauto.
    + rewrite app_comm_cons, app_assoc in E. apply app_inj_tail in E as [-> <-]. right. split.
      * exists es1, d, es2'. split; [reflexivity|]. intros X. apply N, in_app_iff. now left.
      * intros ->. apply N, in_app_iff. right. now left.
  - intros [[d ->]|[(es1 & d & es2 & -> & N) H]]; [exists es, d, []; auto|]. exists es1, d, (es2 ++ [e]). rewrite <- app_assoc. split; [reflexivity|].
    intros X. apply in_app_iff in X as [X|[X|[]]]; contradiction.
Qed.
Lemma has_block_nil k x : ~ has_block k x [].
Proof. intros (es1 & d & es2 & E & _). destruct es1; discriminate. Qed.

Section Accept.
Variable sha1 : bytes -> bytes.
Variable cfg : config.
Variable env : nat -> choice.
Hypothesis ok : config_ok cfg.
Notation exec := (StorageSys.exec sha1 cfg env).
Notation execs := (StorageSys.execs sha1 cfg env).
Notation i := (c_info cfg).
Notation n := (num_pieces i).
Notation inv := (StorageSysProofs.inv sha1 cfg).
Notation PI := (StorageProofs.PI sha1 cfg).

(** Block x of piece k is there. *)
Definition block_in (p : piece) (x : Z) : Prop := pc_coalesced p = true \/ exists b, nth_error (blocks_of p) (Z.to_nat (x / BL)) = Some (Some b).
Definition there (m : mem) (k x : Z) : Prop := 0 <= k < n /\ exists p, nth_error (t_pieces m) (Z.to_nat k) = Some p /\ block_in p x.
Definition missing (k : Z) (es : list event) : Prop := exists x y, tile (piece_size i k) x y /\ ~ has_block k x es.
Definition kept (d0 : fs) (p : proc) (es : list event) : Prop :=
  match p with
  | Running w ts =>
      ext cfg d0 (w_fs w) /\
      (forall k x, has_block k x es -> there (w_mem w) k x) /\
      (forall j t k x d, nth_error ts j = Some t -> th_pc t = PutMid -> th_call t = CPut k x d -> ~ has_block k x es /\ there (w_mem w) k x) /\
      (forall k p, nth_error (t_pieces (w_mem w)) k = Some p -> pc_coalesced p = false -> full p -> piece_locked (Z.of_nat k) ts = false -> missing (Z.of_nat k) es) /\
      ((forall k p, nth_error (t_pieces (w_mem w)) k = Some p -> pc_coalesced p = true) -> t_coalesced (w_mem w) = false ->
       exists k, 0 <= k < n /\ on_disk cfg d0 k = None /\ missing k es)
  | Dead _ _ => True
  end.

(** Steps that change neither pieces nor locks, and no event that matters. *)
Definition dull (e : event) : Prop := match e with Ret (CPut _ _ _) RNil | Ret (CReset _) RNil => False | _ => True end.
Lemma dull_block es es' k x : Forall dull es' -> has_block k x (es ++ es') <-> has_block k x es.
Proof.
  revert es. induction es' as [|e es' IH]; intros es F; [now rewrite app_nil_r|]. inversion F; subst. replace (es ++ e :: es') with ((es ++ [e]) ++ es') by now rewrite <- app_assoc.
  rewrite IH, has_block_snoc by assumption. split; [intros [[d ->]|[H _]]; [contradiction|exact H]|]. intros H. right. split; [exact H|]. intros ->. contradiction.
Qed.
Lemma dull_missing es es' k : Forall dull es' -> missing k (es ++ es') <-> missing k es.
Proof. intros F. unfold missing. split; intros (x & y & T & H); exists x, y; (split; [exact T|]); rewrite dull_block in *; auto. Qed.
Lemma kept_quiet d0 w ts es w' ts' es' : kept d0 (Running w ts) es -> w_fs w' = w_fs w -> w_mem w' = w_mem w ->
  (forall k, piece_locked k ts' = piece_locked k ts) -> (forall j t, nth_error ts' j = Some t -> th_pc t = PutMid -> exists j', nth_error ts j' = Some t) ->
  Forall dull es' -> kept d0 (Running w' ts') (es ++ es').
Proof.
  intros (K0 & K1 & K2 & K3 & K4) Ef Em L T F. unfold kept. rewrite Ef, Em. repeat split.
  - apply K0. - apply K0. - apply K0.
  - rewrite dull_block in H by exact F. now apply (K1 k x).
  - rewrite dull_block in H by exact F. now apply (K1 k x).
  - rewrite dull_block in H by exact F. now apply (K1 k x).
  - destruct (T _ _ H H0) as [j' H']. rewrite dull_block by exact F. now apply (K2 j' t k x d).
  - destruct (T _ _ H H0) as [j' H']. now apply (K2 j' t k x d).
  - destruct (T _ _ H H0) as [j' H']. now apply (K2 j' t k x d).
  - destruct (T _ _ H H0) as [j' H']. now apply (K2 j' t k x d).
  - intros k p Hp Hc Hf Hl. rewrite dull_missing by exact F. rewrite L in Hl. eauto.
  - intros A N. destruct (K4 A N) as (k & Hk & Ho & M). exists k. rewrite dull_missing by exact F. auto.
Qed.
Lemma kept_plain d0 w ts es w' j t q : kept d0 (Running w ts) es -> nth_error ts j = Some t -> th_pc t <> PutMid -> q <> PutMid -> w_fs w' = w_fs w -> w_mem w' = w_mem w ->
  Forall dull (events_of (th_call t) q) -> kept d0 (Running w' (list_set j {| th_call := th_call t; th_pc := q |} ts)) (es ++ events_of (th_call t) q).
Proof using All.
  intros K T P Q Ef Em F. eapply kept_quiet; eauto.
  - intros k. eapply (locked_same sha1 cfg env ok ts j t); eauto.
  - intros a u Hu Pu. apply nth_error_list_set in Hu as [(-> & -> & _)|[_ Hu]]; [contradiction|eauto].
Qed.
Lemma block_quot j : Z.to_nat (BL * Z.of_nat j / BL) = j.
Proof. rewrite Z.mul_comm, Z.div_mul by (unfold BL; lia). lia. Qed.
Lemma other_block es c r k k' x : call_index c = k -> k <> k' -> has_block k' x (es ++ [Ret c r]) <-> has_block k' x es.
Proof.
  intros C N. rewrite has_block_snoc. split; [intros [[d E]|[H _]]; [|exact H]; injection E as -> ->; cbn in C; congruence|].
  intros H. right. split; [exact H|]. intros E. injection E as -> ->. cbn in C. congruence.
Qed.
Lemma other_missing es c r k k' : call_index c = k -> k <> k' -> missing k' (es ++ [Ret c r]) <-> missing k' es.
Proof. intros C N. unfold missing. split; intros (x & y & T & H); exists x, y; (split; [exact T|]); rewrite (other_block _ _ _ k) in * by auto; auto. Qed.
Lemma there_set m m' k p q k' x : nth_error (t_pieces m) k = Some p -> t_pieces m' = list_set k q (t_pieces m) -> (block_in p x -> block_in q x) -> there m k' x -> there m' k' x.
Proof.
  intros P E B (K & p' & P' & B'). split; [exact K|]. rewrite E. destruct (Nat.eq_dec k (Z.to_nat k')) as [->|NE].
  - exists q. split; [eapply list_set_same_len; eauto|]. apply B. congruence.
  - exists p'. split; [now rewrite list_set_nth_neq|exact B'].
Qed.
Lemma full_or p : full p \/ ~ full p.
Proof.
  destruct (pc_blocks p) as [l|] eqn:B; [destruct (Z.eq_dec (pc_complete p) (zlen l)) as [Q|Q]|]; [left; exists l; auto|right; intros (l' & B' & Q'); congruence|right; intros (l' & B' & _); congruence].
Qed.
Lemma kept_step d0 base w ts es l p' es' : inv base (Running w ts) -> kept d0 (Running w ts) es -> exec (Running w ts) l = Some (p', es') -> kept d0 p' (es ++ es').
Proof using All.
  intros I K E. destruct p' as [w' ts'|]; [|exact Logic.I]. destruct l as [c|j| |j x| |]; try discriminate E.
  { injection E as <- <- <-. eapply kept_quiet; [exact K|reflexivity|reflexivity| | |constructor].
    - intros k. unfold piece_locked. rewrite existsb_app. cbn. now rewrite !orb_false_r.
    - intros a u Hu Pu. destruct (Nat.lt_ge_cases a (List.length ts)) as [L|L]; [rewrite nth_error_app1 in Hu by exact L; eauto|].
      rewrite nth_error_app2 in Hu by exact L. destruct (a - List.length ts)%nat as [|q]; cbn in Hu; [injection Hu as <-; discriminate Pu|destruct q; discriminate]. }
  2:{ cbn in E. destruct (nth_error ts j); [|discriminate]. destruct (next _ _ _ _ _ _); [|discriminate]. unfold crash_at, option_map in E. destruct (nth_error (w_past _) _); discriminate E. }
  pose proof (exec_ok sha1 cfg env ok _ _ _ _ _ I E) as (I' & X' & EV & L').
  apply step_shape in E as (t & o & T & N & E). destruct o as [w1 q|w1]; destruct E as [E ->]; [|discriminate E]. injection E as -> ->.
  pose proof I as (HJ & HM & OH & HT). cbn [disk_of] in HJ, X'. pose proof HM as (MI & MA & _). pose proof (HT _ _ T) as TO. unfold next in N. unfold thread_ok in TO.
  assert (P0 : PI (fun k => piece_locked k ts) base (forget_past w)) by (split; [exact HJ|]; split; [constructor|exact HM]).
  assert (G : th_pc t <> PutMid -> q <> PutMid -> w_fs w1 = w_fs w -> w_mem w1 = w_mem w -> Forall dull (events_of (th_call t) q) ->
    kept d0 (Running w1 (list_set j {| th_call := th_call t; th_pc := q |} ts)) (es ++ events_of (th_call t) q)) by (intros; eapply kept_plain; eauto).
  destruct (th_pc t) as [| | | |id|x] eqn:Ep, (th_call t) as [k b d|k b len|k|k|] eqn:Ec; cbn [w_mem forget_past] in N; try discriminate N; try contradiction TO.
  - destruct (check_block_size _ _ _ _) as [e|]; [injection N as <- <-; apply G; try easy; now repeat constructor|].
    destruct (t_coalesced _); injection N as <- <-; apply G; try easy; now repeat constructor.
  - assert (w_fs w1 = w_fs w /\ w_mem w1 = w_mem w /\ q <> PutMid) as (A & B & C).
    { destruct (t_coalesced _).
      - injection N as N. pose proof (get_block_fs cfg env k b len (forget_past w)) as M1. pose proof (get_block_mem cfg env k b len (forget_past w)) as M2.
        destruct (get_block cfg env k b len (forget_past w)) as [w2 []]; cbn in N, M1, M2; try discriminate N; injection N as <- <-; repeat split; auto; discriminate.
      - unfold piece_at, bind, get_mem in N. cbn [w_mem forget_past] in N. destruct (if k <? 0 then _ else _); [|discriminate]. injection N as <- <-. repeat split; discriminate. }
    apply G; auto; try discriminate. destruct q; constructor; [exact Logic.I|constructor].
  - (* ResetPiece *)
    destruct (piece_locked k ts) eqn:PL; [discriminate|]. injection N as N. destruct (reset_piece k (forget_past w)) as [w2 r] eqn:R.
    pose proof (reset_piece_mem _ _ _ _ R) as [_ RM]. apply (reset_piece_spec sha1 cfg env ok _ _ _ _ _ _ P0 PL) in R. destruct r as [[]|e|]; [|destruct R|discriminate N]. cbn in N. injection N as <- <-.
    destruct R as (kn & p & -> & Hp & Cp & Fp & Hp' & Ho & Hfs & _). cbn [w_mem w_fs forget_past] in Hp, Ho, Hfs. cbn [events_of].
    destruct K as (K0 & K1 & K2 & K3 & K4). assert (TT : forall k' x, Z.of_nat kn <> k' -> there (w_mem w) k' x -> there (w_mem w2) k' x).
    { intros k' x NE (B & p' & P' & B'). split; [exact B|]. exists p'. split; [|exact B']. rewrite Ho by lia. exact P'. }
    split; [now rewrite Hfs|]. split; [|split; [|split]].
    + intros k' x H. assert (Z.of_nat kn <> k') as NE. { intros <-. apply has_block_snoc in H as [[d H]|[_ H]]; [discriminate|congruence]. }
      apply TT; [exact NE|]. apply K1. now rewrite (other_block _ _ _ (Z.of_nat kn)) in H by auto.
    + intros a u k' x d Hu Pu Cu. apply nth_error_list_set in Hu as [(_ & -> & _)|[_ Hu]]; [discriminate Pu|]. assert (Z.of_nat kn <> k') as NE.
      { intros <-. assert (piece_locked (Z.of_nat kn) ts = true) by (apply piece_locked_iff; exists a, u; rewrite Cu; auto). congruence. }
      rewrite (other_block _ _ _ (Z.of_nat kn)) by auto. destruct (K2 _ _ _ _ _ Hu Pu Cu) as [A B]. split; [exact A|]. now apply TT.
    + intros k' p' Hp'' Cp' Fp' Lp'. destruct (Nat.eq_dec k' kn) as [->|NE].
      * exfalso. assert (p' = reset_of p (List.length (t_futures (w_mem (forget_past w))))) as -> by congruence. destruct Fp' as (l & Q & _). discriminate Q.
      * rewrite (other_missing _ _ _ (Z.of_nat kn)) by (auto; lia). apply (K3 _ p'); auto; [now rewrite <- Ho|].
        rewrite (locked_same sha1 cfg env ok ts j t) in Lp' by (auto; rewrite ?Ep; discriminate). exact Lp'.
    + intros A _. exfalso. specialize (A _ _ Hp'). cbn in A. congruence.
  - destruct (piece_locked k ts); [discriminate|]. unfold piece_at, bind, get_mem in N. cbn [w_mem forget_past] in N. destruct (if k <? 0 then _ else _); [|discriminate]. injection N as <- <-. apply G; try easy. constructor.
  - destruct (torrent_rlocked ts); [discriminate|]. injection N as <- <-. apply G; try easy. constructor.
  - (* first half of PutBlock *)
    destruct (piece_locked k ts) eqn:PL; [discriminate|]. destruct (put_in_piece k b d (forget_past w)) as [w2 r] eqn:R.
    apply (put_in_piece_spec sha1 cfg env ok _ _ _ _ _ _ _ _ P0 PL TO) in R. destruct r as [[]|e|]; [|destruct R as (-> & -> & _)|]; try discriminate N; injection N as <- <-; [|apply G; try easy; now repeat constructor].
    destruct R as (kn & p & bn & -> & Hp & Cp & -> & Bb & Hd & Hn & -> & _). cbn [w_mem w_fs forget_past] in Hp. cbn [events_of]. rewrite app_nil_r.
    destruct K as (K0 & K1 & K2 & K3 & K4). pose proof (piece_bound sha1 cfg env ok _ _ _ _ MI Hp) as Hkn.
    assert (TT : forall k' x, there (w_mem w) k' x -> there (w_mem (with_mem (forget_past w) (with_pieces (w_mem w) (list_set kn (put_piece p bn d) (t_pieces (w_mem w)))))) k' x).
    { intros k' x. eapply there_set; [exact Hp|reflexivity|]. intros [B|[b B]]; [congruence|]. right. cbn. exists b. rewrite list_set_nth_neq; [exact B|]. intros ->. congruence. }
    assert (NB : ~ has_block (Z.of_nat kn) (BL * Z.of_nat bn) es).
    { intros H. apply K1 in H as (_ & p' & P' & B'). rewrite Nat2Z.id in P'. assert (p' = p) as -> by congruence. destruct B' as [B'|[b' B']]; [congruence|]. rewrite block_quot in B'. congruence. }
    split; [exact K0|]. split; [|split; [|split]].
    + intros k' x H. apply TT. now apply K1.
    + intros a u k' x d' Hu Pu Cu. apply nth_error_list_set in Hu as [(_ & -> & _)|[_ Hu]].
      * cbn [th_call] in Cu. assert (k' = Z.of_nat kn /\ x = BL * Z.of_nat bn) as [-> ->] by (split; congruence). split; [exact NB|]. split; [lia|]. rewrite Nat2Z.id. exists (put_piece p bn d). split; [cbn; eapply list_set_same_len; eauto|]. right. exists d. rewrite block_quot. cbn. eapply list_set_same_len; eauto.
      * destruct (K2 _ _ _ _ _ Hu Pu Cu) as [A B]. split; [exact A|now apply TT].
    + intros k' p' Hp' Cp' Fp' Lp'. rewrite (locked_take sha1 cfg env ok ts j t) in Lp' by (auto; rewrite ?Ep; discriminate). unfold take in Lp'. cbn [call_index th_call] in Lp'.
      destruct (Z.of_nat k' =? Z.of_nat kn) eqn:Ek; [discriminate|]. apply (K3 _ p'); auto. cbn in Hp'. rewrite list_set_nth_neq in Hp' by lia. exact Hp'.
    + intros A _. exfalso. assert (false = true); [|discriminate]. apply (A kn (put_piece p bn d)). cbn. eapply list_set_same_len; eauto.
  - (* second half *)
    destruct TO as [Kr Ti]. destruct (torrent_rlocked ts); [discriminate|]. injection N as N. destruct (put_finish sha1 cfg env k (forget_past w)) as [w2 r] eqn:PF.
    assert (PL : piece_locked k ts = true) by (apply piece_locked_iff; exists j, t; rewrite Ec; auto).
    destruct (piece_exists sha1 cfg env ok _ _ _ MI Kr) as [p P].
    rewrite <- (Z2Nat.id k) in PF, PL by lia. pose proof (put_finish_spec sha1 cfg env ok _ base _ p _ _ _ P0 P PL PF) as (NP & _ & _ & _ & Oth & NF & CO & FU).
    destruct (put_finish_more sha1 cfg env ok _ base _ p _ _ _ P0 P PL PF) as (_ & CT & TP). rewrite Z2Nat.id in * by lia. cbn [w_mem forget_past] in *.
    assert (w2 = w1) as -> by (destruct r; cbn in N; congruence). destruct K as (K0 & K1 & K2 & K3 & K4). destruct (K2 _ _ _ _ _ T Ep Ec) as [NB TB].
    pose proof I' as (_ & (MI' & MA' & _) & _). pose proof MI as (_ & MP & _). destruct (MP _ _ P) as (_ & _ & _ & _ & _ & P6 & _). rewrite Z2Nat.id in P6 by lia. destruct (P6 PL) as [Pc _].
    assert (TT : forall k' x, there (w_mem w) k' x -> there (w_mem w1) k' x).
    { intros k' x H. destruct TP as [TP|TP]; [destruct H as (B & p' & P' & B'); split; [exact B|]; exists p'; rewrite TP; auto|]. eapply there_set; [exact P|exact TP| |exact H]. intros _. now left. }
    assert (X0 : ext cfg d0 (w_fs w1)) by (eapply ext_trans; [exact K0|exact X']).
    assert (U : forall a u k' x d', nth_error (list_set j {| th_call := CPut k b d; th_pc := q |} ts) a = Some u -> q <> PutMid -> th_pc u = PutMid -> th_call u = CPut k' x d' -> k <> k' /\ nth_error ts a = Some u).
    { intros a u k' x d' Hu Q Pu Cu. apply nth_error_list_set in Hu as [(_ & -> & _)|[NE Hu]]; [contradiction|]. split; [|exact Hu]. intros <-. elim NE. symmetry. eapply OH; [exact T|exact Hu|exact Ep|exact Pu|now rewrite Ec, Cu]. }
    assert (LF : q <> PutMid -> forall k', k' <> k -> piece_locked k' (list_set j {| th_call := CPut k b d; th_pc := q |} ts) = piece_locked k' ts).
    { intros Q k' NE. rewrite (locked_free sha1 cfg env ok ts j t) by auto. rewrite Ec. unfold free. cbn [call_index]. destruct (k' =? k) eqn:Y; [lia|reflexivity]. }
    assert (SP : forall k', k' <> Z.to_nat k -> nth_error (t_pieces (w_mem w1)) k' = nth_error (t_pieces (w_mem w)) k') by (intros; now apply Oth).
    assert (MK : missing k es) by (exists b, (zlen d); auto).
    assert (OD : on_disk cfg d0 k = None).
    { destruct (on_disk cfg d0 k) as [z|] eqn:Y; [|reflexivity]. destruct K0 as [K0 _]. apply (K0 _ _ Kr) in Y. assert (pc_coalesced p = true); [|congruence].
      apply (MA _ _ P). rewrite Z2Nat.id by lia. congruence. }
    destruct r as [[]|e|]; cbn in N; [| |easy]; injection N as <-; cbn [events_of].
    + split; [exact X0|]. split; [|split; [|split]].
      * intros k' x H. apply has_block_snoc in H as [[d' H]|[H _]]; [injection H as <- <- <-; now apply TT|]. apply TT. now apply K1.
      * intros a u k' x d' Hu Pu Cu. destruct (U _ _ _ _ _ Hu ltac:(discriminate) Pu Cu) as [NE Hu']. rewrite (other_block _ _ _ k) by auto. destruct (K2 _ _ _ _ _ Hu' Pu Cu) as [A B]. split; [exact A|now apply TT].
      * intros k' p' Hp' Cp' Fp' Lp'. destruct (Nat.eq_dec k' (Z.to_nat k)) as [->|NE].
        -- exfalso. destruct TP as [TP|TP].
           ++ rewrite TP in Hp'. assert (p' = p) as -> by congruence. destruct Fp' as (l & Q1 & Q2). destruct (FU _ Q1 Q2) as (data & _ & _ & HH). destruct (bytes_eqb _ _); [|destruct HH as (e & HH & _); discriminate].
              rewrite TP in MA'. assert (pc_coalesced p = true); [|congruence]. apply (MA' _ _ P). rewrite Z2Nat.id by lia. congruence.
           ++ rewrite TP, (list_set_same_len _ _ _ p) in Hp' by exact P. injection Hp' as <-. discriminate Cp'.
        -- rewrite (other_missing _ _ _ k) by (auto; lia). apply (K3 _ p'); auto; [now rewrite <- SP|]. rewrite LF in Lp' by (try discriminate; lia). exact Lp'.
      * intros A Z0. exfalso. assert (TC : t_complete (w_mem w1) = zlen (t_pieces (w_mem w1))).
        { destruct MI' as (_ & _ & _ & _ & _ & _ & M7). rewrite M7. unfold num_coalesced. f_equal. apply filter_all. intros p' Hp'. apply In_nth_error in Hp' as [k' Hp']. eauto. }
        destruct (CT (CO eq_refl TC)) as [[_ Y]|Y]; [congruence|discriminate].
    + assert (DL : Forall dull [Ret (CPut k b d) (RErr e)]) by now repeat constructor. split; [exact X0|]. split; [|split; [|split]].
      * intros k' x H. rewrite dull_block in H by exact DL. apply TT. now apply K1.
      * intros a u k' x d' Hu Pu Cu. destruct (U _ _ _ _ _ Hu ltac:(discriminate) Pu Cu) as [NE Hu']. rewrite dull_block by exact DL. destruct (K2 _ _ _ _ _ Hu' Pu Cu) as [A B]. split; [exact A|now apply TT].
      * intros k' p' Hp' Cp' Fp' Lp'. rewrite dull_missing by exact DL. destruct (Nat.eq_dec k' (Z.to_nat k)) as [->|NE]; [rewrite Z2Nat.id by lia; exact MK|].
        apply (K3 _ p'); auto; [now rewrite <- SP|]. rewrite LF in Lp' by (try discriminate; lia). exact Lp'.
      * intros _ _. exists k. rewrite dull_missing by exact DL. auto.
  - assert (w_fs w1 = w_fs w /\ w_mem w1 = w_mem w /\ q <> PutMid) as (A & B & C).
    { destruct (piece_locked k ts); [discriminate|]. injection N as N. pose proof (get_block_fs cfg env k b len (forget_past w)) as M1. pose proof (get_block_mem cfg env k b len (forget_past w)) as M2.
      destruct (get_block cfg env k b len (forget_past w)) as [w2 []]; cbn in N, M1, M2; try discriminate N; injection N as <- <-; repeat split; auto; discriminate. }
    apply G; auto; try discriminate. destruct q; constructor; [exact Logic.I|constructor].
  - destruct (nth_error _ id) as [[[|]|]|]; try discriminate N; injection N as <- <-; apply G; try easy; now repeat constructor.
  - destruct (nth_error _ id) as [[[|]|]|]; try discriminate N; injection N as <- <-; apply G; try easy; now repeat constructor.
Qed.
Lemma kept_runs d0 base ls : forall w ts es p' es', inv base (Running w ts) -> kept d0 (Running w ts) es -> Forall same_run ls -> execs (Running w ts) ls = Some (p', es') -> kept d0 p' (es ++ es').
Proof using All.
  induction ls as [|l ls IH]; cbn [StorageSys.execs]; intros w ts es p' es' I K S E.
  - injection E as <- <-. now rewrite app_nil_r.
  - inversion S; subst. destruct (exec (Running w ts) l) as [[p1 e1]|] eqn:E1; [|discriminate]. destruct (execs p1 ls) as [[p2 e2]|] eqn:E2; [|discriminate]. injection E as <- <-.
    pose proof (kept_step _ _ _ _ _ _ _ _ I K E1) as K1. pose proof (proj1 (exec_ok sha1 cfg env ok _ _ _ _ _ I E1)) as I1. destruct p1 as [w1 ts1|f1 t1].
    + rewrite app_assoc. eapply IH; eassumption.
    + apply (dead_stays sha1 cfg env) in E2 as ->; [exact Logic.I|assumption].
Qed.

Lemma runs_inv base ls : forall p p' es, inv base p -> execs p ls = Some (p', es) -> inv base p'.
Proof using All.
  induction ls as [|l ls IH]; cbn [StorageSys.execs]; intros p p' es I E; [injection E as <- <-; exact I|].
  destruct (exec p l) as [[p1 e1]|] eqn:E1; [|discriminate]. destruct (execs p1 ls) as [[p2 e2]|] eqn:E2; [|discriminate]. injection E as <- <-.
  eapply IH; [|exact E2]. exact (proj1 (exec_ok sha1 cfg env ok _ _ _ _ _ I E1)).
Qed.
Lemma kept_start base d t w ts es : inv base (Dead d t) -> exec (Dead d t) LStart = Some (Running w ts, es) -> kept d (Running w ts) [].
Proof using All.
  intros [[F _] _] E. cbn [disk_of] in F. unfold StorageSys.exec in E. destruct (load cfg env (booted cfg d t)) as [w1 r] eqn:L.
  destruct (load_spec sha1 cfg env ok _ _ _ _ F L) as ((_ & X) & _ & R). destruct r as [u|e|]; [|discriminate|contradiction R]. injection E as -> <- <-.
  destruct R as (M & _ & O & A). split; [exact X|]. split; [intros k x H; now apply has_block_nil in H|]. split; [intros [|j] t' k x dd H; discriminate|].
  assert (MM : forall k, 0 <= k < n -> missing k []).
  { intros k Hk. destruct (piece_size_eq cfg ok _ Hk) as [_ Hs]. exists 0, (Z.min 16384 (piece_size i k - 0)). split; [|apply has_block_nil]. split; [lia|]. split; [apply Z.divide_0_r|reflexivity]. }
  assert (MB : forall k p, nth_error (t_pieces (w_mem w)) k = Some p -> 0 <= Z.of_nat k < n).
  { intros k p Hp. apply nth_error_Some_lt in Hp. destruct M as [(M1 & _) _]. unfold num_pieces, zlen. lia. }
  split; [intros k p Hp _ _ _; apply MM; eapply MB; eauto|].
  intros All N0. assert (AA : forall k, 0 <= k < n -> on_disk cfg d k <> None).
  { intros k Hk. apply O; [exact Hk|]. destruct M as [MI _]. destruct (piece_exists sha1 cfg env ok _ _ _ MI Hk) as [p Hp]. exists p. split; [exact Hp|]. eapply All; eauto. }
  destruct (A AA) as [_ T]. congruence.
Qed.
(** All blocks accepted. *)
Lemma accepted_stored d0 base w ts es k : inv base (Running w ts) -> kept d0 (Running w ts) es -> 0 <= k < n ->
  (forall x y, tile (piece_size i k) x y -> has_block k x es) -> on_disk cfg (w_fs w) k <> None.
Proof using All.
  intros (HJ & (MI & MA & MT) & OH & TO) (K0 & K1 & K2 & K3 & K4) Hk Hall.
  destruct (piece_exists sha1 cfg env ok _ _ _ MI Hk) as [p Hp]. destruct (pc_coalesced p) eqn:Hc.
  { apply (MA _ _ Hp) in Hc. now rewrite Z2Nat.id in Hc by lia. }
  exfalso. destruct (piece_size_eq cfg ok _ Hk) as [_ Hs]. destruct (num_blocks_spec (piece_size i k)) as [N1 N2]; [lia|].
  pose proof MI as (_ & MP & _). pose proof (MP _ _ Hp) as PO. assert (Hk' : 0 <= Z.of_nat (Z.to_nat k) < n) by (rewrite Z2Nat.id; lia). destruct (piece_blocks sha1 cfg env ok _ _ _ _ Hk' PO Hc) as (B1 & B2 & B3 & B4). rewrite Z2Nat.id in * by lia.
  assert (Fu : full p).
  { apply B4. unfold num_some. f_equal. apply filter_all. intros o Ho. apply In_nth_error in Ho as [j Hj]. pose proof (nth_error_Some_lt _ _ _ Hj) as Lj.
    assert (T : tile (piece_size i k) (BL * Z.of_nat j) (block_size (piece_size i k) (Z.of_nat j))).
    { apply tiling_tile; [lia|]. unfold tiling. apply in_map_iff. exists j. split; [reflexivity|]. apply in_seq. unfold zlen in B1. lia. }
    destruct (K1 _ _ (Hall _ _ T)) as (_ & p' & Hp' & B). rewrite Hp in Hp'. injection Hp' as <-. destruct B as [B|[b Hb]]; [congruence|].
    rewrite block_quot, Hj in Hb. injection Hb as ->. reflexivity. }
  destruct (piece_locked k ts) eqn:Lk.
  - unfold piece_locked in Lk. apply existsb_exists in Lk as (u & Hu & Pu). apply In_nth_error in Hu as [j Hj]. destruct (th_pc u) eqn:Pc; try discriminate. apply Z.eqb_eq in Pu.
    pose proof (TO _ _ Hj) as TU. unfold thread_ok in TU. rewrite Pc in TU. destruct (th_call u) as [k' x dd|? ? ?|?|?|] eqn:Cu; try contradiction. cbn in Pu. subst k'. destruct TU as [_ TU].
    destruct (K2 _ _ _ _ _ Hj Pc Cu) as [NB _]. apply NB. eapply Hall; eauto.
  - destruct (K3 (Z.to_nat k) p Hp Hc Fu) as (x & y & T & NB); rewrite ?Z2Nat.id in * by lia; [exact Lk|]. apply NB. eapply Hall; eauto.
Qed.
Lemma accepted_complete d0 base w ts es : inv base (Running w ts) -> kept d0 (Running w ts) es ->
  (forall k, 0 <= k < n -> on_disk cfg d0 k <> None \/ forall x y, tile (piece_size i k) x y -> has_block k x es) ->
  t_coalesced (w_mem w) = true /\ exists c, content cfg (w_fs w) = Some c /\ whole sha1 cfg c.
Proof using All.
  intros I K Hall. assert (TC : t_coalesced (w_mem w) = true).
  { destruct (t_coalesced (w_mem w)) eqn:TC; [reflexivity|]. exfalso. pose proof K as (K0 & K1 & K2 & K3 & K4). pose proof I as (HJ & (MI & MA & MT) & OH & TO).
    destruct K4 as (k & Hk & No & (x & y & T & NB)); [|exact TC|].
    - intros k p Hp. apply (MA _ _ Hp). assert (Hk : 0 <= Z.of_nat k < n) by (apply nth_error_Some_lt in Hp; destruct MI as (M1 & _); unfold num_pieces, zlen; lia).
      destruct (Hall _ Hk) as [D|D]; [|eapply accepted_stored; eauto]. destruct K0 as (X & _). destruct (on_disk cfg d0 (Z.of_nat k)) as [b|] eqn:E; [|congruence]. rewrite (X _ _ Hk E). discriminate.
    - destruct (Hall _ Hk) as [D|D]; [congruence|]. apply NB. eapply D; eauto. }
  split; [exact TC|]. destruct I as ((F & _) & (MI & MA & MT) & _). specialize (MT TC). destruct (content cfg (w_fs w)) as [c|] eqn:C; [|congruence]. exists c. split; [reflexivity|]. eapply content_whole; eauto.
Qed.

Section Run.
Variables (f : fs) (tick : nat) (ls : list label) (d : fs) (t : nat) (es : list event) (w : world) (ts : list thread) (es1 : list event)
  (ls2 : list label) (w2 : world) (ts2 : list thread) (es2 : list event).
Hypothesis U : untouched cfg f.
Hypothesis E : execs (Dead f tick) ls = Some (Dead d t, es).
Hypothesis E1 : exec (Dead d t) LStart = Some (Running w ts, es1).
Hypothesis S2 : Forall same_run ls2.
Hypothesis E2 : execs (Running w ts) ls2 = Some (Running w2 ts2, es2).
Lemma run_kept : inv f (Running w2 ts2) /\ kept d (Running w2 ts2) es2.
Proof using All.
  pose proof (execs_inv sha1 cfg env ok _ _ _ _ _ U E) as I. pose proof (proj1 (exec_ok sha1 cfg env ok _ _ _ _ _ I E1)) as I1. split; [eapply runs_inv; eauto|].
  pose proof (kept_start _ _ _ _ _ _ I E1) as K. exact (kept_runs _ _ _ _ _ _ _ _ I1 K S2 E2).
Qed.
Lemma all_blocks_piece k : 0 <= k < n -> (forall x y, tile (piece_size i k) x y -> has_block k x es2) -> on_disk cfg (w_fs w2) k <> None.
Proof using All. destruct run_kept as [I K]. eapply accepted_stored; eauto. Qed.
Lemma all_blocks_torrent : (forall k, 0 <= k < n -> on_disk cfg d k <> None \/ forall x y, tile (piece_size i k) x y -> has_block k x es2) ->
  (exists c, content cfg (w_fs w2) = Some c /\ whole sha1 cfg c) /\
  forall j id, nth_error ts2 j = Some {| th_call := CWaitAll; th_pc := Waiting id |} -> returns_next sha1 cfg env (Running w2 ts2) j CWaitAll RNil.
Proof using All.
  intros A. destruct run_kept as [I K]. destruct (accepted_complete _ _ _ _ _ I K A) as [TC C]. split; [exact C|]. intros j id T.
  pose proof (proj2 (proj2 (proj2 I)) _ _ T) as TO. cbn in TO. subst id. destruct I as (_ & (MI & _) & _). destruct MI as (_ & _ & _ & F & _). rewrite TC in F. exact (delivered_returns _ _ _ _ _ _ _ _ _ T F).
Qed.
End Run.
End Accept.
