(** Clients connected to each other send right data, and never blame each other. *)
From Verif Require Import GoBase GoBaseProofs GoMap Bitfield BitfieldSpec PeerWire Requests Metainfo MetainfoSpec Fs Storage StorageSys StorageSpec StorageSysSpec StorageHealthSpec StorageFsProofs StorageGetProofs StorageProofs StorageSysProofs StorageRightProofs
  Node NodeSpec NodeServerProofs NodeProofs NodeThms P2PServer P2PServerSpec P2PConn P2PConnSpec Client ClientSpec ClientProofs ClientWantProofs ClientWireThms PeersSpec.
Import StorageSys.

(** * One node that receives right blocks *)
Section Node.
Variable sha1 : bytes -> bytes.
Variable cfg : config.
Variable env : nat -> Fs.choice.
Variable hash id : bytes.
Hypothesis ok : config_ok cfg.
Variable c : bytes.
Hypothesis Wc : whole sha1 cfg c.
Definition all_right (ev : list nevent) : Prop := forall p m, received ev p m -> m_type m = PIECE -> right_block cfg c (m_index m) (m_begin m) (m_piece m).
Definition mismatches (ev : list nevent) : Prop := exists t k b d x g h, In (NRet t (CPut k b d) (RErr (EChecksum x g h))) ev.
Lemma mismatches_app e1 e2 : mismatches (e1 ++ e2) -> mismatches e1 \/ mismatches e2.
Proof. intros (t & k & b & d & x & g & h & I). apply in_app_or in I as [I|I]; [left|right]; now exists t, k, b, d, x, g, h. Qed.
Lemma mismatches_srv e : ~ mismatches (map NEv e).
Proof. intros (t & k & b & d & x & g & h & I). apply in_map_iff in I as (y & [=] & _). Qed.
Lemma mismatches_cons x e : mismatches (x :: map NEv e) -> exists t k b d y g h, x = NRet t (CPut k b d) (RErr (EChecksum y g h)).
Proof. intros (t & k & b & d & y & g & h & [->|I]); [eauto 10|]. apply in_map_iff in I as (z & [=] & _). Qed.

Lemma right_no_mismatch f l n ev : node_run sha1 cfg env hash id f l n ev -> all_right ev -> ~ mismatches ev.
Proof using ok Wc.
  intros (U & tick & ls & w & es & blank & E & B & R).
  enough (ninv sha1 cfg env hash id blank w n ev /\ (all_right ev -> rt cfg c (n_sto n) /\ ~ mismatches ev)) as [_ G] by (intros A; exact (proj2 (G A))).
  revert R. apply (nruns_ind sha1 cfg env hash id blank (fun n ev => ninv sha1 cfg env hash id blank w n ev /\ (all_right ev -> rt cfg c (n_sto n) /\ ~ mismatches ev))).
  - split; [apply ninv_start|]. intros _. split; [exact (rt_start sha1 cfg env c _ _ _ _ _ E)|]. intros (? & ? & ? & ? & ? & ? & ? & []).
  - intros n1 ev1 a n2 e [N IH] X. split; [eapply ninv_step; eassumption|]. intros A. destruct IH as [RT NM]; [intros p m I; apply (A p m); apply in_or_app; now left|].
    apply nexec_nstep in X as [C S]. pose proof (i_live _ _ _ _ _ _ _ _ _ N C) as L. pose proof (sto_inv' sha1 cfg env hash id blank ok f tick ls w es U E _ _ N) as I0.
    assert (forall j p' es', StorageSys.exec sha1 cfg env (n_sto n1) (LStep j) = Some (p', es') -> rt cfg c p' /\ Forall no_mismatch es') as ST.
    { intros j p' es' X. destruct (n_sto n1) as [w1 ts1|]; [|discriminate X]. eapply rt_step; [exact ok|exact Wc|exact I0|exact RT| |exact X]. intros k b d [[=]|[]]. }
    destruct S as [a0 s e F X|t c0 w1 ts1 A0 S0|t j f1 k s e J X Y|t j w' ts' J X|t j w' ts' c0 r jb J X K|t j w' ts' c0 r s e J X K Y|t d p m s e J T M Y|t d p m s e J T M Y]; cbn [n_sto].
    + split; [exact RT|]. intros Q. apply mismatches_app in Q as [Q|Q]; [auto|exact (mismatches_srv _ Q)].
    + split; [|now rewrite app_nil_r].
      assert (StorageSys.exec sha1 cfg env (n_sto n1) (LCall c0) = Some (Running w1 (ts1 ++ [{| th_call := c0; th_pc := Start |}]), [])) as X by (rewrite S0; reflexivity).
      rewrite S0 in *. eapply (rt_step sha1 cfg env ok c Wc f w1 ts1); [exact I0|exact RT| |exact X]. intros k b d [Q|[]]. injection Q as ->.
      unfold at_call in A0. destruct (nth_error (s_threads (n_srv n1)) t) as [th|] eqn:TH; [|discriminate].
      assert (exists p i m, th = THandler p (HPiece i) /\ mget Nat.eqb t (n_msgs n1) = Some m /\ k = m_index m /\ b = m_begin m /\ d = m_piece m) as (p & i & m & -> & G & -> & -> & ->).
      { unfold call_of in A0. P2PServerProofs.brk A0. injection A0 as <- <- <-. do 3 eexists. repeat split; reflexivity. }
      destruct (l_msgs _ _ L _ _ _ TH eq_refl) as (m' & G' & [TY _] & _ & RC). assert (m' = m) as -> by congruence. apply (A p m); [rewrite app_nil_r; exact RC|exact TY].
    + split; [exact (proj1 (ST _ _ _ X))|]. intros Q. apply mismatches_app in Q as [Q|Q]; [auto|exact (mismatches_srv _ Q)].
    + split; [exact (proj1 (ST _ _ _ X))|]. now rewrite app_nil_r.
    + destruct (ST _ _ _ X) as [R1 R2]. split; [exact R1|]. intros Q. apply mismatches_app in Q as [Q|Q]; [auto|]. apply (mismatches_cons _ []) in Q as (t1 & k & b & d & y & g & h & [= -> -> ->]). inversion R2 as [|? ? Q _]. exact (Q _ _ _ _ _ _ eq_refl).
    + destruct (ST _ _ _ X) as [R1 R2]. split; [exact R1|]. intros Q. apply mismatches_app in Q as [Q|Q]; [auto|]. apply mismatches_cons in Q as (t1 & k & b & d & y & g & h & [= -> -> ->]). inversion R2 as [|? ? Q _]. exact (Q _ _ _ _ _ _ eq_refl).
    + split; [exact RT|]. intros Q. apply mismatches_app in Q as [Q|Q]; [auto|]. apply mismatches_cons in Q as (t1 & k & b & d' & y & g & h & [=]).
    + split; [exact RT|]. intros Q. apply mismatches_app in Q as [Q|Q]; [auto|exact (mismatches_srv _ Q)].
Qed.
End Node.

Lemma node_split ev : forall e1 x e2, node_events ev = e1 ++ x :: e2 -> exists f1 f2, ev = f1 ++ UN x :: f2 /\ node_events f1 = e1 /\ node_events f2 = e2.
Proof.
  induction ev as [|y ev IH]; intros e1 x e2 E; [destruct e1; discriminate|]. destruct y as [y|p y].
  - change (node_events (UN y :: ev)) with (y :: node_events ev) in E. destruct e1 as [|z e1]; injection E as -> E.
    + exists [], ev. auto.
    + destruct (IH _ _ _ E) as (f1 & f2 & -> & <- & <-). exists (UN z :: f1), f2. auto.
  - change (node_events (UK p y :: ev)) with (node_events ev) in E. destruct (IH _ _ _ E) as (f1 & f2 & -> & <- & <-). exists (UK p y :: f1), f2. auto.
Qed.

(** * The swarm *)
Section Swarm.
Variable sha1 : bytes -> bytes.
Variable i : info.
Variable ms : list member.
Variable link : nat * nat -> nat * nat.
Hypothesis sw : swarm sha1 i ms link.
Hypothesis fits : i_piece_length i <= 2 ^ 63 - 16384.

Lemma member_ok a x : nth_error ms a = Some x -> member_run sha1 x /\ c_info (mb_cfg x) = i /\ config_ok (mb_cfg x).
Proof using sw. intros N. apply (proj1 sw). eapply nth_error_In; exact N. Qed.
Lemma requests_in a x p m : nth_error ms a = Some x -> In (UK p (KRecv m)) (mb_events x) -> m_type m = REQUEST -> block_of (mb_cfg x) (m_index m) (m_begin m) (m_length m).
Proof using sw fits.
  intros N I T. destruct sw as (_ & _ & RC & _). destruct (RC _ _ _ _ N I) as (y & Ny & J). destruct (member_ok _ _ N) as (_ & Ix & _). destruct (member_ok _ _ Ny) as (Ry & Iy & Oy).
  apply in_split in J as (e1 & e2 & EV). unfold member_run in Ry. rewrite EV in Ry. assert (i_piece_length (c_info (mb_cfg y)) <= 2 ^ 63 - 16384) as FT by now rewrite Iy.
  destruct (requests_wanted sha1 _ _ _ _ Oy FT _ _ _ _ _ _ _ Ry T) as (_ & _ & BO). unfold block_of in *. now rewrite Ix, <- Iy.
Qed.
Lemma in_block cfg k b x : block_of cfg k b x -> in_piece cfg k b x.
Proof using. clear. intros (K & B & _ & ->). unfold in_piece. split; [exact K|]. lia. Qed.
Lemma whole_of c cfg : c_info cfg = i -> only_content sha1 i c -> config_ok cfg -> whole sha1 cfg c.
Proof using.
  clear ms link sw fits. intros <- [L H] OK. split; [exact L|]. intros k K. destruct (piece_size_eq cfg OK k K) as [_ S]. destruct (piece_range cfg OK k K) as [R1 R2].
  assert (zlen (slice c (k * i_piece_length (c_info cfg)) (piece_size (c_info cfg) k)) = piece_size (c_info cfg) k) as Z by (apply slice_length; lia).
  split; [exact Z|]. now apply H.
Qed.
(** Every block received is right. *)
Theorem swarm_blocks c a x p m : only_content sha1 i c -> nth_error ms a = Some x -> In (UK p (KRecv m)) (mb_events x) -> m_type m = PIECE ->
  right_block (mb_cfg x) c (m_index m) (m_begin m) (m_piece m).
Proof using sw fits.
  intros OC N I T. pose proof sw as (_ & INV & RC & _). destruct (RC _ _ _ _ N I) as (y & Ny & J). destruct (member_ok _ _ N) as (_ & Ix & Ox). destruct (member_ok _ _ Ny) as (Ry & Iy & Oy).
  assert (i_piece_length (c_info (mb_cfg y)) <= 2 ^ 63 - 16384) as FT by now rewrite Iy.
  destruct (wire_pieces sha1 _ _ _ _ Oy FT _ _ _ _ _ _ Ry J T) as (q & d & Q & TQ & -> & L & G & _). cbn [mk_piece m_index m_begin m_piece].
  pose proof (requests_in _ _ _ _ Ny Q TQ) as BO. destruct (G (in_block _ _ _ _ BO)) as (b & _ & [V1 V2] & ->). destruct BO as (K & TL). rewrite Iy in *. pose proof OC as [_ H].
  apply (H _ K _ V1) in V2 as ->. unfold right_block. rewrite Ix, L. split; [exact K|]. split; [exact TL|]. destruct TL as (B & _ & X). rewrite <- Ix in K. destruct (piece_range _ Ox _ K) as [R1 _]. rewrite Ix in *. apply slice_slice; lia.
Qed.
Theorem swarm_no_mismatch c a x : only_content sha1 i c -> nth_error ms a = Some x -> ~ mismatches (node_events (mb_events x)).
Proof using sw fits.
  intros OC N. destruct (member_ok _ _ N) as (R & Ix & Ox). assert (i_piece_length (c_info (mb_cfg x)) <= 2 ^ 63 - 16384) as FT by now rewrite Ix. destruct (client_node _ _ _ _ _ _ _ _ _ R) as [l' NR].
  apply (right_no_mismatch sha1 _ _ _ _ Ox c (whole_of c _ Ix OC Ox) _ _ _ _ NR). intros p m I T. eapply swarm_blocks; [exact OC|exact N| |exact T].
  apply (heard_came sha1 _ _ _ _ Ox FT _ _ _ _ _ _ R). apply in_node. exact I.
Qed.
(** No member blocks another. *)
Theorem swarm_no_block c a x p : only_content sha1 i c -> nth_error ms a = Some x -> ~ In (UN (NEv (EvBlocked p))) (mb_events x).
Proof using sw fits.
  intros OC N I. apply (swarm_no_mismatch c a x OC N). destruct (member_ok _ _ N) as (R & Ix & Ox). destruct (client_node _ _ _ _ _ _ _ _ _ R) as [l' NR].
  apply in_node in I. destruct (blocked_after sha1 _ _ _ _ Ox _ _ _ _ _ NR I) as (k & _ & q & m & t & y & g & h & _ & _ & _ & J). now exists t, k, (m_begin m), (m_piece m), y, g, h.
Qed.
(** No member sends a message that is out of range. *)
Theorem swarm_in_range a x p m : nth_error ms a = Some x -> In (UK p (KRecv m)) (mb_events x) -> ~ out_of_range (mb_cfg x) m.
Proof using sw fits.
  intros N I. pose proof sw as (_ & INV & RC & _). destruct (RC _ _ _ _ N I) as (y & Ny & J). destruct (member_ok _ _ N) as (_ & Ix & Ox). destruct (member_ok _ _ Ny) as (Ry & Iy & Oy).
  assert (i_piece_length (c_info (mb_cfg y)) <= 2 ^ 63 - 16384) as FT by now rewrite Iy. unfold out_of_range. rewrite Ix, <- Iy. intros [[T G]|[[T (k & M & G)]|[[T G]|[T G]]]].
  - assert (0 <= m_index m) as P by (pose proof (zlen_nonneg (i_pieces (c_info (mb_cfg y)))); unfold num_pieces in G; lia).
    destruct (wire_announced sha1 _ _ _ _ Oy FT _ _ _ _ _ _ (m_index m) Ry J P ltac:(left; split; [exact T|reflexivity])) as [LT _]. lia.
  - assert (0 <= k) as P by exact (P2PAnnounceProofs.member_nonneg _ _ M).
    destruct (wire_announced sha1 _ _ _ _ Oy FT _ _ _ _ _ _ k Ry J P ltac:(right; split; [exact T|exact M])) as [LT _]. lia.
  - destruct (requests_in _ _ _ _ N I T) as ((_ & B) & _). rewrite Ix, <- Iy in B. lia.
  - destruct (wire_pieces sha1 _ _ _ _ Oy FT _ _ _ _ _ _ Ry J T) as (q & d & Q & TQ & -> & L & _). cbn [mk_piece m_index m_begin] in G.
    destruct (requests_in _ _ _ _ Ny Q TQ) as (K & (B & _)). lia.
Qed.
(** Why a member can crash. *)
Theorem swarm_crash c a x : only_content sha1 i c -> nth_error ms a = Some x -> crashed (u_node (mb_state x)) = true ->
  exists p k ev1 ev2, mb_events x = ev1 ++ UN (NEv (EvRequest p k)) :: ev2 /\ (forall u r, ~ In (UN (NRet u (CReset k) r)) ev2) /\ 0 <= k < num_pieces i /\
    (on_disk (mb_cfg x) (disk (u_node (mb_state x))) k <> None \/ exists t b d, In (UN (NRet t (CPut k b d) (RErr EIO))) (mb_events x)).
Proof using sw fits.
  intros OC N C. destruct (member_ok _ _ N) as (R & Ix & Ox). assert (i_piece_length (c_info (mb_cfg x)) <= 2 ^ 63 - 16384) as FT by now rewrite Ix. destruct (client_node _ _ _ _ _ _ _ _ _ R) as [l' NR].
  destruct (crash_causes sha1 _ _ _ _ Ox _ _ _ _ NR C) as [(p & X)|[(p & m & X & Y)|(p & k & ev1 & ev2 & X & Y & K & Z)]].
  - exfalso. apply in_node in X. destruct sw as (_ & _ & _ & M). eapply M; [eapply nth_error_In; exact N|exact X].
  - exfalso. apply in_node in X. eapply swarm_in_range; [exact N| |exact Y]. exact (heard_came sha1 _ _ _ _ Ox FT _ _ _ _ _ _ R X).
  - destruct (node_split _ _ _ _ X) as (e1 & e2 & EV & <- & <-). exists p, k, e1, e2. split; [exact EV|]. split; [intros u r I; apply (Y u r); now apply in_node|]. rewrite <- Ix. split; [exact K|].
    destruct Z as [Z|(t & b & d & e & Z & W)]; [now left|right]. destruct W as [->|(y & g & h & ->)]; [exists t, b, d; apply in_node; exact Z|]. exfalso. apply (swarm_no_mismatch c a _ OC N). now exists t, k, b, d, y, g, h.
Qed.
End Swarm.
