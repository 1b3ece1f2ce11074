(** From the start of the client to the whole content on disk. *)
From Verif Require Import GoBase GoBaseProofs GoMap Bitfield BitfieldSpec BitfieldProofs PeerWire PeerWireSpec PeerWireProofs Requests Metainfo MetainfoSpec Fs Storage StorageSpec StorageSysSpec StorageSys StorageSysProofs Node NodeSpec P2PConn P2PPeer P2PServer Client ClientSpec DownloadSpec PairSpec DownloadProofs.
From Verif Require StorageHealthSpec StorageFsProofs StorageProofs StorageClaimProofs DownloadStoreProofs.

(** A bitfield of all pieces. *)
Lemma full_bits n : 0 <= n -> exists b, zlen b = (n + 7) / 8 /\ forall j, member b j <-> 0 <= j < n.
Proof.
  intros Hn. destruct (bf_new_spec n Hn) as (b0 & _ & L0 & M0).
  assert (K : forall k : nat, Z.of_nat k <= n -> exists b, zlen b = zlen b0 /\ forall j, member b j <-> 0 <= j < Z.of_nat k).
  { induction k as [|k IH]; intros Hk; [exists b0; split; [reflexivity|]; intros j; split; [intros M; elim (M0 _ M)|lia]|].
    destruct IH as (b & L & M); [lia|]. destruct (bf_add_spec b (Z.of_nat k)) as (b' & _ & L' & M'); [lia|]. exists b'. split; [lia|]. intros j. rewrite M', M. lia. }
  destruct (K (Z.to_nat n)) as (b & L & M); [lia|]. exists b. split; [lia|]. intros j. rewrite M. lia.
Qed.

(** The handshake with a stranger. *)
Lemma stranger hash id rid : List.length hash = 20%nat -> List.length rid = 20%nat -> rid <> id ->
  exists r', peer_handshake hash id zero_id true [hs_encode {| hs_info := hash; hs_peer := rid |}] = (rid, Ok r').
Proof.
  intros Lh Lr NE. set (h := {| hs_info := hash; hs_peer := rid |}). destruct (hs_round_trip h [hs_encode h] []) as (r' & D & _).
  - split; assumption.
  - constructor; [|constructor]. unfold hs_encode. discriminate.
  - cbn. now rewrite !app_nil_r.
  - exists r'. unfold peer_handshake. cbn [negb]. rewrite D. unfold h. cbn [hs_info hs_peer]. rewrite (proj2 (bytes_eqb_eq hash hash) eq_refl). cbn [negb].
    rewrite (proj2 (bytes_eqb_eq zero_id zero_id) eq_refl). cbn [negb andb]. destruct (bytes_eqb rid id) eqn:Q; [|reflexivity]. apply bytes_eqb_eq in Q. contradiction.
Qed.

Section Main.
Variable sha1 : bytes -> bytes.
Variable cfg : config.
Variable env : nat -> Fs.choice.
Notation exec := (StorageSys.exec sha1 cfg env).
Notation execs := (StorageSys.execs sha1 cfg env).
Notation n := (num_pieces (c_info cfg)).
Notation PL := (i_piece_length (c_info cfg)).

(** A process in which nothing was called yet has just been started. *)
Lemma just_started f tick ls w es : execs (Dead f tick) ls = Some (Running w [], es) ->
  exists ls0 d t es0 es1, execs (Dead f tick) ls0 = Some (Dead d t, es0) /\ exec (Dead d t) LStart = Some (Running w [], es1).
Proof.
  intros E. destruct (@exists_last _ ls) as (ls0 & l & ->); [intros ->; discriminate E|].
  assert (S : exists p es0 es1, execs (Dead f tick) ls0 = Some (p, es0) /\ exec p l = Some (Running w [], es1)).
  { revert E. generalize (Dead f tick). revert es. induction ls0 as [|a ls0 IH]; intros es p E; cbn [app StorageSys.execs] in E |- *.
    - match type of E with match ?e with _ => _ end = _ => destruct e as [[p1 e1]|] eqn:X; [|discriminate] end. injection E as -> _. eauto.
    - match type of E with match ?e with _ => _ end = _ => destruct e as [[p1 e1]|] eqn:X; [|discriminate] end.
      match type of E with match ?e with _ => _ end = _ => destruct e as [[p2 e2]|] eqn:Y; [|discriminate] end. injection E as -> _. destruct (IH _ _ Y) as (q & a0 & a1 & Q1 & Q2). rewrite Q1. eauto. }
  destruct S as (p & es0 & es1 & A & B). destruct p as [w1 ts|d t].
  2:{ exists ls0, d, t, es0, es1. split; [exact A|]. destruct l; try discriminate B; [exact B|]. cbn in B. unfold crash_at, option_map in B. destruct (nth_error _ _); discriminate B. }
  exfalso. destruct l as [cl|j| |j m| |m]; cbn in B; try discriminate B.
    + injection B as _ Q _. now destruct ts.
    + destruct (nth_error ts j) as [x|] eqn:T; [|discriminate B]. destruct (next _ _ _ _ _ _) as [[]|]; try discriminate B. injection B as _ Q _. apply (f_equal (@List.length _)) in Q. rewrite list_set_length in Q. destruct ts; [destruct j; discriminate T|discriminate Q].
    + destruct (nth_error ts j) as [x|] eqn:T; [|discriminate B]. destruct (next _ _ _ _ _ _) as [|]; [|discriminate B]. unfold crash_at, option_map in B. destruct (nth_error (w_past _) _); discriminate B.
Qed.

Hypothesis ok : config_ok cfg.
Hypothesis W : StorageHealthSpec.works env.
Hypothesis FF : StorageHealthSpec.files_fit cfg.
Variable c : bytes.
Hypothesis Wc : whole sha1 cfg c.

(** What a seeder says after what has gone before. *)
Definition says_from (pre tr : list kevent) : Prop := forall before m after, tr = before ++ KRecv m :: after -> seeder_says cfg c (pre ++ before) m.
Lemma says_app pre a b : says_from pre a -> says_from (pre ++ a) b -> says_from pre (a ++ b).
Proof.
  intros A B before m after E. assert (S : (exists z, a = before ++ KRecv m :: z) \/ exists z, before = a ++ z /\ b = z ++ KRecv m :: after).
  { clear A B. revert before E. induction a as [|x a IH]; intros [|y before] E; cbn in *; [right; exists []; split; [reflexivity|exact E]|right; exists (y :: before); split; [reflexivity|exact E]|left; injection E as -> _; eauto|].
    injection E as -> E. destruct (IH _ E) as [[z ->]|(z & -> & Q)]; [left; eauto|right; exists z; split; [reflexivity|exact Q]]. }
  destruct S as [[z S]|(z & -> & S)]; [eapply A; eauto|]. rewrite app_assoc. eapply B; eauto.
Qed.
Lemma says_silent pre tr : (forall m, ~ In (KRecv m) tr) -> says_from pre tr.
Proof. intros N before m after ->. elim (N m). apply in_or_app. right. now left. Qed.
Lemma says_answers pre tr : answers cfg c tr -> says_from pre tr.
Proof. intros A before m after E. right. right. destruct (answers_said _ _ _ A _ _ _ E) as (i & x & y & Hi & Hm). exists i, x, y. split; [|exact Hm]. apply in_or_app. now right. Qed.
Lemma says_one pre m : seeder_says cfg c pre m -> says_from pre [KRecv m].
Proof. intros Hm [|b before] m' after E; [injection E as <- _; now rewrite app_nil_r|]. destruct before; discriminate E. Qed.

(** The run in two parts: until the bitfield is sent, and from there. *)
Lemma download_run hash id blank ip rid port f tick ls w es full :
  untouched cfg f -> StorageHealthSpec.roomy cfg env f -> execs (Dead f tick) ls = Some (Running w [], es) ->
  bf_new n = Some blank -> List.length hash = 20%nat -> List.length rid = 20%nat -> rid <> id -> n <= 2 ^ 32 -> PL <= 2 ^ 32 -> (forall j, member full j <-> 0 <= j < n) ->
  (forall k, member (advertised w) k -> 0 <= k < n) /\ zlen (advertised w) = (n + 7) / 8 /\
  ((forall k, 0 <= k < n -> member (advertised w) k) \/
   exists u1 u tr w' ts', goes sha1 cfg env hash id blank rid (ustart (Running w [])) u1 [KSent (mk_bitfield (advertised w))] /\
    goes sha1 cfg env hash id blank rid u1 u (KRecv (mk_bitfield full) :: KSent (mk_plain INTERESTED) :: KRecv (mk_plain UNCHOKE) :: tr) /\ answers cfg c tr /\
    s_crashed (srv u) = false /\ (exists q, s_peers (srv u) = [q] /\ q_id q = rid /\ q_ip q = ip /\ q_port q = port) /\ n_sto (u_node u) = Running w' ts' /\
    (forall k, 0 <= k < n -> member (advertised w') k) /\ exists d, content cfg (w_fs w') = Some d /\ whole sha1 cfg d /\
    forall k, 0 <= k < n -> ~ member (advertised w) k -> slice d (k * PL) (piece_size (c_info cfg) k) = slice c (k * PL) (piece_size (c_info cfg) k)).
Proof using All.
  intros U Rm E Bl Lh Lr NE N32 P32 Mf. destruct (just_started _ _ _ _ _ E) as (ls0 & d & t & es0 & es1 & E0 & E1).
  destruct (stranger hash id rid Lh Lr NE) as (r' & Sk).
  assert (n0 : 0 <= n) by (unfold num_pieces, zlen; lia).
  destruct (bf_new_spec n n0) as (b0 & Bl0 & Lb & Mb). assert (b0 = blank) as -> by congruence. clear Bl0.
  pose proof (DownloadStoreProofs.sh_start sha1 cfg env c w) as Sh0.
  destruct (DownloadStoreProofs.sh_facts sha1 cfg env ok W FF c Wc f tick ls0 d t es0 w es1 U Rm E0 E1 w [] Sh0) as (I & _).
  assert (HL : zlen (t_bitfield (w_mem w)) = (n + 7) / 8). { destruct I as (_ & (MI & _) & _). destruct MI as (_ & _ & _ & _ & ML & _). lia. }
  split; [exact (DownloadStoreProofs.sh_bits sha1 cfg env ok W FF c Wc f tick ls0 d t es0 w es1 U Rm E0 E1 w [] Sh0)|]. split; [exact HL|].
  assert (HL' : n <= 8 * zlen (t_bitfield (w_mem w))) by lia.
  assert (dec : (forall k, 0 <= k < n -> member (t_bitfield (w_mem w)) k) \/ exists k, 0 <= k < n /\ ~ member (t_bitfield (w_mem w)) k).
  { assert (K : forall m : nat, Z.of_nat m <= n -> (forall k, 0 <= k < Z.of_nat m -> member (t_bitfield (w_mem w)) k) \/ exists k, 0 <= k < n /\ ~ member (t_bitfield (w_mem w)) k).
    { induction m as [|m IH]; intros Hm; [left; lia|]. destruct IH as [A|A]; [lia| |now right]. destruct (bf_has_spec (t_bitfield (w_mem w)) (Z.of_nat m)) as ([] & _ & Q); [lia| |].
      - left. intros k Hk. destruct (Z.eq_dec k (Z.of_nat m)) as [->|]; [now apply Q|apply A; lia].
      - right. exists (Z.of_nat m). split; [lia|]. rewrite <- Q. discriminate. }
    destruct (K (Z.to_nat n)) as [A|A]; [lia| |now right]. left. intros k Hk. apply A. lia. }
  destruct dec as [All|(k0 & Hk0 & Mk0)]; [left; exact All|right].
  destruct (hears_bitfield sha1 cfg env hash id blank ip rid port (t_bitfield (w_mem w)) (Running w []) full) as (bits & H & int & tr & G2 & _ & Mbits & Int & Ti).
  { apply Forall_forall. intros i Hi. apply bf_items_spec, Mf in Hi. lia. }
  assert (int = true) as -> by (apply Int; exists k0; split; [now apply Mf|exact Mk0]). subst tr.
  pose proof (connects sha1 cfg env hash id blank ip rid port [hs_encode {| hs_info := hash; hs_peer := rid |}] r' (app_nil_r _) Sk w) as G1.
  pose proof (hears_unchoke sha1 cfg env hash id blank ip rid port (t_bitfield (w_mem w)) (Running w []) bits H true _ _ eq_refl eq_refl (mk_bitfield full)) as G3.
  assert (all : forall k, member bits k <-> 0 <= k < n). { intros k. rewrite Mbits, Mf. specialize (Mb k). tauto. }
  destruct (rounds sha1 cfg env hash id blank ip rid port ok [hs_encode {| hs_info := hash; hs_peer := rid |}] r' (app_nil_r _) Sk bits true H c W FF Wc f tick ls0 d t es0 w es1 U Rm E0 E1 (conj N32 P32) all
    _ (map Z.of_nat (seq 0 (Z.to_nat n))) [] [TOver] [] w [] (mk_plain UNCHOKE) (Nat.le_refl _) Sh0 (Forall_nil _)) as (D' & X' & F' & w' & ts' & m' & tr4 & Sh' & An & Al & Ex & Od & G4).
  { intros k Hk. right. apply in_map_iff. exists (Z.to_nat k). split; [lia|]. apply in_seq. lia. }
  destruct (DownloadStoreProofs.sh_done sha1 cfg env ok W FF c Wc f tick ls0 d t es0 w es1 U Rm E0 E1 w' ts' Sh' Al) as (c' & C & Wh).
  eexists _, _, tr4, w', ts'. split; [exact G1|]. split; [exact (viae _ _ _ _ _ _ _ _ _ _ _ _ G2 (viae _ _ _ _ _ _ _ _ _ _ _ _ G3 G4))|]. split; [exact An|]. split; [reflexivity|].
  split; [eexists; repeat split; reflexivity|]. split; [reflexivity|]. split; [exact Al|]. exists c'. split; [exact C|]. split; [exact Wh|]. intros k Hk M. pose proof (Od k Hk M) as O. unfold on_disk in O. rewrite C in O. now injection O.
Qed.
Lemma download hash id blank ip rid port f tick ls w es :
  untouched cfg f -> StorageHealthSpec.roomy cfg env f -> execs (Dead f tick) ls = Some (Running w [], es) ->
  bf_new n = Some blank -> List.length hash = 20%nat -> List.length rid = 20%nat -> rid <> id -> n <= 2 ^ 32 -> PL <= 2 ^ 32 ->
  exists l u ev w' ts' d, uruns sha1 cfg env hash id blank (ustart (Running w [])) l = Some (u, ev) /\ s_crashed (srv u) = false /\ seeder cfg c (traffic 0 ev) /\
    (forall q, In q (s_peers (srv u)) -> q_id q = rid /\ q_ip q = ip /\ q_port q = port) /\
    n_sto (u_node u) = Running w' ts' /\ content cfg (w_fs w') = Some d /\ whole sha1 cfg d /\
    forall k, 0 <= k < n -> ~ member (advertised w) k -> slice d (k * PL) (piece_size (c_info cfg) k) = slice c (k * PL) (piece_size (c_info cfg) k).
Proof using All.
  intros U Rm E Bl Lh Lr NE N32 P32. assert (n0 : 0 <= n) by (unfold num_pieces, zlen; lia). destruct (full_bits n n0) as (full & Lf & Mf).
  destruct (download_run hash id blank ip rid port f tick ls w es full U Rm E Bl Lh Lr NE N32 P32 Mf) as (_ & _ & [All|(u1 & u & tr & w' & ts' & G1 & G2 & An & Cr & (q & Pq & Q) & St & _ & c' & C & Wh & Od)]).
  - destruct (just_started _ _ _ _ _ E) as (ls0 & d & t & es0 & es1 & E0 & E1). pose proof (DownloadStoreProofs.sh_start sha1 cfg env c w) as Sh0.
    destruct (DownloadStoreProofs.sh_done sha1 cfg env ok W FF c Wc f tick ls0 d t es0 w es1 U Rm E0 E1 w [] Sh0 All) as (c' & C & Wh).
    exists [], (ustart (Running w [])), [], w, [], c'. split; [reflexivity|]. split; [reflexivity|]. split; [intros [|? ?] ? ? Q; discriminate Q|]. split; [intros ? []|]. split; [reflexivity|]. split; [exact C|]. split; [exact Wh|]. intros k Hk M. elim M. exact (All k Hk).
  - pose proof (viae _ _ _ _ _ _ _ _ _ _ _ _ G1 G2) as (l & ev & R & T & _).
    exists l, u, ev, w', ts', c'. split; [exact R|]. split; [exact Cr|]. split; [|split; [rewrite Pq; intros q' [<-|[]]; exact Q|split; [exact St|split; [exact C|split; [exact Wh|exact Od]]]]].
    rewrite T. change (says_from [] ([KSent (mk_bitfield (t_bitfield (w_mem w)))] ++ [KRecv (mk_bitfield full)] ++ [KSent (mk_plain INTERESTED)] ++ [KRecv (mk_plain UNCHOKE)] ++ tr)).
    apply says_app; [apply says_silent; intros m [Q0|[]]; discriminate Q0|]. apply says_app.
    + apply says_one. left. exists full. split; [reflexivity|]. split; [exact Lf|]. split; [exact Mf|]. intros x [Q0|[]]. discriminate Q0.
    + apply says_app; [apply says_silent; intros m [Q0|[]]; discriminate Q0|]. apply says_app; [|now apply says_answers]. apply says_one. right. left. split; [reflexivity|]. right. right. now left.
Qed.
End Main.
