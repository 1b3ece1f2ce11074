(** Two runs that fit together are a run of both clients; a client gets the torrent from another. *)
From Verif Require Import GoBase GoBaseProofs GoMap NetIP Bitfield BitfieldSpec BitfieldProofs PeerWire PeerWireSpec PeerWireProofs Metainfo MetainfoSpec Tracker Fs Storage StorageSpec StorageSysSpec StorageSys StorageHealthSpec
  Node NodeSpec P2PConn P2PPeer P2PServer Client ClientSpec DownloadSpec PairSpec DownloadProofs ServeProofs.
From Verif Require Import StorageFsProofs StorageLoadProofs StorageProofs StorageSysProofs StorageClaimProofs.
From Verif Require Import Strconv TrackerSpec.
From Verif Require DownloadStoreProofs DownloadMainProofs P2PAddrProofs.

(** A step writes or reads at most one message. *)
Lemma kexec_one K a K' e : kexec K a = Some (K', e) -> (List.length e <= 1)%nat.
Proof.
  unfold kexec. destruct (k_crashed K); [discriminate|]. destruct a as [t c|l|f|m]; try (intros [= _ <-]; cbn; lia).
  2:{ destruct (existsb _ _); intros [= _ <-]; cbn; lia. }
  destruct (nth_error (k_threads K) t) as [[h|todo kids|r q|f p|m p|]|]; try discriminate.
  - destruct h as [|m| m| |[]|r|r|r d []| |], c; cbn; unfold take_lock, finish_write, handle_message; try discriminate;
    repeat match goal with
    | |- (if ?b then _ else _) = _ -> _ => destruct b
    | |- match ?x with _ => _ end = _ -> _ => destruct x
    | |- (let '(_, _) := ?x in _) = _ -> _ => destruct x
    end; try discriminate; intros [= _ <-]; cbn; lia.
  - unfold step_pull. destruct todo, c; try discriminate; [destruct (running K kids)|destruct (_ <? _)]; try discriminate; intros [= _ <-]; cbn; lia.
  - destruct q as [| |f []|f|o|], c; cbn; unfold finish_write; try discriminate;
    repeat match goal with
    | |- (if ?b then _ else _) = _ -> _ => destruct b
    | |- match ?x with _ => _ end = _ -> _ => destruct x
    end; try discriminate; intros [= _ <-]; cbn; lia.
  - destruct p as [[]|], c; cbn; unfold take_lock, finish_write; try discriminate;
    repeat match goal with
    | |- (if ?b then _ else _) = _ -> _ => destruct b
    | |- match ?x with _ => _ end = _ -> _ => destruct x
    end; try discriminate; intros [= _ <-]; cbn; lia.
  - destruct p, c; cbn; unfold take_lock, finish_write; try discriminate;
    repeat match goal with
    | |- (if ?b then _ else _) = _ -> _ => destruct b
    | |- match ?x with _ => _ end = _ -> _ => destruct x
    end; try discriminate; intros [= _ <-]; cbn; lia.
Qed.
Lemma filter_le {A} (f : A -> bool) l : (List.length (filter f l) <= List.length l)%nat.
Proof. induction l as [|x l IH]; cbn; [lia|]. destruct (f x); cbn; lia. Qed.
Lemma conn_step_one c p a c' e : conn_step c p a = Some (c', e) -> (List.length (traffic 0 e) <= 1)%nat.
Proof.
  unfold conn_step. destruct (nth_error _ p) as [K|]; [|discriminate]. destruct (kexec K a) as [[K' ek]|] eqn:X; [|discriminate]. intros [= _ <-]. apply kexec_one in X. unfold traffic. etransitivity; [apply filter_le|]. etransitivity; [|exact X].
  clear. induction ek as [|x ek IH]; [cbn; lia|]. cbn [map conn_events flat_map]. rewrite app_length. cbn [List.length]. change (flat_map _ (map (UK p) ek)) with (conn_events 0 (map (UK p) ek)). destruct (Nat.eqb _ _); cbn [List.length]; lia.
Qed.
Lemma step_one sha1 cfg env hash id blank c a c' e : uexec sha1 cfg env hash id blank c a = Some (c', e) -> (List.length (traffic 0 e) <= 1)%nat.
Proof.
  unfold uexec. destruct (s_crashed (srv c)); [discriminate|]. destruct a as [a|t|p k ch].
  - destruct (nexec _ _ _ _ _ _ _ a) as [[n en]|]; [|discriminate]. destruct (beside_node c a n en) as [|p k ch|]; [intros [= _ <-]; rewrite traffic_node; cbn; lia| |discriminate].
    destruct (conn_step c p _) as [[c1 ek]|] eqn:X; [|discriminate]. intros [= _ <-]. rewrite traffic_app, traffic_node. eapply conn_step_one, X.
  - destruct (thread_of c t); [|discriminate]. destruct (mget _ _ _); [discriminate|]. destruct (conn_call _ _ _ _) as [[p a]|]; [|discriminate]. destruct (nth_error _ p); [|discriminate]. destruct (conn_step c p a) as [[c1 ek]|] eqn:X; [|discriminate].
    intros [= _ <-]. eapply conn_step_one, X.
  - destruct (nth_error _ p) as [K|]; [|discriminate]. destruct (nth_error _ k); [|discriminate]. destruct (inside _ _ _ _); [|discriminate]. apply conn_step_one.
Qed.
(** A run can be cut at a message. *)
Lemma goes_cut sha1 cfg env hash id blank rid c c' x tr : goes sha1 cfg env hash id blank rid c c' (x :: tr) -> exists d, goes sha1 cfg env hash id blank rid c d [x] /\ goes sha1 cfg env hash id blank rid d c' tr.
Proof.
  intros (l & ev & R & T & F). revert c ev R T. induction l as [|a l IH]; intros c ev R T; cbn [uruns] in R; [injection R as _ <-; discriminate T|].
  destruct (uexec _ _ _ _ _ _ c a) as [[c1 e1]|] eqn:X; [|discriminate]. destruct (uruns _ _ _ _ _ _ c1 l) as [[c2 e2]|] eqn:Y; [|discriminate]. injection R as <- <-. rewrite traffic_app in T. pose proof (Forall_inv F) as Fa. pose proof (Forall_inv_tail F) as Fl.
  pose proof (step_one _ _ _ _ _ _ _ _ _ _ X) as O. pose proof (goes_one _ _ _ _ _ _ rid _ _ _ _ X Fa) as G. destruct (traffic 0 e1) as [|y [|z t1]] eqn:Q; cbn in O; [| |lia].
  - destruct (IH Fl _ _ Y T) as (d & G1 & G2). exists d. split; [|exact G2]. eapply via; [exact G|exact G1].
  - cbn in T. injection T as -> T. exists c1. split; [exact G|]. exists l, e2. auto.
Qed.
Lemma passes_nil s s' : passes [] s s' -> s = s'.
Proof. now inversion 1. Qed.
Lemma passes_app a b : forall s s'', passes (a ++ b) s s'' -> exists s', passes a s s' /\ passes b s' s''.
Proof.
  induction a as [|x a IH]; intros s s'' P; [exists s; split; [constructor|exact P]|]. cbn in P. inversion P; subst.
  - destruct (IH _ _ ltac:(eassumption)) as (s' & A & B). exists s'. split; [now constructor|exact B].
  - destruct (IH _ _ ltac:(eassumption)) as (s' & A & B). exists s'. split; [now constructor|exact B].
Qed.

Section Pair.
Variable sha1 : bytes -> bytes.
Variables (cfg1 cfg2 : config) (env1 env2 : nat -> Fs.choice) (hash id1 id2 blank : bytes).
Notation together := (together sha1 cfg1 cfg2 env1 env2 hash id1 id2 blank).
Notation goes1 := (goes sha1 cfg1 env1 hash id1 blank id2).
Notation goes2 := (goes sha1 cfg2 env2 hash id2 blank id1).
Lemma together_trans c1 c2 s d1 d2 s' e1 e2 s'' : together c1 c2 s d1 d2 s' -> together d1 d2 s' e1 e2 s'' -> together c1 c2 s e1 e2 s''.
Proof. induction 1; intros B; [exact B|eapply together_first; eauto|eapply together_second; eauto]. Qed.
Lemma first_goes c1 c1' c2 tr s s' : goes1 c1 c1' tr -> passes tr s s' -> together c1 c2 s c1' c2 s'.
Proof.
  intros (l & ev & R & <- & F). revert c1 ev s R F. induction l as [|a l IH]; intros c1 ev s R F P; cbn [uruns] in R; [injection R as <- <-; inversion P; subst; constructor|].
  destruct (uexec _ _ _ _ _ _ c1 a) as [[c e1]|] eqn:X; [|discriminate]. destruct (uruns _ _ _ _ _ _ c l) as [[c0 e2]|] eqn:Y; [|discriminate]. injection R as <- <-. rewrite traffic_app in P. apply passes_app in P as (s1 & P1 & P2).
  eapply together_first; [exact X|exact (Forall_inv F)|exact P1|]. eapply IH; [exact Y|exact (Forall_inv_tail F)|exact P2].
Qed.
Lemma swap_swap s : PairSpec.swap (PairSpec.swap s) = s.
Proof. now destruct s. Qed.
Lemma second_goes c1 c2 c2' tr s s' : goes2 c2 c2' tr -> passes tr (PairSpec.swap s) (PairSpec.swap s') -> together c1 c2 s c1 c2' s'.
Proof.
  intros (l & ev & R & <- & F). revert c2 ev s R F. induction l as [|a l IH]; intros c2 ev s R F P; cbn [uruns] in R.
  - injection R as <- <-. assert (Q : PairSpec.swap s = PairSpec.swap s') by exact (passes_nil _ _ P). apply (f_equal PairSpec.swap) in Q. rewrite !swap_swap in Q. subst s'. constructor.
  - destruct (uexec _ _ _ _ _ _ c2 a) as [[c e1]|] eqn:X; [|discriminate]. destruct (uruns _ _ _ _ _ _ c l) as [[c0 e2]|] eqn:Y; [|discriminate]. injection R as <- <-. rewrite traffic_app in P. apply passes_app in P as (s1 & P1 & P2).
    rewrite <- (swap_swap s1) in P1, P2. eapply together_second; [exact X|exact (Forall_inv F)|exact P1|]. eapply IH; [exact Y|exact (Forall_inv_tail F)|exact P2].
Qed.
Lemma merge tr : Forall (fun x => match x with KSent _ | KRecv _ => True | _ => False end) tr -> forall c1 c1' c2 c2', goes1 c1 c1' tr -> goes2 c2 c2' (map flip tr) -> together c1 c2 ([], []) c1' c2' ([], []).
Proof.
  induction 1 as [|x tr Hx F IH]; intros c1 c1' c2 c2' G1 G2.
  - eapply together_trans; [eapply first_goes; [exact G1|constructor]|]. eapply second_goes; [exact G2|constructor].
  - apply goes_cut in G1 as (d1 & A1 & B1). cbn [map] in G2. apply goes_cut in G2 as (d2 & A2 & B2). eapply together_trans; [|exact (IH _ _ _ _ B1 B2)]. destruct x as [m| | |m| | | | | | | |]; try contradiction; cbn [flip] in A2.
    + eapply together_trans; [eapply (second_goes _ _ _ _ _ ([], [m])); [exact A2|constructor; constructor]|]. eapply first_goes; [exact A1|constructor; constructor].
    + eapply together_trans; [eapply first_goes; [exact A1|constructor; constructor]|]. eapply (second_goes _ _ _ _ _ ([], [])); [exact A2|]. cbn. constructor. constructor.
Qed.
End Pair.

(** A client that starts with all pieces has the content. *)
Lemma seed_has sha1 cfg env f tick ls w es : config_ok cfg -> untouched cfg f -> StorageSys.execs sha1 cfg env (Dead f tick) ls = Some (Running w [], es) ->
  (forall k, 0 <= k < num_pieces (c_info cfg) -> member (advertised w) k) -> exists c, content cfg (w_fs w) = Some c /\ whole sha1 cfg c.
Proof.
  intros ok U E All. destruct (DownloadMainProofs.just_started _ _ _ _ _ _ _ _ E) as (ls0 & d & t & es0 & es1 & E0 & E1).
  pose proof (proj1 (execs_ok sha1 cfg env ok f _ _ _ _ (inv_start sha1 cfg env ok f tick U) E0)) as I0. pose proof (proj1 (exec_ok sha1 cfg env ok f _ _ _ _ I0 E1)) as I1.
  destruct I0 as [[F _] _]. cbn [disk_of] in F. pose proof E1 as X. unfold StorageSys.exec in X. destruct (load cfg env (booted cfg d t)) as [w1 r] eqn:L.
  destruct (load_spec sha1 cfg env ok _ _ _ _ F L) as (_ & _ & R). destruct r as [u|e|]; [|discriminate|contradiction R]. injection X as -> _. destruct R as (M & _ & O & A).
  assert (CO : content cfg (w_fs w) <> None).
  { pose proof I1 as (_ & (MI & MA & _) & _). apply A. intros k Hk. apply O; [exact Hk|]. destruct (piece_exists sha1 cfg env ok _ _ _ MI Hk) as [p Hp]. exists p. split; [exact Hp|]. apply (MA _ _ Hp). rewrite Z2Nat.id by lia. now apply (bitfield_exact sha1 cfg env ok f w [] I1), All. }
  destruct (content cfg (w_fs w)) as [c|] eqn:C; [|contradiction]. exists c. split; [reflexivity|]. exact (content_always_whole sha1 cfg env ok f tick ls _ _ c U E C).
Qed.

(** The answers of a peer that knew this one, or that did not. *)
Lemma dialed hash id rid exp : List.length hash = 20%nat -> List.length rid = 20%nat -> rid <> id -> exp = zero_id \/ exp = rid ->
  exists r', peer_handshake hash id exp true [hs_encode {| hs_info := hash; hs_peer := rid |}] = (rid, Ok r').
Proof.
  intros Lh Lr NE [E|E]; subst exp; [now apply DownloadMainProofs.stranger|]. set (h := {| hs_info := hash; hs_peer := rid |}). destruct (hs_round_trip h [hs_encode h] []) as (r' & D & _).
  - split; assumption.
  - constructor; [|constructor]. unfold hs_encode. discriminate.
  - cbn. now rewrite !app_nil_r.
  - exists r'. unfold peer_handshake. cbn [negb]. rewrite D. unfold h. cbn [hs_info hs_peer]. rewrite (proj2 (bytes_eqb_eq hash hash) eq_refl), (proj2 (bytes_eqb_eq rid rid) eq_refl). cbn [negb]. rewrite Bool.andb_false_r.
    destruct (bytes_eqb rid id) eqn:Q; [|reflexivity]. apply bytes_eqb_eq in Q. contradiction.
Qed.
Lemma answers_shape cfg c tr : answers cfg c tr -> Forall (fun x => match x with KSent _ | KRecv _ => True | _ => False end) tr.
Proof. induction 1; repeat constructor; assumption. Qed.
Lemma answers_same cfg cfg' c tr : c_info cfg' = c_info cfg -> answers cfg c tr -> answers cfg' c tr.
Proof. intros Q. induction 1; [constructor|constructor; [now rewrite Q|assumption]|]. rewrite <- Q in *. now constructor. Qed.

Section Main.
Variable sha1 : bytes -> bytes.
Variables (cfg1 cfg2 : config) (env1 env2 : nat -> Fs.choice).
Hypothesis same : c_info cfg2 = c_info cfg1.
Hypothesis ok1 : config_ok cfg1.
Hypothesis ok2 : config_ok cfg2.
Hypothesis W1 : works env1.
Hypothesis W2 : works env2.
Hypothesis FF1 : files_fit cfg1.
Hypothesis FF2 : files_fit cfg2.
Notation n := (num_pieces (c_info cfg1)).
Notation PL := (i_piece_length (c_info cfg1)).
Lemma pair_run hash id1 id2 blank f1 tick1 ls1 w1 es1 f2 tick2 ls2 w2 es2 tp ip1 a1 ip2 port2 :
  untouched cfg1 f1 -> roomy cfg1 env1 f1 -> untouched cfg2 f2 -> roomy cfg2 env2 f2 ->
  StorageSys.execs sha1 cfg1 env1 (Dead f1 tick1) ls1 = Some (Running w1 [], es1) ->
  StorageSys.execs sha1 cfg2 env2 (Dead f2 tick2) ls2 = Some (Running w2 [], es2) ->
  (exists k, 0 <= k < n /\ ~ member (advertised w1) k) -> (forall k, 0 <= k < n -> member (advertised w2) k) ->
  bf_new n = Some blank -> n <= 2 ^ 32 -> PL <= 2 ^ 32 ->
  List.length hash = 20%nat -> List.length id1 = 20%nat -> List.length id2 = 20%nat -> id1 <> id2 ->
  parse_ip (p_ip tp) = Some ip1 -> dialable tp = true -> remote_addr tp = Some a1 -> copied_id (p_id tp) = zero_id \/ copied_id (p_id tp) = id1 ->
  exists u1 u2 w1' ts1 w2' ts2 c1 c2, together sha1 cfg1 cfg2 env1 env2 hash id1 id2 blank (ustart (Running w1 [])) (ustart (Running w2 [])) ([], []) u1 u2 ([], []) /\
    s_crashed (srv u1) = false /\ s_crashed (srv u2) = false /\
    (exists q, s_peers (srv u1) = [q] /\ q_id q = id2 /\ q_ip q = ip2 /\ q_port q = port2) /\ (exists q, s_peers (srv u2) = [q] /\ q_id q = id1 /\ q_ip q = ip1 /\ q_port q = p_port tp) /\
    n_sto (u_node u1) = Running w1' ts1 /\ n_sto (u_node u2) = Running w2' ts2 /\
    content cfg1 (w_fs w1') = Some c1 /\ whole sha1 cfg1 c1 /\ content cfg2 (w_fs w2) = Some c2 /\ content cfg2 (w_fs w2') = Some c2 /\
    forall k, 0 <= k < n -> ~ member (advertised w1) k -> slice c1 (k * PL) (piece_size (c_info cfg1) k) = slice c2 (k * PL) (piece_size (c_info cfg1) k).
Proof using All.
  intros U1 R1 U2 R2 E1 E2 (k0 & Hk0 & Mk0) All Bl N32 P32 Lh L1 L2 NE Ip Di Ad Ex.
  assert (All2 : forall k, 0 <= k < num_pieces (c_info cfg2) -> member (advertised w2) k) by (rewrite same; exact All).
  destruct (seed_has _ _ _ _ _ _ _ _ ok2 U2 E2 All2) as (c & C & Wc2). assert (Wc1 : whole sha1 cfg1 c) by (revert Wc2; unfold whole, verified; now rewrite same).
  destruct (DownloadMainProofs.just_started _ _ _ _ _ _ _ _ E2) as (ls0 & d & t & es0 & es0' & E20 & E21).
  pose proof (DownloadStoreProofs.sh_bits sha1 cfg2 env2 ok2 W2 FF2 c Wc2 f2 tick2 ls0 d t es0 w2 es0' U2 R2 E20 E21 w2 [] (DownloadStoreProofs.sh_start sha1 cfg2 env2 c w2)) as B2. rewrite same in B2.
  destruct (DownloadMainProofs.download_run sha1 cfg1 env1 ok1 W1 FF1 c Wc1 hash id1 blank ip2 id2 port2 f1 tick1 ls1 w1 es1 (advertised w2) U1 R1 E1 Bl Lh L2 (not_eq_sym NE) N32 P32) as (B1 & _ & [A|(u1 & u & tr & w1' & ts1 & G1 & G2 & An & Cr & Pe & St & _ & c1 & C1 & Wh & Od)]).
  { intros j. split; [apply B2|apply All]. }
  { elim Mk0. now apply A. }
  destruct (dialed hash id2 id1 _ Lh L1 NE Ex) as (r' & Sk).
  assert (n0 : 0 <= n) by (unfold num_pieces, zlen; lia). destruct (bf_new_spec n n0) as (b0 & Bl0 & Lb & _). assert (b0 = blank) as -> by congruence.
  destruct (seeds sha1 cfg2 env2 hash id2 blank ip1 id1 (p_port tp) a1 tp [hs_encode {| hs_info := hash; hs_peer := id1 |}] r' (app_nil_r _) Sk Ip eq_refl Di Ad ok2 W2 FF2 c Wc2 f2 tick2 ls0 d t es0 w2 es0' U2 R2 E20 E21
    ltac:(rewrite same; split; assumption) All2 C ltac:(rewrite same; lia) (advertised w1) tr ltac:(rewrite same; exact B1) (answers_same _ _ _ _ same An)) as (v1 & v2 & v & w2' & ts2 & S1 & S2 & S3 & Cr2 & Pe2 & St2 & C2).
  apply goes_cut in G2 as (u2 & G2 & G3).
  exists u, v, w1', ts1, w2', ts2, c1, c. split; [|split; [exact Cr|split; [exact Cr2|split; [exact Pe|split; [exact Pe2|split; [exact St|split; [exact St2|split; [exact C1|split; [exact Wh|split; [exact C|split; [exact C2|exact Od]]]]]]]]]]].
  eapply together_trans; [eapply first_goes; [exact G1|constructor; constructor]|].
  eapply together_trans; [eapply (second_goes _ _ _ _ _ _ _ _ _ _ _ _ _ _ ([mk_bitfield (advertised w1)], [mk_bitfield (advertised w2)])); [exact S1|constructor; constructor]|].
  eapply together_trans; [eapply (second_goes _ _ _ _ _ _ _ _ _ _ _ _ _ _ ([], [mk_bitfield (advertised w2)])); [exact S2|constructor; constructor]|].
  eapply together_trans; [eapply first_goes; [exact G2|constructor; constructor]|].
  eapply merge; [|exact G3|exact S3]. do 2 (constructor; [exact I|]). eapply answers_shape, An.
Qed.
(** The same with the address and the id of the tracker's answer. *)
Theorem client_feeds_client hash id1 id2 blank f1 tick1 ls1 w1 es1 f2 tick2 ls2 w2 es2 tp x1 x2 x3 x4 ip port :
  untouched cfg1 f1 -> roomy cfg1 env1 f1 -> untouched cfg2 f2 -> roomy cfg2 env2 f2 ->
  StorageSys.execs sha1 cfg1 env1 (Dead f1 tick1) ls1 = Some (Running w1 [], es1) ->
  StorageSys.execs sha1 cfg2 env2 (Dead f2 tick2) ls2 = Some (Running w2 [], es2) ->
  (exists k, 0 <= k < n /\ ~ member (advertised w1) k) -> (forall k, 0 <= k < n -> member (advertised w2) k) ->
  bf_new n = Some blank -> n <= 2 ^ 32 -> PL <= 2 ^ 32 ->
  List.length hash = 20%nat -> List.length id1 = 20%nat -> List.length id2 = 20%nat -> id1 <> id2 ->
  dotted x1 x2 x3 x4 (p_ip tp) -> 0 <= p_port tp <= 65535 -> p_id tp = [] \/ p_id tp = id1 ->
  exists u1 u2 w1' ts1 w2' ts2 c1 c2, together sha1 cfg1 cfg2 env1 env2 hash id1 id2 blank (ustart (Running w1 [])) (ustart (Running w2 [])) ([], []) u1 u2 ([], []) /\
    s_crashed (srv u1) = false /\ s_crashed (srv u2) = false /\
    (exists q, s_peers (srv u1) = [q] /\ q_id q = id2 /\ q_ip q = ip /\ q_port q = port) /\ (exists q, s_peers (srv u2) = [q] /\ q_id q = id1 /\ q_ip q = ipv4 [x1; x2; x3; x4] /\ q_port q = p_port tp) /\
    n_sto (u_node u1) = Running w1' ts1 /\ n_sto (u_node u2) = Running w2' ts2 /\
    content cfg1 (w_fs w1') = Some c1 /\ whole sha1 cfg1 c1 /\ content cfg2 (w_fs w2) = Some c2 /\ content cfg2 (w_fs w2') = Some c2 /\
    forall k, 0 <= k < n -> ~ member (advertised w1) k -> slice c1 (k * PL) (piece_size (c_info cfg1) k) = slice c2 (k * PL) (piece_size (c_info cfg1) k).
Proof using All.
  intros U1 R1 U2 R2 E1 E2 Ms All Bl N32 P32 Lh L1 L2 NE Do Po Id. destruct (P2PAddrProofs.v4_same _ _ _ _ _ Do) as (Ad & _ & Pa & Nc).
  eapply pair_run with (a1 := p_ip tp ++ bs ":" ++ Strconv.format_Z (p_port tp)); try eassumption.
  - unfold dialable. destruct (existsb _ (p_ip tp)) eqn:X; [apply P2PAddrProofs.existsb_colon in X; contradiction|]. cbn [negb andb]. apply andb_true_intro. split; apply Z.leb_le; lia.
  - destruct Id as [->|Id]; [left; reflexivity|right]. rewrite Id. unfold copied_id, copy20. rewrite L1, firstn_all2 by lia. now rewrite (app_nil_r id1 : id1 ++ skipn 20 zero_id = id1).
Qed.
End Main.
