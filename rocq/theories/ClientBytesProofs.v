(** The bytes on the connections. *)
From Verif Require Import GoBase GoBaseProofs GoMap Bitfield BitfieldSpec PeerWire PeerWireSpec PeerWireProofs Requests Metainfo MetainfoSpec Fs Storage StorageSpec StorageSysSpec StorageSys Node NodeSpec NodeServerProofs NodeProofs NodeThms P2PServer P2PServerSpec P2PServerProofs P2PAnnounceProofs
  P2PConn P2PConnSpec P2PConnProofs Client ClientSpec ClientProofs ClientServerProofs ClientConnProofs ClientAskProofs ClientThms ClientWantProofs ClientWireProofs ClientWireThms.
From Verif Require P2PRegistryProofs P2PServerThms.

Lemma sent_shape hash id blank s a s' e p m : P2PServer.exec hash id blank s a = Some (s', e) -> In (EvSent p m) e ->
  m = mk_bitfield (s_have s) \/ (exists i, m = mk_have i) \/ In m (map mk_plain [INTERESTED; NOT_INTERESTED; UNCHOKE]).
Proof.
  intros E I. open_exec E; cbn [In] in I; repeat match type of I with _ \/ _ => destruct I as [I|I] end; try contradiction; try discriminate I; injection I as <- <-; try (now left); right; try (left; eauto; fail); right; cbn; tauto.
Qed.
Section Bytes.
Variable sha1 : bytes -> bytes.
Variable cfg : config.
Variable env : nat -> Fs.choice.
Variable hash id : bytes.
Notation client_run := (client_run sha1 cfg env hash id).
Notation np := (num_pieces (c_info cfg)).
Hypothesis ok : config_ok cfg.
Hypothesis few : np <= 2 ^ 32.
Hypothesis small : i_piece_length (c_info cfg) <= 2 ^ 32.
Lemma pl_fits : i_piece_length (c_info cfg) <= 2 ^ 63 - 16384. Proof using small. clear -small. lia. Qed.

Definition shape (m : message) : Prop :=
  (exists b, m = mk_bitfield b /\ 8 * zlen b < np + 8) \/ (exists i, m = mk_have i) \/ In m (map mk_plain [INTERESTED; NOT_INTERESTED; UNCHOKE]).
Lemma sent_shapes f l n ev p m : node_run sha1 cfg env hash id f l n ev -> In (NEv (EvSent p m)) ev -> shape m.
Proof using ok.
  intros (U & tick & ls & w & es & blank & E & B & R). revert p m.
  enough ((ninv sha1 cfg env hash id blank w n ev /\ more cfg blank n ev) /\ forall p m, In (NEv (EvSent p m)) ev -> shape m) as G by apply G. revert R. apply (nruns_ind sha1 cfg env hash id blank (fun n ev => (ninv sha1 cfg env hash id blank w n ev /\ more cfg blank n ev) /\ forall p m, In (NEv (EvSent p m)) ev -> shape m)).
  - split; [split; [apply ninv_start|eapply more_start; eassumption]|]. intros p m [].
  - intros n1 ev1 a n2 e [[N M] IH] X. split; [split; [eapply ninv_step; eassumption|eapply more_step; eassumption]|].
    intros p m I. apply in_app_or in I as [I|I]; [now apply (IH p)|]. destruct (srv_event _ _ _ _ _ _ _ _ _ _ _ X I) as (b & s & e1 & E1 & I1 & _).
    destruct (sent_shape _ _ _ _ _ _ _ _ _ E1 I1) as [->|H]; [left|right; exact H].
    eexists. split; [reflexivity|]. pose proof (m_lens _ _ _ _ M) as L. pose proof (blank_len cfg blank B). pose proof (zlen_nonneg blank). pose proof (proj1 L) as L1. rewrite L1. lia.
Qed.
Lemma asked_shape f l c ev p m : client_run f l c ev -> In (UK p (KSent m)) ev -> m_type m = REQUEST -> exists r, m = request_of r.
Proof using ok small.
  intros (_ & tick & ls & w & es & blank & _ & _ & R) I TY. apply conns_run in R as (L & F & H). apply in_conn in I. destruct (nth_error (u_conns c) p) as [K|] eqn:N.
  - destruct (H _ _ N) as [lk KR]. clear - KR I TY.
    enough (kinds_ok K /\ forall x, In (KSent x) (conn_events p ev) -> m_type x = REQUEST -> exists r, x = request_of r) as [_ G] by eauto.
    revert KR. generalize (conn_events p ev). intros ek. apply (krun_inv (fun s ev => kinds_ok s /\ forall x, In (KSent x) ev -> m_type x = REQUEST -> exists r, x = request_of r)); [split; [intros [|[|t]]; discriminate|intros x []]|].
    intros s e1 a s' e2 B [KD IH] X. split; [eapply kinds_step; eauto|]. intros x J T. apply in_app_or in J as [J|J]; [eauto|]. destruct (sent_request _ _ _ _ _ KD X J T) as (t & r & g & _ & _ & ->). eauto.
  - apply nth_error_None in N. rewrite (F _ N) in I. destruct I.
Qed.
Theorem wire_fits f l c ev p m : client_run f l c ev -> (forall q, In (UK p (KRecv q)) ev -> m_type q = REQUEST -> m_length q < 2 ^ 32 - 9) -> In (UK p (KSent m)) ev ->
  exists x, m = go_msg x /\ PeerWireSpec.fits x.
Proof using ok few small.
  intros R RQ I. pose proof pl_fits as FT. destruct (client_node _ _ _ _ _ _ _ _ _ R) as [l' NR]. pose proof I as I0. apply in_split in I as (e1 & e2 & EV). pose proof R as R0. rewrite EV in R0. destruct (wrote sha1 cfg env hash id ok FT _ _ _ _ _ _ _ R0) as [W _].
  assert (0 <= np) as NP by (unfold num_pieces; apply zlen_nonneg). pose proof NR as NR0. apply (open_run sha1 cfg env hash id ok) in NR0 as (U & tick & ls & w & es & blank & E & B & N & M).
  destruct W as [[K I]|[[K I]|K]].
  - assert (In (NEv (EvSent p m)) (node_events ev)) as J by (apply in_node; rewrite EV; apply in_or_app; now left). apply in_split in I as (d1 & d2 & D).
    destruct (sent_shapes _ _ _ _ _ _ NR J) as [(b & -> & L)|SH].
    + exists (MBitfield b). split; [reflexivity|]. unfold PeerWireSpec.fits; lia.
    + destruct SH as [[i ->]|SH].
      * assert (0 <= i) as GE.
        { rewrite D in R0. rewrite <- app_assoc in R0. destruct (told_came sha1 cfg env hash id ok FT _ _ _ _ _ _ _ R0 eq_refl) as (q & b1 & b2 & Q & _). cbn [m_index mk_have] in Q.
          apply (asked_range sha1 cfg env hash id blank ok f tick ls w es U E B _ _ q i N). apply in_node. rewrite EV, D, Q. apply in_or_app. left. apply in_or_app. left. apply in_or_app. right. now left. }
        destruct (wire_announced sha1 cfg env hash id ok FT _ _ _ _ _ _ i R I0 GE ltac:(left; split; reflexivity)) as [LT _]. exists (MHave i). split; [reflexivity|]. unfold PeerWireSpec.fits, u32; lia.
      * cbn in SH. destruct SH as [<-|[<-|[<-|[]]]]; [exists MInterested|exists MNotInterested|exists MUnchoke]; split; try reflexivity; exact Logic.I.
  - assert (In (NServed p m) (node_events ev)) as J by (apply in_node; rewrite EV; apply in_or_app; now left). destruct (i_rets _ _ _ _ _ _ _ _ _ N _ J) as (t & q & d & RC & T & OW & G & ->).
    destruct (uploads sha1 cfg env hash id ok _ _ _ _ _ _ NR J) as (q' & d' & RC' & T' & EQ & Z & _). injection EQ as E1 E2 <-.
    assert (m_length q' < 2 ^ 32 - 9) as LL by (apply RQ; [eapply (heard_came sha1 cfg env hash id ok FT); [exact R|apply in_node; exact RC']|exact T']).
    exists (MPiece (m_index q) (m_begin q) d). split; [reflexivity|]. unfold on_wire in OW. repeat (apply andb_prop in OW as [OW ?]). unfold PeerWireSpec.fits, u32; lia.
  - destruct (asked_shape _ _ _ _ _ _ R I0 K) as [[[i b] x] ->]. destruct (requests_wanted sha1 cfg env hash id ok FT _ _ _ _ _ _ _ R0 K) as (since & _ & (IR & TB & TD & TL)).
    exists (MRequest i b x). split; [reflexivity|]. cbn [request_of mk_request m_index m_begin m_length fst snd] in *. unfold PeerWireSpec.fits, u32. unfold piece_size in *. lia.
Qed.
(** Read back by the protocol's own decoder, in segments of any size. *)
Lemma all_fit ms : (forall m, In m ms -> exists x, m = go_msg x /\ PeerWireSpec.fits x) -> exists xs, ms = map go_msg xs /\ Forall PeerWireSpec.fits xs.
Proof using.
  clear. induction ms as [|m ms IH]; intros H; [exists []; split; constructor|]. destruct (H m (or_introl eq_refl)) as (x & -> & F). destruct IH as (xs & -> & G); [intros y Y; apply H; now right|].
  exists (x :: xs). split; [reflexivity|now constructor].
Qed.
Theorem understood f l c ev p : client_run f l c ev -> (forall q, In (UK p (KRecv q)) ev -> m_type q = REQUEST -> m_length q < 2 ^ 32 - 9) ->
  forall r n, concat r = concat (map encode_msg (written p ev)) -> (List.length (written p ev) < n)%nat -> read_messages n r = (written p ev, Err EEof).
Proof using ok few small.
  intros R RQ r n C L. destruct (all_fit (written p ev)) as (xs & W & F).
  { intros m I. unfold written in I. apply in_flat_map in I as (x & I & J). destruct x; try contradiction. destruct J as [<-|[]]. apply in_conn in I. eapply wire_fits; eassumption. }
  rewrite W in *. rewrite map_map in C. rewrite map_length in L. now apply messages_round_trip.
Qed.
Theorem framed f l c ev p m : client_run f l c ev -> (forall q, In (UK p (KRecv q)) ev -> m_type q = REQUEST -> m_length q < 2 ^ 32 - 9) -> In (UK p (KSent m)) ev ->
  exists x, m = go_msg x /\ frame x (encode_msg m).
Proof using ok few small. intros R RQ I. destruct (wire_fits _ _ _ _ _ _ R RQ I) as (x & -> & F). exists x. split; [reflexivity|now apply encode_frame]. Qed.
End Bytes.

(** A block so long that its frame's length does not fit reads as a KEEPALIVE. *)
Lemma too_long i b d : zlen d = 2 ^ 32 - 9 -> exists r', read_message [encode_msg (mk_piece i b d)] = Ok (mk_plain KEEPALIVE, r') /\ concat r' = "007"%byte :: put_u32 i ++ put_u32 b ++ d.
Proof.
  intros L. unfold read_message, decode_msg. assert (encode_msg (mk_piece i b d) = put_u32 0 ++ "007"%byte :: put_u32 i ++ put_u32 b ++ d) as ->.
  { change (encode_msg (mk_piece i b d)) with (put_u32 (1 + 8 + zlen d) ++ [z2b PIECE] ++ put_u32 i ++ put_u32 b ++ d). rewrite L. reflexivity. }
  destruct (read_full_ok [put_u32 0 ++ "007"%byte :: put_u32 i ++ put_u32 b ++ d] 4) as (r' & -> & C & _).
  - cbn [concat]. unfold zlen. rewrite !app_length, put_u32_length. lia.
  - exists r'. cbn [concat] in *. rewrite app_nil_r in *. split; [reflexivity|exact C].
Qed.
(** What ReadMessage returns is in the range of the wire. *)
Lemma u32_at_range k p z : u32_at k p = Some z -> 0 <= z < 2 ^ 32.
Proof. unfold u32_at. destruct (skipn k p) as [|a [|b [|c [|d t]]]]; try discriminate. intros [= <-]. apply get_u32_range. Qed.
Lemma read_on_wire r m r' : read_message r = Ok (m, r') -> on_wire m = true.
Proof.
  assert (forall i b l, 0 <= i < 2 ^ 32 -> 0 <= b < 2 ^ 32 -> 0 <= l < 2 ^ 32 -> (0 <=? i) && (i <? 2 ^ 32) && (0 <=? b) && (b <? 2 ^ 32) && (0 <=? l) && (l <? 2 ^ 32) = true) as G.
  { intros. rewrite !andb_true_iff. repeat split; (apply Z.leb_le || apply Z.ltb_lt); lia. }
  unfold read_message, decode_msg. destruct (read_full 4 r) as [[[|a [|b [|c [|d [|]]]]] r1]| |]; try discriminate. destruct (_ =? 0); [intros [= <- _]; reflexivity|].
  destruct (read_full _ r1) as [[[|t p] r2]| |]; try discriminate. destruct (parse_msg _ _ _) as [m'| |] eqn:E; try discriminate. intros [= <- _]. unfold parse_msg in E.
  repeat match type of E with
         | (if ?b then _ else _) = _ => destruct b
         | match u32_at ?k ?p with _ => _ end = _ => let H := fresh in destruct (u32_at k p) eqn:H; [apply u32_at_range in H|]
         end; try discriminate; injection E as <-; apply G; cbn [zero_message m_index m_begin m_length]; try assumption; lia.
Qed.
