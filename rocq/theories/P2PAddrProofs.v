(** The texts of addresses: those of peers a tracker names and those of connections. *)
From Verif Require Import GoBase GoBaseProofs Bitfield BitfieldSpec GoMap PeerWire Strconv StrconvProofs Url NetIP NetIPProofs Tracker TrackerSpec TrackerProofs P2PPeer P2PServer P2PServerSpec P2PServerProofs P2PRegistryProofs P2PLockProofs P2PServerThms P2PNameProofs P2PAddrSpec.

(** * Texts *)
Lemma groups_length ip : List.length ip = 16%nat -> List.length (groups ip) = 8%nat.
Proof. do 17 (destruct ip as [|? ip]; try discriminate). reflexivity. Qed.
Lemma join_has c (x y : bytes) l : In c (join c (x :: y :: l)).
Proof. cbn [join]. apply in_or_app. right. now left. Qed.
Lemma v6_colon ip : List.length ip = 16%nat -> to4 ip = None -> In ":"%byte (show_ip ip).
Proof.
  intros L T. unfold show_ip. rewrite T. unfold show_v6. pose proof (groups_length ip L) as G.
  destruct (best_run 0 (groups ip) (O, O)) as [st [|len]].
  - destruct (groups ip) as [|x [|y l]]; try discriminate. apply join_has.
  - apply in_or_app. right. now left.
Qed.
Lemma v4_no_colon q : ~ In ":"%byte (show_v4 q).
Proof.
  unfold show_v4. intros H. assert (G : forall l, In ":"%byte (join "."%byte l) -> exists x, In x l /\ In ":"%byte x).
  { clear. induction l as [|x l IH]; [intros []|]. cbn [join]. destruct l as [|y l]; [intros I; exists x; split; [now left|exact I]|].
    intros I. apply in_app_or in I as [I|[I|I]]; [exists x; split; [now left|exact I]|discriminate I|]. destruct (IH I) as (z & Z1 & Z2). exists z. split; [now right|exact Z2]. }
  apply G in H as (x & I & C). apply in_map_iff in I as (b & <- & _). apply octet_clean in C. discriminate C.
Qed.
Lemma number_chars n c : In c (format_Z n) -> is_digit c = true \/ c = "-"%byte.
Proof.
  unfold format_Z. destruct (n <? 0).
  - intros [<-|I]; [now right|]. left. exact (proj1 (forallb_forall _ _) (format_N_digits _) _ I).
  - intros I. left. exact (proj1 (forallb_forall _ _) (format_N_digits _) _ I).
Qed.
Lemma existsb_colon s : existsb (beqb ":"%byte) s = true <-> In ":"%byte s.
Proof.
  rewrite existsb_exists. split; [intros (x & I & E); apply beqb_eq in E as <-; exact I|]. intros I. exists ":"%byte. split; [exact I|reflexivity].
Qed.
(** A connection is never known under the text of an IPv6 peer of a tracker. *)
Lemma v6_never tp a ip port : v6_peer tp -> remote_addr tp = Some a -> addr_of ip port <> a.
Proof.
  intros (ip0 & P & T). unfold remote_addr. rewrite P. intros [= <-] E. pose proof (v6_colon ip0 (parse_ip_len _ _ P) T) as C. unfold addr_of, join_host_port in E.
  destruct (existsb _ (show_ip ip)) eqn:X.
  - match type of E with ?u = ?v => assert (I : In "["%byte v) by (rewrite <- E; now left) end.
    apply in_app_or in I as [I|I]; [exact (plain_ip _ I)|]. destruct I as [I|I]; [discriminate I|]. apply number_chars in I as [I|I]; discriminate I.
  - apply cut_last in E as [E _].
    + rewrite <- E in C. apply existsb_colon in C. congruence.
    + intros I. apply number_chars in I as [I|I]; discriminate I.
    + intros I. apply number_chars in I as [I|I]; discriminate I.
Qed.
(** For IPv4 they agree. *)
Lemma v4_same a b c d tp : dotted a b c d (p_ip tp) -> remote_addr tp = Some (p_ip tp ++ bs ":" ++ format_Z (p_port tp)) /\ addr_of (ipv4 [a; b; c; d]) (p_port tp) = p_ip tp ++ bs ":" ++ format_Z (p_port tp) /\ parse_ip (p_ip tp) = Some (ipv4 [a; b; c; d]) /\ ~ In ":"%byte (p_ip tp).
Proof.
  intros D. apply dotted_show in D. unfold remote_addr, addr_of, join_host_port. rewrite D, parse_ip_show, show_ipv4. split; [reflexivity|]. split; [|split; [reflexivity|apply v4_no_colon]].
  destruct (existsb _ _) eqn:X; [|reflexivity]. apply existsb_colon in X. destruct (v4_no_colon _ X).
Qed.

(** * What is blocked is the text of a connection *)
Section Addr.
Variable own_hash own_id blank : bytes.
Notation exec := (exec own_hash own_id blank).
Ltac drops := repeat match goal with
  | |- context [fold_left (fun s p => match nth_error (s_peers s) p with Some q => drop_peer p q s | None => s end) ?l ?x] => fold (drop_all l x)
  end.
Definition conn_text (a : bytes) : Prop := exists ip port, a = addr_of ip port.
Definition texts_ok (g : registry) : Prop := (forall a, In a (g_blocked g) -> conn_text a) /\ forall x a, In a (addrs_of g x) -> conn_text a.
Lemma texts_disconnect p q g : texts_ok g -> texts_ok (disconnect p q g).
Proof.
  intros [B A]. split; [rewrite (proj1 (proj2 (disconnect_same _ _ _))); exact B|]. intros x a. unfold addrs_of. rewrite addrs_disconnect. destruct (bytes_eqb _ _); [intros []|apply A].
Qed.
Lemma texts_remember q g : texts_ok g -> texts_ok (remember q g).
Proof.
  intros [B A]. split; [exact B|]. intros x a. unfold addrs_of, remember. fields. rewrite (mget_put _), (mget_del _ beq_iff). destruct (bytes_eqb _ _); [|apply A].
  intros I. apply (sadd_in _ beq_iff) in I as [->|I]; [do 2 eexists; reflexivity|]. exact (A _ _ I).
Qed.
Lemma texts_block q g : texts_ok g -> texts_ok (block_addrs q g).
Proof. intros [B A]. split; [|exact A]. intros a I. apply block_addrs_in in I as [I|I]; [auto|exact (A _ _ I)]. Qed.
Lemma texts_step s a s' e : texts_ok (s_reg s) -> exec s a = Some (s', e) -> texts_ok (s_reg s').
Proof.
  intros L H. open_exec H; drops; fields; try exact L.
  all: try (apply texts_disconnect; exact L).
  all: try (apply (texts_remember r (s_reg s)), L).
  all: try (apply texts_disconnect, (texts_block r (s_reg s)), L).
  apply (drop_all_ind (fun s => texts_ok (s_reg s))); [exact L|]. intros s1 p1 q1 L1 _. fields. now apply texts_disconnect.
Qed.
End Addr.
Section AddrThms.
Variable hash id : bytes.
Variable n : Z.
Variable have : bytes.
Lemma blocked_texts l s ev a : run_of hash id n have l s ev -> In a (g_blocked (s_reg s)) -> conn_text a.
Proof.
  intros (blank & _ & _ & R). assert (T : texts_ok (s_reg s)).
  { revert R. apply (runs_state_ind hash id blank (fun s => texts_ok (s_reg s))); [split; intros *; intros []|]. intros. eapply texts_step; eassumption. }
  apply T.
Qed.
Lemma known_queued l s ev a : run_of hash id n have l s ev -> smem bytes_eqb a (g_known (s_reg s)) = true -> In (EvQueued a) ev.
Proof.
  intros R K. apply run_inv in R. pose proof (v_addr _ _ _ R a) as (Q & _). rewrite K in Q. unfold count in Q.
  destruct (filter (queues a) ev) as [|x f] eqn:F; [discriminate Q|]. assert (I : In x (filter (queues a) ev)) by (rewrite F; now left).
  apply filter_In in I as [I E]. destruct x; try discriminate E. cbn [queues] in E. apply bytes_eqb_eq in E as <-. exact I.
Qed.
Theorem v6_added_again l s ev tp a : run_of hash id n have l s ev -> v6_peer tp -> named tp a -> ~ In (EvQueued a) ev -> s_crashed s = false -> s_mu s = None -> zlen (s_queue s) < 50 ->
  exists s', goes_on hash id n s [AAdd tp] s' [EvQueued a].
Proof.
  intros R V N NQ C M Q. assert (A : remote_addr tp = Some a). { destruct N as (ip & P & ->). unfold remote_addr. rewrite P. reflexivity. }
  pose proof R as (blank & B1 & _). eexists. exists blank. split; [exact B1|]. cbn [P2PServer.runs]. unfold P2PServer.exec. rewrite C. unfold add_peer. rewrite M, A.
  destruct (smem bytes_eqb a (g_known (s_reg s))) eqn:K; [destruct NQ; exact (known_queued _ _ _ _ R K)|]. destruct (smem bytes_eqb a (g_blocked (s_reg s))) eqn:B.
  { apply (smem_in _ beq_iff) in B. apply (blocked_texts _ _ _ _ R) in B as (ip & port & ->). destruct (v6_never tp _ ip port V A eq_refl). }
  cbn [orb]. rewrite (proj2 (Z.ltb_lt _ _) Q). cbn [app]. reflexivity.
Qed.
Theorem v4_stays_blocked l s ev a s1 e p q l' s2 ev' w x y z tp : run_of hash id n have l s ev -> goes_on hash id n s [a] s1 e -> In (EvBlocked p) e ->
  nth_error (s_peers s) p = Some q -> registered s (name_of q) p -> dotted w x y z (p_ip tp) -> q_ip q = ipv4 [w; x; y; z] -> q_port q = p_port tp -> goes_on hash id n s1 l' s2 ev' ->
  forall t, named tp t -> ~ In (EvQueued t) ev'.
Proof.
  intros R G B Q A D I P G' t (ip & Pi & ->). destruct (v4_same _ _ _ _ _ D) as (_ & Ad & Pi' & _). rewrite Pi' in Pi. injection Pi as <-. rewrite show_ipv4.
  pose proof (proj1 (dotted_show _ _ _ _ _) D) as Dt. rewrite <- Dt. rewrite <- P, <- I in Ad. rewrite <- P. rewrite P in *.
  refine (proj1 (blocked_addresses hash id n have l s ev a s1 e p q _ l' s2 ev' R G B Q _ G')). right. split; [exact A|]. unfold place_of. rewrite P, Ad. reflexivity.
Qed.
Theorem v6_unreachable l s ev t tp c s' e : run_of hash id n have l s ev -> nth_error (s_threads s) t = Some (TDial tp true) -> In ":"%byte (p_ip tp) -> goes_on hash id n s [AGo t c] s' e ->
  c = CErr /\ s_peers s' = s_peers s /\ nth_error (s_threads s') t = Some TDialEnd.
Proof.
  intros R T C (blank & _ & G). cbn [P2PServer.runs] in G. destruct (exec hash id blank s (AGo t c)) as [[s1 e1]|] eqn:E; [|discriminate]. injection G as <- _.
  unfold exec in E. destruct (s_crashed s); [discriminate|]. unfold step_thread in E. rewrite T in E.
  destruct (remote_addr tp); [|discriminate]. destruct (parse_ip (p_ip tp)); [|discriminate]. destruct c; try discriminate.
  - unfold dialable in E. apply existsb_colon in C. rewrite C in E. discriminate E.
  - injection E as <- _. split; [reflexivity|]. fields. split; [reflexivity|]. apply list_set_nth_eq. apply nth_error_Some. congruence.
Qed.
Theorem v4_reachable l s ev t tp w x y z : run_of hash id n have l s ev -> s_crashed s = false -> nth_error (s_threads s) t = Some (TDial tp true) -> dotted w x y z (p_ip tp) -> 0 <= p_port tp <= 65535 ->
  exists s' q, goes_on hash id n s [AGo t COk] s' [EvDial (p_ip tp ++ bs ":" ++ format_Z (p_port tp))] /\ s_peers s' = s_peers s ++ [q] /\ q_ip q = ipv4 [w; x; y; z] /\ q_port q = p_port tp /\
    place_of q = p_ip tp ++ bs ":" ++ format_Z (p_port tp) /\ nth_error (s_threads s') t = Some (THandler (List.length (s_peers s)) HConnect).
Proof.
  intros R C T D P. destruct (v4_same _ _ _ _ _ D) as (Re & Ad & Pi & Nc). pose proof R as (blank & B1 & _). eexists. eexists. split.
  - exists blank. split; [exact B1|]. cbn [P2PServer.runs]. unfold exec. rewrite C. unfold step_thread. rewrite T, Re, Pi. unfold dialable.
    replace (existsb (beqb ":"%byte) (p_ip tp)) with false by (symmetry; apply not_true_iff_false; intros X; apply existsb_colon in X; exact (Nc X)).
    rewrite (proj2 (Z.leb_le _ _) (proj1 P)), (proj2 (Z.leb_le _ _) (proj2 P)). cbn [negb andb app]. reflexivity.
  - fields. split; [reflexivity|]. cbn [new_peer q_ip q_port]. split; [reflexivity|]. split; [reflexivity|]. split; [exact Ad|]. apply list_set_nth_eq. apply nth_error_Some. congruence.
Qed.
End AddrThms.
