From Verif Require Import GoBase GoBaseProofs PeerWire PeerWireSpec.

Lemma firstn_z_app (n : Z) (s t : bytes) : zlen s <= n -> firstn (Z.to_nat n) (s ++ t) = s ++ firstn (Z.to_nat (n - zlen s)) t.
Proof.
  intros L. rewrite firstn_app. unfold zlen in *. rewrite firstn_all2 by lia.
  replace (Z.to_nat n - List.length s)%nat with (Z.to_nat (n - Z.of_nat (List.length s))) by lia. reflexivity.
Qed.
Lemma skipn_z_app (n : Z) (s t : bytes) : zlen s <= n -> skipn (Z.to_nat n) (s ++ t) = skipn (Z.to_nat (n - zlen s)) t.
Proof.
  intros L. rewrite skipn_app. unfold zlen in *. rewrite skipn_all2 by lia.
  replace (Z.to_nat n - List.length s)%nat with (Z.to_nat (n - Z.of_nat (List.length s))) by lia. reflexivity.
Qed.

Lemma read_full_ok r : forall n, 0 <= n <= zlen (concat r) ->
  exists r', read_full n r = Ok (firstn (Z.to_nat n) (concat r), r') /\ concat r' = skipn (Z.to_nat n) (concat r) /\ (proper r -> proper r').
Proof.
  induction r as [|s r IH]; intros n [L H]; cbn [read_full concat] in *.
  - rewrite zlen_nil in H. assert (n = 0) by lia. subst. exists []. auto.
  - destruct (n <=? 0) eqn:E0.
    { assert (n = 0) by lia. subst. exists (s :: r). auto. }
    rewrite zlen_app in H. pose proof (zlen_nonneg s).
    destruct (zlen s <=? n) eqn:E.
    + destruct (IH (n - zlen s)) as (r' & -> & C & P); [lia|]. exists r'. rewrite firstn_z_app, skipn_z_app by lia. split; [reflexivity|]. split; [exact C|].
      intros Q. apply P. inversion Q; assumption.
    + exists (skipn (Z.to_nat n) s :: r). unfold zlen in *. split.
      * rewrite firstn_app. replace (Z.to_nat n - List.length s)%nat with O by lia. rewrite firstn_O, app_nil_r. reflexivity.
      * split.
        -- cbn [concat]. rewrite skipn_app. replace (Z.to_nat n - List.length s)%nat with O by lia. reflexivity.
        -- intros Q. inversion Q; subst. constructor; [|assumption]. intros B. apply (f_equal (@List.length byte)) in B. rewrite skipn_length in B. cbn in B. lia.
Qed.

Lemma read_full_short r : forall n, zlen (concat r) < n ->
  read_full n r = Err (match concat r with [] => EEof | _ => EUnexpectedEof end).
Proof.
  induction r as [|s r IH]; intros n H; cbn [read_full concat] in *.
  - rewrite zlen_nil in H. destruct (n <=? 0) eqn:E; [lia|]. reflexivity.
  - rewrite zlen_app in H. pose proof (zlen_nonneg (concat r)). pose proof (zlen_nonneg s). destruct (n <=? 0) eqn:E; [lia|].
    destruct (zlen s <=? n) eqn:E1; [|lia]. rewrite IH by lia. destruct s; reflexivity.
Qed.
Lemma read_full_inv n r b r' : 0 <= n -> read_full n r = Ok (b, r') ->
  concat r = b ++ concat r' /\ zlen b = n.
Proof.
  intros N H. destruct (Z_le_gt_dec n (zlen (concat r))) as [L|L].
  - destruct (read_full_ok r n) as (r2 & E & C & _); [lia|]. rewrite E in H. injection H as <- <-. rewrite C, firstn_skipn. split; [reflexivity|].
    unfold zlen in *. rewrite firstn_length. lia.
  - rewrite read_full_short in H by lia. discriminate.
Qed.
Lemma read_full_no_panic r : forall n, read_full n r <> Panic.
Proof.
  intros n. destruct (Z_le_gt_dec n (zlen (concat r))) as [L|L]; [|rewrite read_full_short by lia; discriminate].
  destruct (Z_le_gt_dec 0 n); [destruct (read_full_ok r n) as (r2 & E & _); [lia|congruence]|].
  destruct r; cbn [read_full]; destruct (n <=? 0) eqn:E; try lia; discriminate.
Qed.

Lemma read_full_seg n r r' : 0 <= n -> concat r = concat r' -> same_out (read_full n r) (read_full n r').
Proof.
  intros N E. destruct (Z_le_gt_dec n (zlen (concat r))) as [L|L].
  - destruct (read_full_ok r n) as (r2 & -> & C & _); [lia|]. destruct (read_full_ok r' n) as (r3 & -> & C' & _); [rewrite <- E; lia|].
    cbn. rewrite C, C', E. auto.
  - rewrite !read_full_short by (rewrite <- ?E; lia). cbn. rewrite E. reflexivity.
Qed.

Lemma decode_seg m r r' : concat r = concat r' -> same_out (decode_msg m r) (decode_msg m r').
Proof.
  intros E. unfold decode_msg. pose proof (read_full_seg 4 r r' ltac:(lia) E) as S.
  destruct (read_full 4 r) as [[h r1]| |], (read_full 4 r') as [[h' r1']| |]; cbn in S; try contradiction; [|exact S|exact I].
  destruct S as [-> C]. destruct h' as [|a [|b [|c [|d [|]]]]]; try exact I.
  pose proof (get_u32_range a b c d). destruct (get_u32 a b c d =? 0); [cbn; auto|].
  pose proof (read_full_seg (get_u32 a b c d) r1 r1' ltac:(lia) C) as S.
  destruct (read_full _ r1) as [[h r2]| |], (read_full _ r1') as [[h' r2']| |]; cbn in S; try contradiction; [|exact S|exact I].
  destruct S as [-> C']. destruct h' as [|t p]; [exact I|]. destruct (parse_msg m (b2z t) p); cbn; auto.
Qed.
Lemma messages_seg n : forall r r', concat r = concat r' -> read_messages n r = read_messages n r'.
Proof.
  induction n as [|n IH]; intros r r' E; [reflexivity|]. cbn [read_messages]. pose proof (decode_seg zero_message r r' E) as S.
  unfold read_message. destruct (decode_msg zero_message r) as [[m r1]| |], (decode_msg zero_message r') as [[m' r1']| |]; cbn in S; try contradiction.
  - destruct S as [-> C]. rewrite (IH _ _ C). reflexivity.
  - subst. reflexivity.
  - reflexivity.
Qed.

(** A complete frame in front of the stream. *)
Lemma decode_frame_raw m r pre t p rest : concat r = pre ++ (t :: p) ++ rest -> be32 (zlen (t :: p)) pre ->
  exists r', concat r' = rest /\ decode_msg m r = match parse_msg m (b2z t) p with Ok m' => Ok (m', r') | Err e => Err e | Panic => Panic end.
Proof.
  intros E (a & b & c & d & -> & Eb).
  assert (Eg : get_u32 a b c d = zlen (t :: p)) by (unfold get_u32; lia).
  unfold decode_msg. pose proof (zlen_nonneg p). rewrite zlen_cons in Eg.
  destruct (read_full_ok r 4) as (r1 & -> & C & _).
  { rewrite E, !zlen_app. change (zlen [a; b; c; d]) with 4. pose proof (zlen_nonneg (t :: p)). pose proof (zlen_nonneg rest). lia. }
  rewrite E. change (Z.to_nat 4) with 4%nat. cbn [app firstn]. rewrite Eg. destruct (1 + zlen p =? 0) eqn:Z; [lia|].
  rewrite E in C. change (Z.to_nat 4) with 4%nat in C. cbn [app skipn] in C.
  replace (1 + zlen p) with (zlen (t :: p)) by apply zlen_cons.
  change (t :: p ++ rest) with ((t :: p) ++ rest) in C.
  destruct (read_full_ok r1 (zlen (t :: p))) as (r2 & -> & C2 & _).
  { rewrite C, zlen_app. pose proof (zlen_nonneg rest). pose proof (zlen_nonneg (t :: p)). lia. }
  rewrite C, firstn_zlen_app. rewrite C, skipn_zlen_app in C2. exists r2. auto.
Qed.

Lemma be32_put z : u32 z -> be32 z (put_u32 z).
Proof.
  intros U. pose proof (get_put_u32 z) as G. destruct (put_u32 z) as [|a [|b [|c [|d [|]]]]]; try contradiction.
  exists a, b, c, d. split; [reflexivity|]. unfold u32 in U. rewrite Z.mod_small in G by lia. rewrite <- G. unfold get_u32. lia.
Qed.
Lemma be32_range z w : be32 z w -> u32 z.
Proof.
  intros (a & b & c & d & _ & <-). unfold u32. pose proof (b2z_range a). pose proof (b2z_range b). pose proof (b2z_range c). pose proof (b2z_range d).
  change (2 ^ 24) with 16777216. change (2 ^ 16) with 65536. change (2 ^ 8) with 256. change (2 ^ 32) with 4294967296. lia.
Qed.

Lemma encode_frame m : fits m -> frame m (encode_msg (go_msg m)).
Proof.
  assert (P : forall (pre bd : bytes) z, be32 z pre -> z = zlen bd -> body m bd -> frame m (pre ++ bd)) by (intros pre bd z Hb -> B; exists pre, bd; auto).
  intros F. destruct m as [| | | | |i|b|i b l|i b d|i b l]; cbn [fits] in F; cbn [go_msg encode_msg mk_plain mk_have mk_bitfield mk_request mk_piece mk_cancel m_type m_bitfield m_index m_begin m_length m_piece Z.eqb KEEPALIVE CHOKE UNCHOKE INTERESTED NOT_INTERESTED HAVE BITFIELD REQUEST PIECE CANCEL Pos.eqb orb].
  - apply (P (put_u32 0) [] 0); [apply be32_put; unfold u32; lia|reflexivity|constructor].
  - apply (P _ _ 1); [apply be32_put; unfold u32; lia|reflexivity|constructor].
  - apply (P _ _ 1); [apply be32_put; unfold u32; lia|reflexivity|constructor].
  - apply (P _ _ 1); [apply be32_put; unfold u32; lia|reflexivity|constructor].
  - apply (P _ _ 1); [apply be32_put; unfold u32; lia|reflexivity|constructor].
  - apply (P _ _ 5); [apply be32_put; unfold u32; lia|reflexivity|]. apply (b_have i (put_u32 i)). apply be32_put. exact F.
  - apply (P _ _ (1 + zlen b)); [apply be32_put; unfold u32; pose proof (zlen_nonneg b); lia|rewrite zlen_app; reflexivity|]. apply b_bitfield.
  - destruct F as (Fi & Fb & Fl). apply (P _ _ 13); [apply be32_put; unfold u32; lia|reflexivity|]. apply (b_request i b l (put_u32 i) (put_u32 b) (put_u32 l)); apply be32_put; assumption.
  - destruct F as (Fi & Fb & Fl). apply (P _ _ (1 + 8 + zlen d)).
    + apply be32_put. unfold u32. pose proof (zlen_nonneg d). lia.
    + rewrite !zlen_app. unfold zlen at 2 3 4. rewrite !put_u32_length. cbn [List.length]. lia.
    + apply (b_piece i b d (put_u32 i) (put_u32 b)); apply be32_put; assumption.
  - destruct F as (Fi & Fb & Fl). apply (P _ _ 13); [apply be32_put; unfold u32; lia|reflexivity|]. apply (b_cancel i b l (put_u32 i) (put_u32 b) (put_u32 l)); apply be32_put; assumption.
Qed.

Lemma u32_at_be z w rest : be32 z w -> u32_at 0 (w ++ rest) = Some z.
Proof. intros (a & b & c & d & -> & <-). cbn. unfold get_u32. f_equal. Qed.
Lemma be32_len z w : be32 z w -> List.length w = 4%nat.
Proof. intros (a & b & c & d & -> & _). reflexivity. Qed.
Lemma u32_at_skip k w rest : List.length w = 4%nat -> u32_at (4 + k) (w ++ rest) = u32_at k rest.
Proof. intros L. destruct w as [|? [|? [|? [|? [|]]]]]; try discriminate. reflexivity. Qed.

Lemma read_frame m w r rest : frame m w -> concat r = w ++ rest -> exists r', read_message r = Ok (go_msg m, r') /\ concat r' = rest.
Proof.
  intros (pre & bd & -> & B & Hb) E. rewrite <- app_assoc in E. unfold read_message.
  assert (NE : forall t p m', bd = t :: p -> parse_msg zero_message (b2z t) p = Ok m' -> exists r', decode_msg zero_message r = Ok (m', r') /\ concat r' = rest).
  { intros t p m' -> Hp. destruct (decode_frame_raw zero_message r pre t p rest E Hb) as (r' & C & ->). rewrite Hp. exists r'. auto. }
  destruct B; try (eapply NE; [reflexivity|]; reflexivity).
  - destruct Hb as (a & b & c & d & -> & Z). unfold decode_msg. cbn [app] in E.
    destruct (read_full_ok r 4) as (r1 & -> & C & _).
    { rewrite E. rewrite !zlen_cons. pose proof (zlen_nonneg rest). lia. }
    rewrite E in *. change (Z.to_nat 4) with 4%nat in *. cbn [firstn skipn] in *.
    assert (get_u32 a b c d = 0) as -> by (unfold get_u32; rewrite zlen_nil in Z; lia). cbn [Z.eqb]. exists r1. auto.
  - eapply NE; [reflexivity|]. unfold parse_msg. cbn [b2z]. pose proof (u32_at_be _ _ [] H) as Q. rewrite app_nil_r in Q. 
    change (b2z "004") with 4. cbn [Z.eqb CHOKE UNCHOKE INTERESTED NOT_INTERESTED BITFIELD HAVE Pos.eqb orb]. rewrite Q. reflexivity.
  - eapply NE; [reflexivity|]. unfold parse_msg. change (b2z "006") with 6. cbn [Z.eqb CHOKE UNCHOKE INTERESTED NOT_INTERESTED BITFIELD HAVE REQUEST CANCEL Pos.eqb orb].
    rewrite (u32_at_be _ _ _ H). change 4%nat with (4 + 0)%nat at 1. rewrite u32_at_skip by (eapply be32_len; eauto). rewrite (u32_at_be _ _ _ H0).
    change 8%nat with (4 + (4 + 0))%nat. rewrite !u32_at_skip by (eapply be32_len; eauto). pose proof (u32_at_be _ _ [] H1) as Q. rewrite app_nil_r in Q. rewrite Q. reflexivity.
  - eapply NE; [reflexivity|]. unfold parse_msg. change (b2z "007") with 7. cbn [Z.eqb CHOKE UNCHOKE INTERESTED NOT_INTERESTED BITFIELD HAVE REQUEST CANCEL PIECE Pos.eqb orb].
    rewrite (u32_at_be _ _ _ H). change 4%nat with (4 + 0)%nat. rewrite u32_at_skip by (eapply be32_len; eauto). rewrite (u32_at_be _ _ _ H0).
    destruct H as (?&?&?&?&->&?). destruct H0 as (?&?&?&?&->&?). reflexivity.
  - eapply NE; [reflexivity|]. unfold parse_msg. change (b2z "008") with 8. cbn [Z.eqb CHOKE UNCHOKE INTERESTED NOT_INTERESTED BITFIELD HAVE REQUEST CANCEL Pos.eqb orb].
    rewrite (u32_at_be _ _ _ H). change 4%nat with (4 + 0)%nat at 1. rewrite u32_at_skip by (eapply be32_len; eauto). rewrite (u32_at_be _ _ _ H0).
    change 8%nat with (4 + (4 + 0))%nat. rewrite !u32_at_skip by (eapply be32_len; eauto). pose proof (u32_at_be _ _ [] H1) as Q. rewrite app_nil_r in Q. rewrite Q. reflexivity.
Qed.

Lemma message_round_trip m r rest : fits m -> concat r = encode_msg (go_msg m) ++ rest ->
  exists r', read_message r = Ok (go_msg m, r') /\ concat r' = rest.
Proof. intros F E. eapply read_frame; [apply encode_frame; exact F|exact E]. Qed.

Lemma messages_round_trip ms : Forall fits ms -> forall r n, concat r = concat (map (fun m => encode_msg (go_msg m)) ms) -> (List.length ms < n)%nat ->
  read_messages n r = (map go_msg ms, Err EEof).
Proof.
  induction 1 as [|m ms F _ IH]; intros r n E L; (destruct n as [|n]; [cbn in L; lia|]); cbn [read_messages map concat] in *.
  - unfold read_message, decode_msg. rewrite read_full_short by (rewrite E; reflexivity). rewrite E. reflexivity.
  - destruct (message_round_trip m r _ F E) as (r' & -> & C). rewrite (IH r' n C ltac:(cbn in L; lia)). reflexivity.
Qed.

(** Panics of the reader, exactly. *)
Lemma u32_at_none k p : u32_at k p = None <-> zlen p < Z.of_nat k + 4.
Proof.
  unfold u32_at, zlen. pose proof (skipn_length k p) as L.
  destruct (skipn k p) as [|a [|b [|c [|d s]]]]; cbn in L; split; try discriminate; intros; try reflexivity; lia.
Qed.
Lemma parse_panic m t p : parse_msg m (b2z t) p = Panic <-> truncated t p.
Proof.
  unfold parse_msg, truncated, CHOKE, UNCHOKE, INTERESTED, NOT_INTERESTED, HAVE, BITFIELD, REQUEST, PIECE, CANCEL.
  pose proof (u32_at_none 0 p) as N0. pose proof (u32_at_none 4 p) as N4. pose proof (u32_at_none 8 p) as N8.
  generalize (b2z t). intros z.
  destruct ((z =? 0) || (z =? 1) || (z =? 2) || (z =? 3)) eqn:A; [split; [discriminate|lia]|].
  destruct (z =? 5) eqn:A5; [split; [discriminate|lia]|].
  destruct (z =? 4) eqn:A4; [destruct (u32_at 0 p); [split; [discriminate|intros; exfalso; assert (Some z0 = None) by (apply N0; lia); discriminate]|split; [intros _; left; split; [lia|apply N0; reflexivity]|reflexivity]]|].
  destruct ((z =? 6) || (z =? 8)) eqn:A6.
  { destruct (u32_at 8 p) as [z8|].
    - assert (Some z8 <> None) as Q by discriminate. rewrite N8 in Q.
      destruct (u32_at 4 p); [|assert (zlen p < 8) by (apply N4; reflexivity); lia].
      destruct (u32_at 0 p); [|assert (zlen p < 4) by (apply N0; reflexivity); lia]. split; [discriminate|lia].
    - assert (zlen p < 12) by (apply N8; reflexivity). split; [intros _; right; left; lia|]. intros _. destruct (u32_at 0 p), (u32_at 4 p); reflexivity. }
  destruct (z =? 7) eqn:A7; [|split; [discriminate|lia]].
  destruct (u32_at 4 p) as [z4|].
  - assert (Some z4 <> None) as Q by discriminate. rewrite N4 in Q.
    destruct (u32_at 0 p); [|assert (zlen p < 4) by (apply N0; reflexivity); lia]. split; [discriminate|lia].
  - assert (zlen p < 8) by (apply N4; reflexivity). split; [intros _; right; right; lia|]. intros _. destruct (u32_at 0 p); reflexivity.
Qed.

Theorem read_panic_iff r : read_message r = Panic <->
  exists pre t p rest, concat r = pre ++ (t :: p) ++ rest /\ be32 (zlen (t :: p)) pre /\ truncated t p.
Proof.
  split.
  - unfold read_message, decode_msg. destruct (read_full 4 r) as [[h r1]| |] eqn:R; [|discriminate|destruct (read_full_no_panic _ _ R)].
    apply read_full_inv in R as [E L]; [|lia]. destruct h as [|a [|b [|c [|d [|]]]]]; try (exfalso; revert L; unfold zlen; cbn; lia).
    pose proof (get_u32_range a b c d) as G. destruct (get_u32 a b c d =? 0) eqn:Z0; [discriminate|].
    destruct (read_full (get_u32 a b c d) r1) as [[h r2]| |] eqn:R; [|discriminate|destruct (read_full_no_panic _ _ R)].
    apply read_full_inv in R as [E2 L2]; [|lia]. destruct h as [|t p]; [rewrite zlen_nil in L2; lia|].
    destruct (parse_msg zero_message (b2z t) p) eqn:P; try discriminate. intros _.
    exists [a; b; c; d], t, p, (concat r2). rewrite E, E2. split; [reflexivity|]. split; [|apply parse_panic in P; exact P].
    exists a, b, c, d. split; [reflexivity|]. rewrite L2. reflexivity.
  - intros (pre & t & p & rest & E & B & T). destruct (decode_frame_raw zero_message r pre t p rest E B) as (r' & _ & H).
    unfold read_message. rewrite H. apply parse_panic with (m := zero_message) in T. rewrite T. reflexivity.
Qed.

(** *** Handshake *)
Lemma skipn_plus {A} n : forall m (l : list A), skipn n (skipn m l) = skipn (m + n) l.
Proof. intros m. induction m as [|m IH]; intros l; [reflexivity|]. destruct l; [rewrite !skipn_nil; reflexivity|]. apply IH. Qed.

Lemma hs_encode_length h : hs_ok h -> zlen (hs_encode h) = 68.
Proof.
  intros [A B]. unfold hs_encode. rewrite zlen_cons, !zlen_app. change (zlen proto) with 19.
  unfold zlen. rewrite A, B, repeat_length. reflexivity.
Qed.
Lemma read_one_ok r b s : proper r -> concat r = b :: s -> exists r', read_one r = Ok (b, r') /\ concat r' = s /\ proper r'.
Proof.
  intros P E. destruct P as [|[|c [|d s']] r N P]; cbn in E; try congruence; injection E as -> <-; cbn [read_one]; eexists; (split; [reflexivity|]); auto.
  split; [reflexivity|]. constructor; [discriminate|assumption].
Qed.

Theorem hs_decode_iff r h rest : proper r ->
  (exists r', hs_decode r = Ok (h, r') /\ concat r' = rest) <->
  (hs_ok h /\ exists reserved, List.length reserved = 8%nat /\ concat r = "019"%byte :: proto ++ reserved ++ hs_info h ++ hs_peer h ++ rest).
Proof.
  intros P. split.
  - intros (r' & H & <-). unfold hs_decode in H. destruct (concat r) as [|b s] eqn:Er.
    { destruct P as [|x r N P]; [discriminate|]. cbn in Er. apply app_eq_nil in Er as [-> _]. congruence. }
    destruct (read_one_ok r b s P Er) as (r1 & R1 & C1 & P1). rewrite R1 in H.
    destruct (b2z b =? zlen proto) eqn:Eb; cbn [negb] in H; [|discriminate].
    destruct (read_full (hs_length - 1) r1) as [[d r2]| |] eqn:R; try discriminate.
    apply read_full_inv in R as [E L]; [|cbv; discriminate]. change (hs_length - 1) with 67 in L.
    destruct (bytes_eqb (firstn 19 d) proto) eqn:Ep; cbn [negb] in H; [|discriminate]. apply bytes_eqb_eq in Ep.
    cbv zeta in H. match type of H with Ok (?a, ?b) = _ => assert (a = h /\ b = r') as [<- <-] by (split; congruence) end. unfold hs_ok. cbn [hs_info hs_peer]. clear H.
    assert (Ld : List.length d = 67%nat) by (unfold zlen in L; lia).
    pose proof (skipn_length 27 d) as Ls. change (skipn (19 + 8) d) with (skipn 27 d).
    pose proof (skipn_length 20 (skipn 27 d)) as Ls2. split.
    + rewrite !firstn_length. change (19 + 8)%nat with 27%nat. lia.
    + exists (firstn 8 (skipn 19 d)). split; [rewrite firstn_length, skipn_length; lia|].
      assert (b = "019"%byte) as -> by (apply b2z_inj; change (b2z "019") with 19; change (zlen proto) with 19 in Eb; lia).
      f_equal. rewrite C1 in E. rewrite E. change (19 + 8)%nat with 27%nat.
      rewrite <- (firstn_skipn 19 d) at 1. rewrite Ep, <- app_assoc. f_equal.
      rewrite <- (firstn_skipn 8 (skipn 19 d)) at 1. rewrite <- app_assoc. f_equal.
      assert (skipn 8 (skipn 19 d) = skipn 27 d) as -> by (rewrite skipn_plus; reflexivity).
      rewrite <- (firstn_skipn 20 (skipn 27 d)) at 1. rewrite <- app_assoc. f_equal. f_equal.
      symmetry. apply firstn_all2. lia.
  - intros ([Hi Hp] & rv & Lr & E). destruct (read_one_ok r _ _ P E) as (r1 & R1 & C1 & P1). unfold hs_decode. rewrite R1.
    change (negb (b2z "019" =? zlen proto)) with false. cbn iota.
    assert (Lx : zlen (proto ++ rv ++ hs_info h ++ hs_peer h) = hs_length - 1).
    { rewrite !zlen_app. unfold zlen. rewrite Lr, Hi, Hp. reflexivity. }
    assert (C1' : concat r1 = (proto ++ rv ++ hs_info h ++ hs_peer h) ++ rest) by (rewrite C1, <- !app_assoc; reflexivity).
    destruct (read_full_ok r1 (hs_length - 1)) as (r2 & -> & C2 & _).
    { rewrite C1', zlen_app, Lx. pose proof (zlen_nonneg rest). split; [cbv; discriminate|lia]. }
    rewrite C1' in *. rewrite <- Lx in *. rewrite firstn_zlen_app. rewrite skipn_zlen_app in C2.
    assert (firstn 19 (proto ++ rv ++ hs_info h ++ hs_peer h) = proto) as -> by reflexivity.
    rewrite bytes_eqb_refl. cbn [negb]. exists r2. split; [|exact C2]. f_equal. f_equal.
    assert (skipn (19 + 8) (proto ++ rv ++ hs_info h ++ hs_peer h) = hs_info h ++ hs_peer h) as ->.
    { replace (19 + 8)%nat with (List.length proto + List.length rv)%nat by (rewrite Lr; reflexivity). rewrite <- app_length, app_assoc, skipn_app, skipn_all, Nat.sub_diag. reflexivity. }
    assert (A1 : firstn 20 (hs_info h ++ hs_peer h) = hs_info h) by (rewrite <- Hi, firstn_app, firstn_all, Nat.sub_diag, firstn_O, app_nil_r; reflexivity).
    assert (A2 : skipn 20 (hs_info h ++ hs_peer h) = hs_peer h) by (rewrite <- Hi, skipn_app, skipn_all, Nat.sub_diag, skipn_O; reflexivity).
    assert (A3 : firstn 20 (hs_peer h) = hs_peer h) by (apply firstn_all2; lia).
    rewrite A1, A2, A3. destruct h; reflexivity.
Qed.

Theorem hs_round_trip h r rest : hs_ok h -> proper r -> concat r = hs_encode h ++ rest ->
  exists r', hs_decode r = Ok (h, r') /\ concat r' = rest.
Proof.
  intros O P E. apply hs_decode_iff; [exact P|]. split; [exact O|]. exists (repeat x00 8). split; [reflexivity|]. rewrite E. unfold hs_encode.
  cbn [app]. rewrite <- !app_assoc. reflexivity.
Qed.

Theorem hs_seg r r' : proper r -> proper r' -> concat r = concat r' -> same_out (hs_decode r) (hs_decode r').
Proof.
  intros P P' E. unfold hs_decode. destruct (concat r) as [|b s] eqn:Er.
  - destruct P as [|x r N P]; [|cbn in Er; apply app_eq_nil in Er as [-> _]; congruence].
    destruct P' as [|x r' N P']; [|cbn in E; symmetry in E; apply app_eq_nil in E as [-> _]; congruence]. reflexivity.
  - destruct (read_one_ok r b s P Er) as (r1 & -> & C1 & _). destruct (read_one_ok r' b s P' (eq_sym E)) as (r2 & -> & C2 & _).
    destruct (negb (b2z b =? zlen proto)); [reflexivity|].
    pose proof (read_full_seg (hs_length - 1) r1 r2 ltac:(cbv; discriminate) ltac:(congruence)) as S.
    destruct (read_full _ r1) as [[h q]| |], (read_full _ r2) as [[h' q']| |]; cbn in S; try contradiction; [|exact S|exact I].
    destruct S as [-> C]. destruct (negb (bytes_eqb (firstn 19 h') proto)); [reflexivity|]. cbn. auto.
Qed.
