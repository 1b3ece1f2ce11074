(** What the invariant says about every execution. *)
From Verif Require Import GoBase GoBaseProofs BencDecode Bitfield BitfieldSpec BitfieldProofs Metainfo MetainfoSpec MetainfoProofs
  Fs FsProofs Storage StorageSys StorageSpec StorageSysSpec StorageMemSpec StorageFsProofs StorageIoProofs StorageCoalesceProofs StorageProofs StorageGetProofs StorageLoadProofs StorageSysProofs Requests.

Lemma filter_length_le {A} (g : A -> bool) l : (List.length (filter g l) <= List.length l)%nat.
Proof. induction l as [|x l IH]; cbn; [lia|]. destruct (g x); cbn; lia. Qed.

Lemma nth_error_eq {A} (l l' : list A) : (forall j, nth_error l j = nth_error l' j) -> l = l'.
Proof.
  revert l'. induction l as [|x l IH]; intros [|y l'] H; [reflexivity|discriminate (H 0%nat)|discriminate (H 0%nat)|].
  injection (H 0%nat) as ->. f_equal. apply IH. intros j. exact (H (S j)).
Qed.

(** *** The tiling of a piece (C41) *)
Definition tiling (s : Z) : list (Z * Z) := map (fun j => (BL * Z.of_nat j, block_size s (Z.of_nat j))) (seq 0 (Z.to_nat (num_blocks s))).
Lemma request_loop_spec s fuel j : 1 <= s <= 2 ^ 63 - BL -> 0 <= j <= num_blocks s -> (Z.to_nat (num_blocks s - j) < fuel)%nat ->
  request_loop fuel (BL * j) s = Some (map (fun j => (BL * Z.of_nat j, block_size s (Z.of_nat j))) (seq (Z.to_nat j) (Z.to_nat (num_blocks s - j)))).
Proof.
  intros Hs. revert j. induction fuel as [|fuel IH]; intros j Hj Hf; [lia|]. cbn [request_loop]. destruct (num_blocks_spec s) as [N1 N2]; [lia|].
  assert (D : j = num_blocks s \/ j < num_blocks s) by lia. destruct D as [->|D].
  - replace (BL * num_blocks s <? s) with false by lia. rewrite Z.sub_diag. reflexivity.
  - replace (BL * j <? s) with true by (unfold BL in *; nia).
    assert (E : Z.to_nat (num_blocks s - j) = S (Z.to_nat (num_blocks s - (j + 1)))) by lia. rewrite E. cbn [seq map].
    rewrite !wrap_s_small by (change (2 ^ (64 - 1)) with (2 ^ 63); unfold BL in *; nia). replace (BL * j + BL) with (BL * (j + 1)) by lia. rewrite IH by lia. cbn [option_map].
    replace (Z.to_nat (j + 1)) with (S (Z.to_nat j)) by lia. rewrite Z2Nat.id by lia. unfold block_size at 1. replace (s - BL * j) with (s - j * BL) by lia. reflexivity.
Qed.
Lemma requests_tiling s : 1 <= s <= 2 ^ 63 - BL -> piece_requests s = Some (tiling s).
Proof.
  intros Hs. unfold piece_requests, tiling. change 0 with (BL * 0) at 1. destruct (num_blocks_spec s) as [N1 N2]; [lia|].
  rewrite request_loop_spec; [now rewrite Z.sub_0_r|exact Hs|lia|].
  pose proof (Z.div_mod s BL ltac:(unfold BL; lia)). pose proof (Z.mod_pos_bound s BL ltac:(unfold BL; lia)). unfold BL in *. nia.
Qed.
Lemma tiling_tile s x y : 1 <= s -> In (x, y) (tiling s) <-> tile s x y.
Proof.
  intros Hs. destruct (num_blocks_spec s Hs) as [N1 N2]. unfold tiling, tile. rewrite in_map_iff. split.
  - intros (j & E & Hj). apply in_seq in Hj. apply pair_equal_spec in E as [<- <-]. assert (Z.of_nat j <= num_blocks s - 1) by lia. unfold block_size, BL in *. split; [lia|]. split; [exists (Z.of_nat j); lia|lia].
  - intros (H1 & (q & ->) & ->). exists (Z.to_nat q). assert (0 <= q <= num_blocks s - 1) by (unfold BL in *; lia). rewrite Z2Nat.id by lia. split; [unfold block_size, BL; f_equal; lia|]. apply in_seq. lia.
Qed.
Lemma tiling_concat b : 1 <= zlen b -> concat (map (fun xy => slice b (fst xy) (snd xy)) (tiling (zlen b))) = b.
Proof.
  intros Hs. destruct (num_blocks_spec (zlen b) Hs) as [N1 N2]. unfold tiling. rewrite map_map. cbn [fst snd].
  assert (G : forall m j, (m + j = Z.to_nat (num_blocks (zlen b)))%nat ->
    concat (map (fun x => slice b (BL * Z.of_nat x) (block_size (zlen b) (Z.of_nat x))) (seq j m)) = skipn (Z.to_nat (BL * Z.of_nat j)) b).
  { induction m as [|m IH]; intros j Hj.
    - cbn [seq map concat]. rewrite skipn_all2; [reflexivity|]. unfold zlen, BL in *. nia.
    - cbn [seq map concat]. rewrite IH by lia. unfold slice. rewrite <- (firstn_skipn (Z.to_nat (block_size (zlen b) (Z.of_nat j))) (skipn (Z.to_nat (BL * Z.of_nat j)) b)) at 2.
      f_equal. rewrite skipn_add. assert (C : block_size (zlen b) (Z.of_nat j) = BL \/ m = 0%nat).
      { unfold block_size. unfold BL in *. nia. }
      destruct C as [->| ->]; [f_equal; unfold BL; lia|].
      rewrite !skipn_all2; [reflexivity| |]; unfold block_size, zlen, BL in *; nia. }
  rewrite (G _ 0%nat) by lia. reflexivity.
Qed.

Section Claims.
Variable sha1 : bytes -> bytes.
Variable cfg : config.
Variable env : nat -> choice.
Hypothesis ok : config_ok cfg.
Set Default Proof Using "All".
Notation i := (c_info cfg).
Notation n := (num_pieces i).
Notation PL := (i_piece_length i).
Notation exec := (exec sha1 cfg env).
Notation execs := (execs sha1 cfg env).
Notation inv := (inv sha1 cfg).

Definition reached (f : fs) (p : proc) : Prop := exists tick ls es, execs (Dead f tick) ls = Some (p, es).
Lemma execs_inv f tick ls p es : untouched cfg f -> execs (Dead f tick) ls = Some (p, es) -> inv f p.
Proof. intros U E. eapply execs_ok in E; [apply E|exact ok|]. now apply inv_start. Qed.

Lemma content_whole f c : fs_ok sha1 cfg f -> content cfg f = Some c -> whole sha1 cfg c.
Proof. intros ((D & _) & _) C. destruct D as [D|(c' & C' & W)]; [rewrite (content_target_none cfg) in C by exact D; discriminate|]. congruence. Qed.

(** C36, C37 *)
Lemma stored_verified f tick ls p es k b : untouched cfg f -> execs (Dead f tick) ls = Some (p, es) ->
  0 <= k < n -> on_disk cfg (disk_of p) k = Some b -> verified sha1 cfg k b.
Proof. intros U E Hk H. apply execs_inv in E; [|exact U]. exact (fs_ok_verified sha1 cfg env ok _ _ _ (proj1 (proj1 E)) Hk H). Qed.
Lemma get_said f tick ls p es k b len d : untouched cfg f -> execs (Dead f tick) ls = Some (p, es) -> In (Ret (CGet k b len) (RBlock d)) es ->
  event_said cfg (disk_of p) (Ret (CGet k b len) (RBlock d)).
Proof. intros U E H. eapply execs_ok in E; [|exact ok|now apply inv_start]. destruct E as (_ & _ & E). rewrite Forall_forall in E. now apply E. Qed.
Lemma served_verified f tick ls p es k b len d : untouched cfg f -> execs (Dead f tick) ls = Some (p, es) -> In (Ret (CGet k b len) (RBlock d)) es ->
  zlen d = len /\
  (d = [] \/ (exists c s, whole sha1 cfg c /\ 0 <= s /\ s + len <= zlen c /\ d = slice c s len) \/
   (exists c, 0 <= k < n /\ verified sha1 cfg k c /\ 0 <= b /\ b + len <= zlen c /\ d = slice c b len)).
Proof.
  intros U E H. pose proof (get_said _ _ _ _ _ _ _ _ _ U E H) as (A & B & _). apply execs_inv in E; [|exact U]. destruct E as [[F _] _].
  split; [exact A|]. destruct B as [B|[(c & s & B & B')|(c & B1 & B2 & B3)]]; [now left| |].
  - right; left. exists c, s. split; [eapply content_whole; eauto|exact B'].
  - right; right. exists c. split; [exact B1|]. split; [|exact B3]. exact (fs_ok_verified sha1 cfg env ok _ _ _ F B1 B2).
Qed.
Lemma served_range f tick ls p es k b len d : untouched cfg f -> execs (Dead f tick) ls = Some (p, es) -> In (Ret (CGet k b len) (RBlock d)) es ->
  in_piece cfg k b len -> exists c, on_disk cfg (disk_of p) k = Some c /\ verified sha1 cfg k c /\ d = slice c b len.
Proof.
  intros U E H P. pose proof (get_said _ _ _ _ _ _ _ _ _ U E H) as (_ & _ & C). apply execs_inv in E; [|exact U]. destruct E as [[F _] _].
  destruct (C P) as (c & C1 & C2). exists c. split; [exact C1|]. split; [|exact C2]. exact (fs_ok_verified sha1 cfg env ok _ _ _ F (proj1 P) C1).
Qed.
Lemma step_goes base w ts j t p es : inv base (Running w ts) -> nth_error ts j = Some t -> exec (Running w ts) (LStep j) = Some (p, es) ->
  (exists w' q, p = Running w' (list_set j {| th_call := th_call t; th_pc := q |} ts) /\ es = events_of (th_call t) q /\
     Forall (event_ok cfg p) es /\ ext cfg (w_fs w) (w_fs w')) \/
  (exists f tick, p = Dead f tick /\ es = [] /\ panic_reason cfg w (th_call t)).
Proof.
  intros I Hj E. cbn in E. rewrite Hj in E. destruct (next sha1 cfg env (forget_past w) ts t) as [o|] eqn:N; [|discriminate].
  apply (next_ok sha1 cfg env ok base w ts j t) in N; [|exact I|exact Hj]. destruct N as (_ & _ & N3 & N4). destruct o as [w' q|w']; injection E as <- <-.
  - left. exists w', q. cbn zeta in N4. destruct N4 as (N4 & N5 & _). auto.
  - right. eauto.
Qed.
Lemma get_available f tick ls w ts es j t k b len p' es' : untouched cfg f -> execs (Dead f tick) ls = Some (Running w ts, es) ->
  nth_error ts j = Some t -> th_call t = CGet k b len -> in_piece cfg k b len -> make_ok len = true -> on_disk cfg (w_fs w) k <> None ->
  exec (Running w ts) (LStep j) = Some (p', es') ->
  (exists w' ts', p' = Running w' ts') /\ forall e, In (Ret (CGet k b len) (RErr e)) es' -> e = EIO.
Proof.
  intros U E Hj Ec P M D X. apply execs_inv in E; [|exact U]. destruct (step_goes _ _ _ _ _ _ _ E Hj X) as [(w' & q & -> & -> & V & XT)|(f' & t' & -> & -> & R)].
  - split; [eauto|]. intros e He. rewrite Forall_forall in V. specialize (V _ He). cbn in V.
    destruct V as [V|[(_ & _ & V)|V]]; [exact V| |contradiction]. destruct (on_disk cfg (w_fs w) k) as [c|] eqn:Ed; [|congruence].
    rewrite (proj1 XT k c (proj1 P) Ed) in V. discriminate.
  - rewrite Ec in R. cbn in R. destruct P as [P _]. destruct R as [R|R]; [contradiction|congruence].
Qed.

(** C38 *)
Lemma content_always_whole f tick ls p es c : untouched cfg f -> execs (Dead f tick) ls = Some (p, es) -> content cfg (disk_of p) = Some c -> whole sha1 cfg c.
Proof. intros U E. apply execs_inv in E; [|exact U]. apply content_whole. apply E. Qed.
Lemma wait_all_content f tick ls p es r : untouched cfg f -> execs (Dead f tick) ls = Some (p, es) -> In (Ret CWaitAll r) es ->
  r = RNil /\ exists c, content cfg (disk_of p) = Some c /\ whole sha1 cfg c.
Proof.
  intros U E H. pose proof E as E'. eapply execs_ok in E; [|exact ok|now apply inv_start]. destruct E as (_ & _ & E). rewrite Forall_forall in E.
  specialize (E _ H). destruct r as [|x|x]; cbn in E; destruct E as [E1 [c E2]]; try discriminate. split; [reflexivity|]. exists c. split; [exact E2|].
  eapply content_always_whole; eauto.
Qed.
Lemma put_content f tick ls p es l p' es' k b d : untouched cfg f -> execs (Dead f tick) ls = Some (p, es) -> exec p l = Some (p', es') ->
  In (Ret (CPut k b d) RNil) es' -> (forall j, 0 <= j < n -> on_disk cfg (disk_of p') j <> None) ->
  exists c, content cfg (disk_of p') = Some c /\ whole sha1 cfg c.
Proof.
  intros U E X H A. apply execs_inv in E; [|exact U]. destruct (exec_ok sha1 cfg env ok _ _ _ _ _ E X) as (I & _ & V & _).
  rewrite Forall_forall in V. specialize (V _ H). cbn in V. destruct V as (_ & _ & V). specialize (V A).
  destruct (content cfg (disk_of p')) as [c|] eqn:Ec; [|congruence]. exists c. split; [reflexivity|]. eapply content_whole; [apply I|exact Ec].
Qed.
Lemma file_start_S x files j : file_start (x :: files) (S j) = f_length x + file_start files j.
Proof. reflexivity. Qed.
Lemma files_content_slices f files c : Forall (fun x => 0 <= f_length x) files -> files_content cfg f files = Some c -> forall j x, nth_error files j = Some x ->
  lookup (target cfg ++ f_path x) f = Some (NFile (slice c (file_start files j) (f_length x))) /\
  0 <= file_start files j /\ file_start files j + f_length x <= zlen c.
Proof.
  revert c. induction files as [|y files IH]; intros c Fp E j x Hj; [destruct j; discriminate|]. apply Forall_cons_iff in Fp as [Fy Fp]. cbn in E.
  destruct (lookup (target cfg ++ f_path y) f) as [[|b]|] eqn:L; try discriminate. destruct (files_content cfg f files) as [r|] eqn:R; [|discriminate].
  destruct (zlen b =? f_length y) eqn:Z; [|discriminate]. injection E as <-. apply Z.eqb_eq in Z. destruct j as [|j].
  - injection Hj as <-. rewrite L. change (file_start (y :: files) 0) with 0. rewrite zlen_app. unfold slice. cbn [Z.to_nat skipn]. rewrite <- Z. rewrite firstn_zlen_app.
    split; [reflexivity|]. pose proof (zlen_nonneg b). pose proof (zlen_nonneg r). lia.
  - destruct (IH r Fp eq_refl j x Hj) as (A & B & C). rewrite A, file_start_S, zlen_app. split; [|lia]. do 2 f_equal. unfold slice.
    rewrite skipn_app. rewrite (skipn_all2 b) by (unfold zlen in Z; lia). cbn [app]. do 2 f_equal. unfold zlen in Z; lia.
Qed.
Lemma content_layout f c : content cfg f = Some c ->
  match i_files i with
  | [] => lookup (target cfg) f = Some (NFile c)
  | files => forall j x, nth_error files j = Some x -> lookup (target cfg ++ f_path x) f = Some (NFile (slice c (file_start files j) (f_length x)))
  end.
Proof.
  intros E. unfold content in E. destruct (i_files i) as [|y files] eqn:Ef.
  - destruct (lookup (target cfg) f) as [[|b]|]; congruence.
  - destruct (lookup (target cfg) f) as [[|b]|]; try discriminate. cbv zeta. intros j x Hj.
    assert (Fp : Forall (fun x => 0 <= f_length x) (y :: files)) by (rewrite <- Ef; apply (wf cfg ok)).
    exact (proj1 (files_content_slices _ _ _ Fp E j x Hj)).
Qed.

(** C39 *)
Lemma disk_always_ok f tick ls p es : untouched cfg f -> execs (Dead f tick) ls = Some (p, es) -> disk_ok sha1 cfg (disk_of p).
Proof. intros U E. apply execs_inv in E; [|exact U]. apply E. Qed.
Lemma load_recovers f tick ls d t es : untouched cfg f -> execs (Dead f tick) ls = Some (Dead d t, es) ->
  match load cfg env (booted cfg d t) with
  | (w, Ok _) => (forall k, member (advertised w) k <-> 0 <= k < n /\ on_disk cfg d k <> None) /\
                 ((forall k, 0 <= k < n -> on_disk cfg d k <> None) -> exists c, content cfg (w_fs w) = Some c /\ whole sha1 cfg c)
  | (w, Err e) => e = EIO
  | (w, Panic) => False
  end.
Proof.
  intros U E. apply execs_inv in E; [|exact U]. destruct (load cfg env (booted cfg d t)) as [w r] eqn:L.
  apply (load_spec sha1 cfg env ok) in L; [|apply E]. destruct L as (L1 & _ & L3). destruct r as [u|e|]; [|exact L3|exact L3].
  destruct L3 as ((MI & _) & _ & L4 & L5). split.
  - intros k. pose proof MI as (Hl & _ & _ & _ & _ & Hb & _). unfold advertised. rewrite Hb. split.
    + intros (Hk & p & Hp & Cp). assert (D : 0 <= k < n). { pose proof (piece_bound sha1 cfg env ok _ _ _ _ MI Hp). lia. } split; [exact D|]. apply L4; eauto.
    + intros (Hk & D). apply L4 in D as (p & Hp & Cp); [|exact Hk]. split; [lia|eauto].
  - intros A. destruct (L5 A) as [B _]. destruct (content cfg (w_fs w)) as [c|] eqn:Ec; [|congruence]. exists c. split; [reflexivity|].
    eapply content_whole; [apply L1|exact Ec].
Qed.
Lemma durable f tick ls p es ls' p' es' : untouched cfg f -> execs (Dead f tick) ls = Some (p, es) -> execs p ls' = Some (p', es') ->
  (forall k b, 0 <= k < n -> on_disk cfg (disk_of p) k = Some b -> on_disk cfg (disk_of p') k = Some b) /\
  (forall c, content cfg (disk_of p) = Some c -> content cfg (disk_of p') = Some c).
Proof.
  intros U E X. apply execs_inv in E; [|exact U]. eapply execs_ok in X; [|exact ok|exact E]. destruct X as (_ & (X1 & X2 & _) & _). auto.
Qed.

(** C46 *)
Lemma bitfield_exact base w ts : inv base (Running w ts) -> forall k, member (advertised w) k <-> 0 <= k < n /\ on_disk cfg (w_fs w) k <> None.
Proof.
  intros (_ & ((MI & MA & _) & _)) k. pose proof MI as (Hl & _ & _ & _ & _ & Hb & _). unfold advertised. rewrite Hb. split.
  - intros (Hk & p & Hp & Cp). pose proof (piece_bound sha1 cfg env ok _ _ _ _ MI Hp). assert (D : 0 <= k < n) by lia. split; [exact D|].
    apply (MA _ _ Hp) in Cp. rewrite Z2Nat.id in Cp by lia. exact Cp.
  - intros (Hk & D). destruct (piece_exists sha1 cfg env ok _ _ k MI Hk) as [p Hp]. split; [lia|]. exists p. split; [exact Hp|].
    apply (MA _ _ Hp). rewrite Z2Nat.id by lia. exact D.
Qed.
Lemma bitfield_is_disk f tick ls w ts es : untouched cfg f -> execs (Dead f tick) ls = Some (Running w ts, es) ->
  forall k, member (advertised w) k <-> 0 <= k < n /\ exists b, on_disk cfg (w_fs w) k = Some b /\ verified sha1 cfg k b.
Proof.
  intros U E k. pose proof (execs_inv _ _ _ _ _ U E) as I. rewrite (bitfield_exact _ _ _ I k). split.
  - intros [Hk D]. split; [exact Hk|]. destruct (on_disk cfg (w_fs w) k) as [b|] eqn:Ed; [|congruence]. exists b. split; [reflexivity|].
    exact (stored_verified _ _ _ _ _ _ _ U E Hk Ed).
  - intros (Hk & b & Ed & _). split; [exact Hk|congruence].
Qed.
Lemma bitfield_grows f tick ls w ts es ls' w' ts' es' : untouched cfg f -> execs (Dead f tick) ls = Some (Running w ts, es) ->
  execs (Running w ts) ls' = Some (Running w' ts', es') -> forall k, member (advertised w) k -> member (advertised w') k.
Proof.
  intros U E X k H. pose proof (execs_inv _ _ _ _ _ U E) as I. destruct (execs_ok sha1 cfg env ok _ _ _ _ _ I X) as (I' & (X1 & _) & _).
  rewrite (bitfield_exact _ _ _ I) in H. rewrite (bitfield_exact _ _ _ I'). destruct H as [Hk D]. split; [exact Hk|].
  cbn [disk_of] in X1. destruct (on_disk cfg (w_fs w) k) as [b|] eqn:Ed; [|congruence]. rewrite (X1 k b Hk Ed). discriminate.
Qed.

(** The futures of pieces *)
Lemma piece_wait_nil f tick ls p es k : untouched cfg f -> execs (Dead f tick) ls = Some (p, es) -> In (Ret (CWait k) RNil) es ->
  0 <= k < n /\ exists b, on_disk cfg (disk_of p) k = Some b /\ verified sha1 cfg k b.
Proof.
  intros U E H. pose proof E as E'. eapply execs_ok in E; [|exact ok|now apply inv_start]. destruct E as (_ & _ & E). rewrite Forall_forall in E.
  destruct (E _ H) as [Hk [b Hb]]. split; [exact Hk|]. exists b. split; [exact Hb|]. exact (stored_verified _ _ _ _ _ _ _ U E' Hk Hb).
Qed.

(** C42 *)
Lemma put_results f tick ls p es l p' es' k b d r : untouched cfg f -> execs (Dead f tick) ls = Some (p, es) -> exec p l = Some (p', es') ->
  In (Ret (CPut k b d) r) es' ->
  match r with
  | RNil => 0 <= k < n /\ tile (piece_size i k) b (zlen d)
  | RErr (EChecksum x got want) => x = k /\ got <> want /\ want = piece_hash i k
  | RErr e => In e [EIO; EBlockExists; EMisaligned; EBlockLength]
  | RBlock _ => False
  end.
Proof.
  intros U E X H. apply execs_inv in E; [|exact U]. destruct (exec_ok sha1 cfg env ok _ _ _ _ _ E X) as (I & _ & V & _).
  rewrite Forall_forall in V. specialize (V _ H). cbn in V. destruct r as [| |[]]; try exact V. tauto.
Qed.
Lemma panic_only f tick ls w ts es j t d tick' es' : untouched cfg f -> execs (Dead f tick) ls = Some (Running w ts, es) ->
  nth_error ts j = Some t -> exec (Running w ts) (LStep j) = Some (Dead d tick', es') -> panic_reason cfg w (th_call t).
Proof.
  intros U E Hj X. apply execs_inv in E; [|exact U]. destruct (step_goes _ _ _ _ _ _ _ E Hj X) as [(w' & q & ? & _)|(f' & t' & _ & _ & R)]; [discriminate|exact R].
Qed.

(** C43 *)
Lemma downloaded_after_load f tick ls d t es w ts es' : untouched cfg f -> execs (Dead f tick) ls = Some (Dead d t, es) -> (i_files i = [] \/ content cfg d = None) ->
  exec (Dead d t) LStart = Some (Running w ts, es') -> t_downloaded (w_mem w) = stored_bytes cfg d.
Proof.
  intros U E S X. apply execs_inv in E; [|exact U]. cbn [StorageSys.exec] in X. destruct (load cfg env (booted cfg d t)) as [w0 r] eqn:L.
  apply (load_spec sha1 cfg env ok) in L; [|apply E]. destruct r as [u|e|]; try discriminate. injection X as <- <- <-. destruct L as (_ & _ & _ & L & _). apply L.
  intros T. destruct E as [[((D & _) & _) _] _]. cbn [disk_of] in D. destruct D as [D|(c & D & _)]; [congruence|]. destruct S as [S|S]; [|congruence]. unfold content in D. rewrite S, T in D. discriminate.
Qed.

(** C45 *)
Lemma confined f tick ls p es q : untouched cfg f -> execs (Dead f tick) ls = Some (p, es) -> outside cfg q -> lookup q (disk_of p) = lookup q f.
Proof. intros U E O. apply execs_inv in E; [|exact U]. destruct E as [[_ (_ & _ & X)] _]. now apply X. Qed.

(** C44 *)
(** A GetBlock holds Torrent.mu and waits for the lock of piece k, whose holder, a PutBlock,
    waits for Torrent.mu. *)
Definition can_step (w : world) (ts : list thread) (a : nat) : Prop := exec (Running w ts) (LStep a) <> None.
Lemma can_step_next w ts a t : nth_error ts a = Some t -> next sha1 cfg env (forget_past w) ts t <> None -> can_step w ts a.
Proof. intros H N. unfold can_step. cbn [StorageSys.exec]. rewrite H. destruct (next sha1 cfg env (forget_past w) ts t) as [[w' q|w']|]; [discriminate|discriminate|congruence]. Qed.
Lemma rlocked_iff ts : torrent_rlocked ts = true <-> exists a t, nth_error ts a = Some t /\ th_pc t = GetPiece.
Proof.
  unfold torrent_rlocked. rewrite existsb_nth. split; intros (a & t & H & G); exists a, t; (split; [exact H|]); destruct (th_pc t); try discriminate; reflexivity.
Qed.
Lemma progress base w ts a t : inv base (Running w ts) -> nth_error ts a = Some t -> unfinished w t -> (forall k, ~ held_up k ts) -> exists b, can_step w ts b.
Proof.
  intros I Ha Un NH. assert (TO : forall j t, nth_error ts j = Some t -> thread_ok cfg (w_mem w) t) by apply I.
  assert (GP : torrent_rlocked ts = true -> exists b, can_step w ts b).
  { intros R. apply rlocked_iff in R as (b & u & Hb & Pu). pose proof (TO _ _ Hb) as Tu. unfold thread_ok in Tu. rewrite Pu in Tu.
    destruct (th_call u) as [|k b0 l| | |] eqn:Cu; try contradiction.
    exists b. apply (can_step_next _ _ _ u Hb). unfold next. rewrite Pu, Cu.
    destruct (piece_locked k ts) eqn:L; [|discriminate]. exfalso. apply (NH k). split.
    - exists b, u. rewrite Cu. auto.
    - apply piece_locked_iff in L as (c & v & Hc & Pv & Iv). eauto. }
  assert (PM : forall k, piece_locked k ts = true -> exists b, can_step w ts b).
  { intros k L. apply piece_locked_iff in L as (b & u & Hb & Pu & Iu). pose proof (TO _ _ Hb) as Tu. unfold thread_ok in Tu. rewrite Pu in Tu.
    destruct (th_call u) as [k' b0 d| | | |] eqn:Cu; try contradiction.
    destruct (torrent_rlocked ts) eqn:R; [now apply GP|]. exists b. apply (can_step_next _ _ _ u Hb). unfold next. rewrite Pu, Cu, R. discriminate. }
  assert (NX : next sha1 cfg env (forget_past w) ts t <> None -> exists b, can_step w ts b) by (intros N; exists a; eapply can_step_next; eauto).
  pose proof (TO _ _ Ha) as Tt. unfold thread_ok in Tt. unfold unfinished in Un. unfold next in NX.
  destruct (th_pc t) as [| | | |id|r]; [| | | | |contradiction].
  - destruct (th_call t) as [k b d|k b l|k|k|].
    + apply NX. discriminate.
    + apply NX. destruct (t_coalesced _); discriminate.
    + destruct (piece_locked k ts) eqn:L; [now apply (PM k)|]. apply NX. discriminate.
    + destruct (piece_locked k ts) eqn:L; [now apply (PM k)|]. apply NX. discriminate.
    + destruct (torrent_rlocked ts) eqn:L; [now apply GP|]. apply NX. discriminate.
  - destruct (th_call t) as [k b d|k b l|k|k|]; try contradiction. destruct (piece_locked k ts) eqn:L; [now apply (PM k)|]. apply NX. discriminate.
  - destruct (th_call t) as [k b d|k b l|k|k|]; try contradiction. destruct (torrent_rlocked ts) eqn:L; [now apply GP|]. apply NX. discriminate.
  - destruct (th_call t) as [k b d|k b l|k|k|]; try contradiction. destruct (piece_locked k ts) eqn:L; [now apply (PM k)|]. apply NX. discriminate.
  - apply NX. cbn [forget_past w_mem]. destruct Un as [v Hv]. rewrite Hv. destruct v; destruct (th_call t); discriminate.
Qed.
Lemma no_deadlock f tick ls w ts es a t : untouched cfg f -> execs (Dead f tick) ls = Some (Running w ts, es) -> nth_error ts a = Some t -> unfinished w t ->
  (forall k, ~ held_up k ts) -> exists b, can_step w ts b.
Proof. intros U E. apply execs_inv in E; [|exact U]. now apply (progress f). Qed.
(** Once held up, for ever. *)
Lemma held_step w ts a b t u k x y x' d l p es :
  nth_error ts a = Some t -> th_pc t = GetPiece -> th_call t = CGet k x y ->
  nth_error ts b = Some u -> th_pc u = PutMid -> th_call u = CPut k x' d -> same_run l -> exec (Running w ts) l = Some (p, es) ->
  (exists w' ts', p = Running w' ts' /\ nth_error ts' a = Some t /\ nth_error ts' b = Some u) \/ (exists f tick, p = Dead f tick).
Proof.
  intros Ha Pa Ca Hb Pb Cb R E. destruct l as [c|j| | | |]; try contradiction.
  - injection E as <- <-. left. do 2 eexists. split; [reflexivity|]. split; (rewrite nth_error_app1; [assumption|apply nth_error_Some; congruence]).
  - cbn [StorageSys.exec] in E. destruct (nth_error ts j) as [v|] eqn:Hj; [|discriminate]. destruct (next sha1 cfg env (forget_past w) ts v) as [[w' q|w']|] eqn:N; [| |discriminate].
    + injection E as <- <-. left. do 2 eexists. split; [reflexivity|].
      assert (B1 : torrent_rlocked ts = true) by (apply rlocked_iff; eauto).
      assert (B2 : piece_locked k ts = true) by (apply piece_locked_iff; exists b, u; rewrite Cb; auto).
      split; (rewrite list_set_nth_neq; [assumption|]); intros ->.
      * assert (v = t) by congruence. subst v. unfold next in N. rewrite Pa, Ca, B2 in N. discriminate.
      * assert (v = u) by congruence. subst v. unfold next in N. rewrite Pb, Cb, B1 in N. discriminate.
    + injection E as <- <-. right. eauto.
Qed.
Lemma held_forever w ts a b t u k x y x' d ls p es :
  nth_error ts a = Some t -> th_pc t = GetPiece -> th_call t = CGet k x y ->
  nth_error ts b = Some u -> th_pc u = PutMid -> th_call u = CPut k x' d -> Forall same_run ls -> execs (Running w ts) ls = Some (p, es) ->
  (exists w' ts', p = Running w' ts' /\ nth_error ts' a = Some t /\ nth_error ts' b = Some u) \/ (exists f tick, p = Dead f tick).
Proof.
  revert w ts es. induction ls as [|l ls IH]; intros w ts es Ha Pa Ca Hb Pb Cb R E; cbn [StorageSys.execs] in E.
  - injection E as <- <-. left. eauto.
  - apply Forall_cons_iff in R as [R Rs]. destruct (exec (Running w ts) l) as [[p1 e1]|] eqn:E1; [|discriminate].
    destruct (execs p1 ls) as [[p2 e2]|] eqn:E2; [|discriminate]. injection E as <- <-.
    destruct (held_step _ _ _ _ _ _ _ _ _ _ _ _ _ _ Ha Pa Ca Hb Pb Cb R E1) as [(w' & ts' & -> & H1 & H2)|(f & tick & ->)].
    + exact (IH _ _ _ H1 Pa Ca H2 Pb Cb Rs E2).
    + destruct ls as [|l' ls]; cbn in E2; [injection E2 as <- <-; right; eauto|]. apply Forall_cons_iff in Rs as [R' _]. destruct l'; try contradiction; discriminate.
Qed.

(** C40: a piece that failed stays failed. *)
Definition failed (w : world) (k : Z) : Prop :=
  exists p e, nth_error (t_pieces (w_mem w)) (Z.to_nat k) = Some p /\ nth_error (t_futures (w_mem w)) (pc_err p) = Some (Some (Some e)).
Lemma failed_full base w ts k p e : inv base (Running w ts) -> nth_error (t_pieces (w_mem w)) k = Some p ->
  nth_error (t_futures (w_mem w)) (pc_err p) = Some (Some (Some e)) -> pc_coalesced p = false /\ full p /\ piece_locked (Z.of_nat k) ts = false.
Proof.
  intros (_ & (((_ & M & _) & _) & _)) Hp Hf. destruct (M _ _ Hp) as (_ & _ & _ & _ & _ & _ & F1 & F2 & F3).
  destruct (pc_coalesced p) eqn:C; [specialize (F1 eq_refl); congruence|]. split; [reflexivity|].
  destruct (full_dec sha1 cfg env ok p) as [F|F].
  - split; [exact F|]. destruct (piece_locked (Z.of_nat k) ts) eqn:L; [|reflexivity]. rewrite F2 in Hf; [discriminate|reflexivity|auto].
  - rewrite F2 in Hf; [discriminate|reflexivity|contradiction].
Qed.
Lemma full_blocks base w ts k p j : inv base (Running w ts) -> nth_error (t_pieces (w_mem w)) k = Some p -> pc_coalesced p = false -> full p ->
  nth_error (blocks_of p) j <> Some None.
Proof.
  intros (_ & ((MI & _) & _)) Hp C F. pose proof (piece_bound sha1 cfg env ok _ _ _ _ MI Hp) as B. pose proof MI as (_ & M & _).
  destruct (piece_blocks sha1 cfg env ok _ _ _ _ B (M _ _ Hp) C) as (_ & _ & _ & Q). apply Q in F. clear Q M. revert F. generalize (blocks_of p) as l. clear.
  intros l. unfold num_some, zlen. intros F H. assert (E : List.length (filter (fun x : option bytes => match x with Some _ => true | None => false end) l) = List.length l) by lia. clear F.
  revert l E H. induction j as [|j IH]; intros [|x l] E H; cbn in *; try discriminate.
  - injection H as ->. pose proof (filter_length_le (fun x : option bytes => match x with Some _ => true | None => false end) l). lia.
  - apply (IH l); [|exact H]. pose proof (filter_length_le (fun x : option bytes => match x with Some _ => true | None => false end) l). destruct x; cbn in E; lia.
Qed.
Lemma next_failed base w ts j t k o : inv base (Running w ts) -> failed w k -> 0 <= k -> nth_error ts j = Some t -> next sha1 cfg env (forget_past w) ts t = Some o ->
  match o with
  | Goes w' q => failed w' k /\ (forall x d, th_call t = CPut k x d -> q <> Done RNil) /\ (th_call t = CReset k -> forall r, q <> Done r)
  | Panics _ => True
  end.
Proof.
  intros I (p & e & Hp & Hf) Hk Hj N. destruct (failed_full _ _ _ _ _ _ I Hp Hf) as (Cp & Fp & Lk). rewrite Z2Nat.id in Lk by exact Hk.
  pose proof (full_blocks _ _ _ _ _ (Z.to_nat 0) I Hp Cp Fp) as _.
  pose proof I as (HJ & HM & O & T). pose proof (T _ _ Hj) as TO. cbn [disk_of] in HJ.
  assert (P0 : PI sha1 cfg (fun k => piece_locked k ts) base (forget_past w)) by (split; [exact HJ|]; split; [constructor|exact HM]).
  assert (SAME : forall w', w_mem w' = w_mem w -> failed w' k) by (intros w' E; exists p, e; rewrite E; auto).
  assert (GET : forall k b l w' r, get_block cfg env k b l (forget_past w) = (w', r) -> w_mem w' = w_mem w).
  { intros k0 b l w' r G. apply (get_block_spec cfg env ok sha1 (fun k => piece_locked k ts) (w_fs w)) in G; [|exact (proj1 HJ)|exact HM|reflexivity]. apply G. }
  unfold next in N. cbn [forget_past w_mem] in N. unfold thread_ok in TO.
  destruct (th_pc t) as [| | | |id|r] eqn:Ep.
  - destruct (th_call t) as [k' b d|k' b l|k'|k'|] eqn:Ec.
    + injection N as <-. destruct (check_block_size i k' b (zlen d)) as [e'|]; [|destruct (t_coalesced (w_mem w))]; (split; [now apply SAME|]; split; [intros ? ? _; discriminate|discriminate]).
    + destruct (t_coalesced (w_mem w)); injection N as <-.
      * destruct (get_block cfg env k' b l (forget_past w)) as [w' [r|r|]] eqn:G; cbn; auto; (split; [apply SAME; eapply GET; eauto|]; split; [intros ? ? ?; discriminate|discriminate]).
      * destruct (piece_at k' (forget_past w)) as [? [?|?|]]; cbn; auto. split; [now apply SAME|]. split; [intros ? ? ?; discriminate|discriminate].
    + destruct (piece_locked k' ts) eqn:Lk'; [discriminate|]. injection N as <-. destruct (reset_piece k' (forget_past w)) as [w' r] eqn:R.
      apply (reset_piece_spec sha1 cfg env ok _ _ _ _ _ _ P0 Lk') in R. destruct r as [u|e'|]; cbn [of_unit]; [| destruct R |exact Logic.I].
      destruct R as (k'' & p' & -> & Hp' & Cp' & Fp' & _ & Fr & _ & _ & L'). cbn [forget_past w_mem] in *.
      assert (Hne : Z.to_nat k <> k'') by (intros <-; assert (p' = p) by congruence; subst p'; contradiction).
      split; [|split; [discriminate|intros [= Ek]; exfalso; lia]]. exists p, e. rewrite Fr by exact Hne. split; [exact Hp|]. destruct L' as (_ & _ & L' & _). now apply L'.
    + destruct (piece_locked k' ts); [discriminate|]. injection N as <-. destruct (piece_at k' (forget_past w)) as [? [?|?|]]; cbn; auto.
      split; [now apply SAME|]. split; [intros ? ? ?; discriminate|discriminate].
    + destruct (torrent_rlocked ts); [discriminate|]. injection N as <-. split; [now apply SAME|]. split; [intros ? ? ?; discriminate|discriminate].
  - destruct (th_call t) as [k' b d|k' b l|k'|k'|] eqn:Ec; try contradiction. destruct (piece_locked k' ts) eqn:Lk'; [discriminate|]. injection N as <-.
    destruct (put_in_piece k' b d (forget_past w)) as [w' r] eqn:R. apply (put_in_piece_spec sha1 cfg env ok _ _ _ _ _ _ _ _ P0 Lk' TO) in R. destruct r as [u|e'|]; [| |exact Logic.I].
    + destruct R as (k'' & p' & q & -> & Hp' & Cp' & _ & _ & _ & Hb & -> & _). cbn [forget_past w_mem with_mem with_pieces t_pieces t_futures] in *.
      split; [|split; [intros ? ? ?; discriminate|discriminate]]. exists p, e. cbn. split; [|exact Hf]. rewrite list_set_nth_neq; [exact Hp|].
      intros ->. assert (p' = p) by congruence. subst p'. exact (full_blocks _ _ _ _ _ q I Hp Cp Fp Hb).
    + destruct R as (-> & -> & _). split; [now apply SAME|]. split; [intros ? ? ?; discriminate|discriminate].
  - destruct (th_call t) as [k' b d|k' b l|k'|k'|] eqn:Ec; try contradiction. destruct (torrent_rlocked ts); [discriminate|]. injection N as <-. destruct TO as (Dk & _).
    assert (Lk' : piece_locked k' ts = true) by (apply piece_locked_iff; exists j, t; rewrite Ep, Ec; auto).
    destruct (piece_exists sha1 cfg env ok _ _ k' (proj1 HM) Dk) as [p' Hp'].
    destruct (put_finish sha1 cfg env k' (forget_past w)) as [w' r] eqn:R. rewrite <- (Z2Nat.id k') in R, Lk' by lia.
    apply (put_finish_spec sha1 cfg env ok (fun k => piece_locked k ts) _ (Z.to_nat k') p' _ _ _ P0 Hp' Lk') in R.
    rewrite (Z2Nat.id k') in Lk' by lia. destruct R as (_ & _ & L' & _ & Fr & _).
    assert (Hne : Z.to_nat k <> Z.to_nat k') by (intros E; assert (k = k') by lia; congruence).
    assert (FA : failed w' k). { exists p, e. rewrite Fr by exact Hne. split; [exact Hp|]. destruct L' as (_ & _ & L' & _). now apply L'. }
    destruct r as [u|e'|]; cbn [of_unit]; [| |exact Logic.I]; (split; [exact FA|]; split; [intros ? ? [= -> _ _]; congruence|discriminate]).
  - destruct (th_call t) as [k' b d|k' b l|k'|k'|] eqn:Ec; try contradiction. destruct (piece_locked k' ts); [discriminate|]. injection N as <-.
    destruct (get_block cfg env k' b l (forget_past w)) as [w' [r|r|]] eqn:G; cbn; auto; (split; [apply SAME; eapply GET; eauto|]; split; [intros ? ? ?; discriminate|discriminate]).
  - destruct (nth_error (t_futures (w_mem w)) id) as [[[e'|]|]|] eqn:Fu; try discriminate; injection N as <-; (split; [now apply SAME|]); destruct (th_call t); try contradiction; (split; [intros ? ? ?; discriminate|discriminate]).
  - discriminate.
Qed.

Lemma checksum_fails base w ts j p es k b d x g h : inv base (Running w ts) -> exec (Running w ts) (LStep j) = Some (p, es) ->
  In (Ret (CPut k b d) (RErr (EChecksum x g h))) es -> exists w' ts', p = Running w' ts' /\ failed w' k /\ 0 <= k < n.
Proof.
  intros I E H. cbn [StorageSys.exec] in E. destruct (nth_error ts j) as [t|] eqn:Hj; [|discriminate].
  destruct (next sha1 cfg env (forget_past w) ts t) as [[w' q|w']|] eqn:N; [| |discriminate]; injection E as <- <-; [|destruct H].
  exists w', (list_set j {| th_call := th_call t; th_pc := q |} ts). split; [reflexivity|].
  unfold events_of in H. destruct q as [| | | | |r]; try (now destruct H). destruct H as [[= Ec ->]|[]].
  pose proof I as (HJ & HM & O & T). pose proof (T _ _ Hj) as TO. cbn [disk_of] in HJ.
  assert (P0 : PI sha1 cfg (fun k => piece_locked k ts) base (forget_past w)) by (split; [exact HJ|]; split; [constructor|exact HM]).
  unfold next in N. cbn [forget_past w_mem] in N. unfold thread_ok in TO. rewrite Ec in *.
  destruct (th_pc t) as [| | | |id|r] eqn:Ep; try contradiction; try discriminate.
  - unfold check_block_size in N. destruct (negb _); [discriminate|]. destruct (negb _); [discriminate|]. destruct (t_coalesced _); discriminate.
  - destruct (piece_locked k ts) eqn:Lk'; [discriminate|]. destruct (put_in_piece k b d (forget_past w)) as [w1 r] eqn:R.
    apply (put_in_piece_spec sha1 cfg env ok _ _ _ _ _ _ _ _ P0 Lk' TO) in R. destruct r as [u|e'|]; try discriminate. destruct R as (_ & -> & _). discriminate.
  - destruct (torrent_rlocked ts); [discriminate|]. destruct TO as (Dk & _).
    assert (Lk' : piece_locked k ts = true) by (apply piece_locked_iff; exists j, t; rewrite Ep, Ec; auto).
    destruct (piece_exists sha1 cfg env ok _ _ k (proj1 HM) Dk) as [p' Hp'].
    destruct (put_finish sha1 cfg env k (forget_past w)) as [w1 r] eqn:R. rewrite <- (Z2Nat.id k) in R, Lk' by lia.
    apply (put_finish_spec sha1 cfg env ok (fun k => piece_locked k ts) _ (Z.to_nat k) p' _ _ _ P0 Hp' Lk') in R. rewrite (Z2Nat.id k) in R by lia.
    destruct R as (_ & _ & _ & _ & _ & NF & _ & R). destruct r as [u|e'|]; cbn [of_unit] in N; try discriminate. injection N as <- ->.
    split; [|exact Dk]. destruct (full_dec sha1 cfg env ok p') as [(l & Hl & Hc)|F]; [|destruct (NF F); discriminate].
    destruct (R _ Hl Hc) as (data & _ & _ & R'). destruct (bytes_eqb _ _); [discriminate|]. destruct R' as (e & [= <-] & _ & Ps & Fu).
    exists p', (EChecksum x g h). rewrite Ps. split; [exact Hp'|exact Fu].
Qed.

Lemma failed_forever base w ts k ls p es : inv base (Running w ts) -> failed w k -> 0 <= k -> Forall same_run ls -> execs (Running w ts) ls = Some (p, es) ->
  Forall (refused k) es /\ match p with Running w' _ => failed w' k | Dead _ _ => True end.
Proof.
  revert w ts p es. induction ls as [|l ls IH]; intros w ts p es I F Hk R E.
  - injection E as <- <-. split; [constructor|exact F].
  - apply Forall_cons_iff in R as [R Rs]. cbn [StorageSys.execs] in E. destruct (exec (Running w ts) l) as [[p1 e1]|] eqn:E1; [|discriminate].
    destruct (execs p1 ls) as [[p2 e2]|] eqn:E2; [|discriminate]. injection E as <- <-.
    pose proof (exec_ok sha1 cfg env ok _ _ _ _ _ I E1) as (I1 & _).
    assert (G : Forall (refused k) e1 /\ match p1 with Running w' _ => failed w' k | Dead _ _ => True end).
    { destruct l as [c|j| | | |]; try contradiction.
      - injection E1 as <- <-. split; [constructor|exact F].
      - cbn [StorageSys.exec] in E1. destruct (nth_error ts j) as [t|] eqn:Hj; [|discriminate].
        destruct (next sha1 cfg env (forget_past w) ts t) as [o|] eqn:N; [|discriminate].
        pose proof (next_failed _ _ _ _ _ _ _ I F Hk Hj N) as NF. destruct o as [w' q|w']; injection E1 as <- <-; [|split; constructor].
        destruct NF as (F' & NP & NR). split; [|exact F']. unfold events_of. destruct q as [| | | | |r]; try constructor; [|constructor].
        unfold refused. destruct (th_call t) as [k' b d|k' b len|k'|k'|] eqn:Ec; try exact Logic.I.
        + destruct r; try exact Logic.I. intros ->. now apply (NP b d).
        + intros ->. now apply (NR eq_refl r). }
    destruct G as [G1 G2]. rewrite Forall_app. destruct p1 as [w1 ts1|f1 t1].
    + destruct (IH _ _ _ _ I1 G2 Hk Rs E2) as [A B]. auto.
    + destruct ls as [|l' ls]; cbn in E2; [injection E2 as <- <-; auto|]. apply Forall_cons_iff in Rs as [R' _]. destruct l'; try contradiction; discriminate.
Qed.
Lemma never_again f tick ls w ts es j p1 es1 k b d x g h ls2 p2 es2 : untouched cfg f -> execs (Dead f tick) ls = Some (Running w ts, es) ->
  exec (Running w ts) (LStep j) = Some (p1, es1) -> In (Ret (CPut k b d) (RErr (EChecksum x g h))) es1 ->
  Forall same_run ls2 -> execs p1 ls2 = Some (p2, es2) -> Forall (refused k) es2.
Proof.
  intros U E E1 H R E2. apply execs_inv in E; [|exact U]. pose proof (exec_ok sha1 cfg env ok _ _ _ _ _ E E1) as (I1 & _).
  destruct (checksum_fails _ _ _ _ _ _ _ _ _ _ _ _ E E1 H) as (w' & ts' & -> & F & Hk). exact (proj1 (failed_forever _ _ _ _ _ _ _ I1 F (proj1 Hk) R E2)).
Qed.

(** C40: a piece that has not failed can be reset and downloaded. *)
Lemma idle_unlocked ts k : idle ts -> piece_locked k ts = false /\ torrent_rlocked ts = false.
Proof.
  intros D. unfold idle in D. rewrite Forall_forall in D. split.
  - destruct (piece_locked k ts) eqn:L; [|reflexivity]. apply piece_locked_iff in L as (a & t & Ha & P & _). apply nth_error_In, D in Ha as [r Hr]. congruence.
  - destruct (torrent_rlocked ts) eqn:L; [|reflexivity]. apply rlocked_iff in L as (a & t & Ha & P). apply nth_error_In, D in Ha as [r Hr]. congruence.
Qed.
Lemma idle_last ts c q : idle ts ->
  (q <> PutMid -> forall k, piece_locked k (ts ++ [{| th_call := c; th_pc := q |}]) = false) /\
  (q <> GetPiece -> torrent_rlocked (ts ++ [{| th_call := c; th_pc := q |}]) = false).
Proof.
  intros D. split; intros.
  - rewrite (locked_app sha1 cfg env ok) by (cbn; assumption). now apply idle_unlocked.
  - unfold torrent_rlocked. rewrite existsb_app. pose proof (proj2 (idle_unlocked ts 0 D)) as Q. unfold torrent_rlocked in Q. rewrite Q. cbn. destruct q; try reflexivity. contradiction.
Qed.
Lemma set_last ts (t t' : thread) : list_set (List.length ts) t' (ts ++ [t]) = ts ++ [t'].
Proof. induction ts as [|x ts IH]; cbn; [reflexivity|now rewrite IH]. Qed.
Lemma nth_last ts (t : thread) : nth_error (ts ++ [t]) (List.length ts) = Some t.
Proof. rewrite nth_error_app2 by lia. now rewrite Nat.sub_diag. Qed.
Lemma check_tile k j (d : bytes) : 0 <= k < n -> 0 <= j < num_blocks (piece_size i k) -> zlen d = block_size (piece_size i k) j -> check_block_size i k (BL * j) (zlen d) = None.
Proof.
  intros Hk Hj Hd. unfold check_block_size. rewrite (Z.mul_comm BL j), Z.rem_mul by (unfold BL; lia). cbn [Z.eqb negb].
  destruct (piece_size_eq cfg ok k Hk) as [-> Hs]. set (s := piece_size i k) in *. destruct (num_blocks_spec s) as [N1 N2]; [lia|].
  pose proof (Z.quot_rem' s BL) as E2. pose proof (Z.rem_bound_pos s BL ltac:(lia) ltac:(unfold BL; lia)) as Rs.
  rewrite Hd. unfold block_size, BL in *. destruct (j * 16384 =? 16384 * Z.quot s 16384) eqn:El; cbv iota; match goal with |- context [?a =? ?b] => replace (a =? b) with true by lia end; reflexivity.
Qed.
Lemma idle_snoc ts c r : idle ts -> idle (ts ++ [{| th_call := c; th_pc := Done r |}]).
Proof. intros D. apply Forall_app. split; [exact D|]. constructor; [now exists r|constructor]. Qed.
Lemma put_alone base w ts k p j d : inv base (Running w ts) -> idle ts -> nth_error (t_pieces (w_mem w)) k = Some p -> pc_coalesced p = false ->
  nth_error (blocks_of p) j = Some None -> zlen d = block_size (piece_size i (Z.of_nat k)) (Z.of_nat j) ->
  let c := CPut (Z.of_nat k) (BL * Z.of_nat j) d in
  exists w' r, execs (Running w ts) (LCall c :: repeat (LStep (List.length ts)) 3) = Some (Running w' (ts ++ [{| th_call := c; th_pc := Done r |}]), [Ret c r]) /\
    (~ full (put_piece p j d) -> r = RNil /\ nth_error (t_pieces (w_mem w')) k = Some (put_piece p j d)) /\
    (full (put_piece p j d) -> forall data, all_blocks (list_set j (Some d) (blocks_of p)) = Some data -> sha1 data = piece_hash i (Z.of_nat k) ->
       (r = RNil /\ on_disk cfg (w_fs w') (Z.of_nat k) = Some data) \/ r = RErr EIO).
Proof.
  intros I D Hp Cp Hb Hd c. pose proof I as (HJ & HM & O & T). cbn [disk_of] in HJ. pose proof HM as (MI & _).
  pose proof (piece_bound sha1 cfg env ok _ _ _ _ MI Hp) as Bk. pose proof MI as (_ & M2 & _).
  destruct (piece_blocks sha1 cfg env ok _ _ _ _ Bk (M2 _ _ Hp) Cp) as (PL1 & _).
  assert (Bj : 0 <= Z.of_nat j < num_blocks (piece_size i (Z.of_nat k))) by (apply nth_error_Some_lt in Hb; unfold zlen in PL1; lia).
  pose proof (check_tile _ _ _ Bk Bj Hd) as CK.
  destruct (incomplete_absent sha1 cfg env ok _ _ _ _ _ (proj1 HJ) HM Hp Cp) as (_ & _ & _ & _ & TC).
  destruct (idle_last ts c Start D) as [L0 _]. destruct (idle_last ts c PutPiece D) as [L1 _]. destruct (idle_last ts c PutMid D) as [_ L2].
  specialize (L1 ltac:(discriminate)). specialize (L2 ltac:(discriminate)).
  set (ts0 := ts ++ [{| th_call := c; th_pc := Start |}]). set (ts1 := ts ++ [{| th_call := c; th_pc := PutPiece |}]). set (ts2 := ts ++ [{| th_call := c; th_pc := PutMid |}]).
  assert (E0 : exec (Running w ts) (LCall c) = Some (Running w ts0, [])) by reflexivity.
  assert (E1 : exec (Running w ts0) (LStep (List.length ts)) = Some (Running (forget_past w) ts1, [])).
  { cbn [StorageSys.exec]. unfold ts0 at 1. rewrite nth_last. unfold next. cbn [th_pc th_call c forget_past w_mem]. rewrite CK, TC. cbn [th_call events_of]. unfold ts0. now rewrite set_last. }
  pose proof (exec_ok sha1 cfg env ok _ _ _ _ _ I E0) as (I0 & _). pose proof (exec_ok sha1 cfg env ok _ _ _ _ _ I0 E1) as (I1 & _).
  pose proof I1 as (HJ1 & HM1 & _). cbn [disk_of] in HJ1.
  assert (P1 : PI sha1 cfg (fun k => piece_locked k ts1) base (forget_past (forget_past w))) by (split; [exact HJ1|]; split; [constructor|exact HM1]).
  set (w2 := with_mem (forget_past (forget_past w)) (with_pieces (w_mem w) (list_set k (put_piece p j d) (t_pieces (w_mem w))))).
  assert (R1 : put_in_piece (Z.of_nat k) (BL * Z.of_nat j) d (forget_past (forget_past w)) = (w2, Ok tt)).
  { destruct (put_in_piece (Z.of_nat k) (BL * Z.of_nat j) d (forget_past (forget_past w))) as [wx rx] eqn:R.
    apply (put_in_piece_spec sha1 cfg env ok _ _ _ _ _ _ _ _ P1 (L1 _) CK) in R. destruct rx as [[]|e|].
    - destruct R as (k' & p' & j' & Ek & Hp' & _ & Ej & _ & _ & _ & -> & _). assert (k' = k) by lia. subst k'. cbn [forget_past w_mem] in Hp'. assert (p' = p) by congruence. subst p'.
      assert (j' = j) by (unfold BL in Ej; lia). subst j'. reflexivity.
    - destruct R as (_ & _ & k' & p' & Ek & Hp' & R). assert (k' = k) by lia. subst k'. cbn [forget_past w_mem] in Hp'. assert (p' = p) by congruence. subst p'.
      destruct R as [R|(d' & R)]; [congruence|]. replace (Z.to_nat (BL * Z.of_nat j / BL)) with j in R; [congruence|].
      rewrite Z.mul_comm, Z.div_mul by (unfold BL; lia). lia.
    - destruct R as (_ & R). destruct (num_blocks_spec (piece_size i (Z.of_nat k))) as [N1 N2]; [|unfold BL in *; nia].
      destruct (piece_size_eq cfg ok _ Bk); lia. }
  assert (E2 : exec (Running (forget_past w) ts1) (LStep (List.length ts)) = Some (Running w2 ts2, [])).
  { cbn [StorageSys.exec]. unfold ts1 at 1. rewrite nth_last. unfold next. cbn [th_pc th_call c]. fold c. fold ts1. rewrite L1. unfold c at 1 2. rewrite R1. cbn [events_of]. unfold ts1. now rewrite set_last. }
  pose proof (exec_ok sha1 cfg env ok _ _ _ _ _ I1 E2) as (I2 & _).
  pose proof I2 as (HJ2 & HM2 & _). cbn [disk_of] in HJ2.
  assert (P2 : PI sha1 cfg (fun k => piece_locked k ts2) base (forget_past w2)) by (split; [exact HJ2|]; split; [constructor|exact HM2]).
  assert (Hp2 : nth_error (t_pieces (w_mem (forget_past w2))) k = Some (put_piece p j d)) by (cbn; eapply list_set_same_len; exact Hp).
  assert (Lk : piece_locked (Z.of_nat k) ts2 = true) by (apply piece_locked_iff; exists (List.length ts), {| th_call := c; th_pc := PutMid |}; split; [apply nth_last|now split]).
  destruct (put_finish sha1 cfg env (Z.of_nat k) (forget_past w2)) as [w3 r3] eqn:R3. pose proof R3 as R3'.
  apply (put_finish_spec sha1 cfg env ok (fun k => piece_locked k ts2) _ k _ _ _ _ P2 Hp2 Lk) in R3. destruct R3 as (NP & _ & _ & _ & _ & NF & _ & FU).
  set (r := match r3 with Ok _ => RNil | Err e => RErr e | Panic => RNil end). exists w3, r.
  assert (E3 : exec (Running w2 ts2) (LStep (List.length ts)) = Some (Running w3 (ts ++ [{| th_call := c; th_pc := Done r |}]), [Ret c r])).
  { cbn [StorageSys.exec]. unfold ts2 at 1. rewrite nth_last. unfold next. cbn [th_pc th_call]. unfold c at 1. change (torrent_rlocked ts2 = false) in L2. rewrite L2. rewrite R3'. unfold r. destruct r3 as [u|e|]; [| |now destruct NP]; cbn [of_unit events_of]; unfold ts2; now rewrite set_last. }
  split; [|split].
  - cbn [StorageSys.execs repeat]. rewrite E0, E1, E2, E3. reflexivity.
  - intros F. destruct (NF F) as (-> & ->). split; [reflexivity|exact Hp2].
  - intros F data Hdt Hs. destruct F as (l & Hl & Hc). destruct (FU l Hl Hc) as (data' & Hd' & _ & Q). cbn in Hl. injection Hl as <-. assert (data' = data) by congruence. subst data'.
    rewrite Hs in Q. replace (bytes_eqb (piece_hash i (Z.of_nat k)) (piece_hash i (Z.of_nat k))) with true in Q by (symmetry; now apply bytes_eqb_eq).
    unfold r. destruct r3 as [u|e|]; [left; auto|right; now subst|destruct Q].
Qed.
Definition right_block (b : bytes) (j : nat) : bytes := slice b (BL * Z.of_nat j) (block_size (zlen b) (Z.of_nat j)).
Lemma right_block_len b j : 1 <= zlen b -> 0 <= Z.of_nat j < num_blocks (zlen b) -> zlen (right_block b j) = block_size (zlen b) (Z.of_nat j).
Proof.
  intros Hs Hj. destruct (num_blocks_spec _ Hs) as [N1 N2]. unfold right_block, slice, zlen at 1. rewrite firstn_length, skipn_length. unfold block_size, zlen, BL in *. lia.
Qed.
Lemma all_right b l : 1 <= zlen b -> zlen l = num_blocks (zlen b) -> (forall j, (j < List.length l)%nat -> nth_error l j = Some (Some (right_block b j))) ->
  all_blocks l = Some b.
Proof.
  intros Hs Hl H. change (zlen l) with (Z.of_nat (List.length l)) in Hl. assert (E : l = map Some (map (right_block b) (seq 0 (Z.to_nat (num_blocks (zlen b)))))).
  { apply nth_error_eq. intros j. destruct (Nat.lt_ge_cases j (List.length l)) as [L|L].
    - rewrite H by exact L. symmetry. rewrite map_map. erewrite map_nth_error; [reflexivity|]. rewrite (nth_error_nth' _ 0%nat) by (rewrite seq_length; lia).
      rewrite seq_nth by (lia). reflexivity.
    - rewrite (proj2 (nth_error_None l j) L). symmetry. apply nth_error_None. rewrite !map_length, seq_length. lia. }
  assert (Q : num_some l = zlen l). { unfold num_some. apply StorageProofs.filter_all. intros x Hx. rewrite E in Hx. apply in_map_iff in Hx as (y & <- & _). reflexivity. }
  destruct (all_blocks_full _ Q) as (ds & El & ->). f_equal. rewrite E in El.
  assert (ds = map (right_block b) (seq 0 (Z.to_nat (num_blocks (zlen b))))) as ->.
  { clear -El. revert El. generalize (map (right_block b) (seq 0 (Z.to_nat (num_blocks (zlen b))))). intros ds'. revert ds. induction ds' as [|x ds' IH]; intros [|y ds] E; cbn in E; try discriminate; [reflexivity|]. injection E as -> E. f_equal. now apply IH. }
  rewrite <- (tiling_concat b Hs) at 3. unfold tiling. rewrite map_map. reflexivity.
Qed.
Definition put_of (k : Z) (b : bytes) (xy : Z * Z) : call := CPut k (fst xy) (slice b (fst xy) (snd xy)).
Lemma download base k b todo : forall w ts p, inv base (Running w ts) -> idle ts -> nth_error (t_pieces (w_mem w)) k = Some p -> pc_coalesced p = false ->
  verified sha1 cfg (Z.of_nat k) b -> NoDup todo -> todo <> [] ->
  (forall xy, In xy todo -> exists j, xy = (BL * Z.of_nat j, block_size (zlen b) (Z.of_nat j)) /\ nth_error (blocks_of p) j = Some None) ->
  (forall j, (j < List.length (blocks_of p))%nat -> nth_error (blocks_of p) j = Some (Some (right_block b j)) \/ In (BL * Z.of_nat j, block_size (zlen b) (Z.of_nat j)) todo) ->
  exists r p', one_by_one sha1 cfg env (Running w ts) (map (put_of (Z.of_nat k) b) todo) (repeat RNil (List.length todo - 1) ++ [r]) p' /\
    ((r = RNil /\ on_disk cfg (disk_of p') (Z.of_nat k) = Some b) \/ r = RErr EIO).
Proof.
  induction todo as [|xy todo IH]; intros w ts p I D Hp Cp V ND NE H1 H2; [contradiction|]. clear NE.
  pose proof I as (_ & (MI & _) & _). pose proof (piece_bound sha1 cfg env ok _ _ _ _ MI Hp) as Bk. pose proof MI as (_ & M2 & _).
  destruct (piece_blocks sha1 cfg env ok _ _ _ _ Bk (M2 _ _ Hp) Cp) as (PL1 & PC & _ & _). destruct V as [Vs Vh]. rewrite <- Vs in PL1.
  destruct (piece_size_eq cfg ok _ Bk) as [_ Sz]. rewrite <- Vs in Sz.
  destruct (H1 xy (or_introl eq_refl)) as (j & -> & Hb). pose proof (nth_error_Some_lt _ _ _ Hb) as Lj.
  assert (Ld : zlen (right_block b j) = block_size (zlen b) (Z.of_nat j)) by (apply right_block_len; [lia|]; change (zlen (blocks_of p)) with (Z.of_nat (List.length (blocks_of p))) in PL1; lia).
  destruct (put_alone _ _ _ _ _ j (right_block b j) I D Hp Cp Hb) as (w' & r & E & NF & FU); [now rewrite <- Vs|].
  assert (B' : blocks_of (put_piece p j (right_block b j)) = list_set j (Some (right_block b j)) (blocks_of p)) by reflexivity.
  assert (I' : inv base (Running w' (ts ++ [{| th_call := CPut (Z.of_nat k) (BL * Z.of_nat j) (right_block b j); th_pc := Done r |}]))).
  { eapply execs_ok in E; [apply E|exact ok|exact I]. }
  apply NoDup_cons_iff in ND as [NI ND].
  assert (LL : List.length (list_set j (Some (right_block b j)) (blocks_of p)) = List.length (blocks_of p)) by apply list_set_length.
  destruct todo as [|xy' todo].
  - exists r. eexists. split; [eapply OneCons; [exact E|apply OneNil]|]. cbn [disk_of].
    assert (A : forall j', (j' < List.length (blocks_of p))%nat -> nth_error (list_set j (Some (right_block b j)) (blocks_of p)) j' = Some (Some (right_block b j'))).
    { intros j' L. destruct (Nat.eq_dec j' j) as [->|Nj]; [eapply list_set_same_len; exact Hb|]. rewrite list_set_nth_neq by congruence.
      destruct (H2 j' L) as [Q|[Q|[]]]; [exact Q|]. apply pair_equal_spec in Q as [Q _]. unfold BL in Q. lia. }
    assert (AB : all_blocks (list_set j (Some (right_block b j)) (blocks_of p)) = Some b).
    { apply all_right; [lia|unfold zlen at 1; rewrite LL; exact PL1|]. intros j' L. apply A. lia. }
    apply FU; [|exact AB|exact Vh]. eexists. split; [reflexivity|]. cbn [pc_complete put_piece]. rewrite PC.
    rewrite <- (num_some_set j (right_block b j)) by exact Hb. unfold num_some, zlen. f_equal. f_equal. apply StorageSysProofs.filter_all.
    intros x Hx. apply In_nth_error in Hx as [j' Hx]. rewrite A in Hx; [injection Hx as <-; reflexivity|]. apply nth_error_Some_lt in Hx. lia.
  - assert (F : ~ full (put_piece p j (right_block b j))).
    { intros (l & Hl & Hc). cbn in Hl. injection Hl as <-. cbn [pc_complete put_piece] in Hc. rewrite PC, <- (num_some_set j (right_block b j)) in Hc by exact Hb.
      destruct (H1 xy' (or_intror (or_introl eq_refl))) as (j' & -> & Hb').
      assert (j' <> j) by (intros ->; apply NI; now left).
      pose proof (num_some_hole j' (list_set j (Some (right_block b j)) (blocks_of p))) as Q. rewrite list_set_nth_neq in Q by congruence. specialize (Q Hb'). lia. }
    destruct (NF F) as [-> Hp']. destruct (IH w' _ _ I' (idle_snoc _ _ _ D) Hp' eq_refl (conj Vs Vh) ND) as (r' & p' & O & R).
    + discriminate.
    + intros xy Hxy. destruct (H1 xy (or_intror Hxy)) as (j' & -> & Hb'). exists j'. split; [reflexivity|]. rewrite B', list_set_nth_neq; [exact Hb'|].
      intros ->. contradiction.
    + intros j' L. rewrite B' in *. rewrite LL in L. destruct (Nat.eq_dec j' j) as [->|Nj]; [left; eapply list_set_same_len; exact Hb|].
      rewrite list_set_nth_neq by congruence. destruct (H2 j' L) as [Q|[Q|Q]]; [auto| |auto]. apply pair_equal_spec in Q as [Q _]. unfold BL in Q. lia.
    + exists r', p'. split; [|exact R]. cbn [List.length] in O |- *. rewrite Nat.sub_succ, Nat.sub_0_r in *.
      cbn [map repeat app]. eapply OneCons; [exact E|exact O].
Qed.
Lemma reset_download f tick ls w ts es k b blocks : untouched cfg f -> execs (Dead f tick) ls = Some (Running w ts, es) -> idle ts -> 0 <= k < n -> ~ settled w k ->
  verified sha1 cfg k b -> NoDup blocks -> (forall x y, In (x, y) blocks <-> tile (piece_size i k) x y) ->
  exists r p', one_by_one sha1 cfg env (Running w ts) (CReset k :: map (fun xy => CPut k (fst xy) (slice b (fst xy) (snd xy))) blocks) (RNil :: repeat RNil (List.length blocks - 1) ++ [r]) p' /\
    ((r = RNil /\ on_disk cfg (disk_of p') k = Some b) \/ r = RErr EIO).
Proof.
  intros U E D Hk NS V ND HB. apply execs_inv in E; [|exact U]. pose proof E as (HJ & HM & O & T). cbn [disk_of] in HJ.
  destruct (piece_size_eq cfg ok _ Hk) as [_ Sz]. pose proof V as [Vs _].
  destruct (piece_exists sha1 cfg env ok _ _ k (proj1 HM) Hk) as [p Hp]. set (c := CReset k). set (ts0 := ts ++ [{| th_call := c; th_pc := Start |}]).
  assert (E0 : exec (Running w ts) (LCall c) = Some (Running w ts0, [])) by reflexivity.
  pose proof (exec_ok sha1 cfg env ok _ _ _ _ _ E E0) as (I0 & _). pose proof I0 as (HJ0 & HM0 & _). cbn [disk_of] in HJ0.
  destruct (idle_last ts c Start D) as [L0 _]. specialize (L0 ltac:(discriminate)).
  assert (P1 : PI sha1 cfg (fun k => piece_locked k ts0) f (forget_past w)) by (split; [exact HJ0|]; split; [constructor|exact HM0]).
  assert (NC : pc_coalesced p = false /\ ~ full p).
  { destruct HM as ((_ & M & _) & _). destruct (M _ _ Hp) as (_ & _ & _ & _ & _ & _ & F1 & F2 & F3). split.
    - destruct (pc_coalesced p) eqn:C; [|reflexivity]. destruct NS. exists p, None. split; [exact Hp|auto].
    - intros F. destruct (pc_coalesced p) eqn:C; [destruct NS; exists p, None; split; [exact Hp|auto]|].
      rewrite Z2Nat.id in F3 by lia. destruct (F3 eq_refl F (proj1 (idle_unlocked ts k D))) as [e Fe]. destruct NS. exists p, (Some e). auto. }
  destruct NC as [C NF].
  destruct (reset_piece k (forget_past w)) as [w1 r1] eqn:R. pose proof R as R'. apply (reset_piece_spec sha1 cfg env ok _ _ _ _ _ _ P1 (L0 _)) in R.
  destruct r1 as [[]|e|]; [|destruct R|].
  2:{ exfalso. destruct R as (_ & [R|(k' & p' & -> & Hp' & R)]); [lia|]. rewrite Nat2Z.id in Hp. cbn [forget_past w_mem] in Hp'. assert (p' = p) by congruence. subst. destruct R; [congruence|contradiction]. }
  destruct R as (k' & p' & Ek & Hp' & Cp' & _ & Hq & _ & _ & P2 & _).
  set (ts1 := ts ++ [{| th_call := c; th_pc := Done RNil |}]).
  assert (E1 : exec (Running w ts0) (LStep (List.length ts)) = Some (Running w1 ts1, [Ret c RNil])).
  { cbn [StorageSys.exec]. unfold ts0 at 1. rewrite nth_last. unfold next. cbn [th_pc th_call]. unfold c at 1. change (forall k, piece_locked k ts0 = false) in L0. rewrite L0. rewrite R'. cbn [of_unit events_of]. unfold ts0. now rewrite set_last. }
  pose proof (exec_ok sha1 cfg env ok _ _ _ _ _ I0 E1) as (I1 & _).
  assert (PN : pc_num p' = num_blocks (zlen b)). { pose proof P1 as (_ & _ & (_ & M & _) & _). destruct (M _ _ Hp') as (_ & _ & _ & N & _). rewrite N, <- Ek, Vs. reflexivity. }
  subst k. destruct (num_blocks_spec (zlen b)) as [N1 N2]; [lia|]. rewrite <- Vs in HB.
  destruct (download f k' b blocks w1 ts1 _ I1 (idle_snoc _ _ _ D) Hq Cp' V ND) as (r & q & O' & Q).
  - intros ->. destruct (HB 0 (Z.min 16384 (zlen b - 0))) as [_ B0]. destruct B0. unfold tile. split; [lia|]. split; [exists 0; lia|reflexivity].
  - intros [x y] Hxy. apply HB in Hxy. apply tiling_tile in Hxy; [|lia]. unfold tiling in Hxy. apply in_map_iff in Hxy as (j & <- & Hj). apply in_seq in Hj. exists j. split; [reflexivity|].
    unfold blocks_of. cbn [reset_of pc_blocks pc_num]. rewrite PN. rewrite (nth_error_nth' _ None) by (rewrite repeat_length; lia). now rewrite nth_repeat.
  - intros j L. right. unfold blocks_of in L. cbn [reset_of pc_blocks pc_num] in L. rewrite repeat_length, PN in L. apply HB, tiling_tile; [lia|]. unfold tiling. apply in_map_iff. exists j. split; [reflexivity|]. apply in_seq. lia.
  - exists r, q. split; [|exact Q]. eapply (OneCons sha1 cfg env w ts c _ 1); [|exact O']. cbn [StorageSys.execs repeat]. rewrite E0, E1. reflexivity.
Qed.

Lemma served_same f tick ls p es k b len d d' : untouched cfg f -> execs (Dead f tick) ls = Some (p, es) ->
  In (Ret (CGet k b len) (RBlock d)) es -> In (Ret (CGet k b len) (RBlock d')) es -> in_piece cfg k b len -> d = d'.
Proof.
  intros U E H H' I. destruct (served_range _ _ _ _ _ _ _ _ _ U E H I) as (c & C & _ & ->). destruct (served_range _ _ _ _ _ _ _ _ _ U E H' I) as (c' & C' & _ & ->). congruence.
Qed.
Lemma target_is_torrent f tick ls p es : untouched cfg f -> execs (Dead f tick) ls = Some (p, es) ->
  (lookup (target cfg) (disk_of p) = None \/ content cfg (disk_of p) <> None) /\
  forall c, content cfg (disk_of p) = Some c ->
  whole sha1 cfg c /\
  match i_files i with
  | [] => lookup (target cfg) (disk_of p) = Some (NFile c)
  | files => forall j x, nth_error files j = Some x -> lookup (target cfg ++ f_path x) (disk_of p) = Some (NFile (slice c (file_start files j) (f_length x)))
  end.
Proof.
  intros U E. split.
  - destruct (disk_always_ok _ _ _ _ _ U E) as [[T|(c & C & _)] _]; [now left|right; congruence].
  - intros c C. split; [exact (content_always_whole _ _ _ _ _ _ U E C)|exact (content_layout _ _ C)].
Qed.
Lemma put_block_results f tick ls w ts es j t k b d p' es' : untouched cfg f -> execs (Dead f tick) ls = Some (Running w ts, es) ->
  nth_error ts j = Some t -> th_call t = CPut k b d -> exec (Running w ts) (LStep j) = Some (p', es') ->
  (0 <= k < n -> 0 <= b < piece_size i k -> exists w' ts', p' = Running w' ts') /\
  forall r, In (Ret (CPut k b d) r) es' ->
    match r with
    | RNil => 0 <= k < n /\ tile (piece_size i k) b (zlen d)
    | RErr (EChecksum x got want) => x = k /\ got <> want /\ want = piece_hash i k
    | RErr e => In e [EIO; EBlockExists; EMisaligned; EBlockLength]
    | RBlock _ => False
    end.
Proof.
  intros U E Hj Ec X. split.
  - intros Hk Hb. destruct p' as [w' ts'|f' t']; [eauto|]. pose proof (panic_only _ _ _ _ _ _ _ _ _ _ _ U E Hj X) as R. rewrite Ec in R. cbn in R. lia.
  - intros r H. exact (put_results _ _ _ _ _ _ _ _ _ _ _ _ U E X H).
Qed.
Lemma only_deadlock f tick ls w ts es a t : untouched cfg f -> execs (Dead f tick) ls = Some (Running w ts, es) -> nth_error ts a = Some t -> unfinished w t ->
  (forall k, ~ held_up k ts) -> exists b p es', exec (Running w ts) (LStep b) = Some (p, es').
Proof.
  intros U E Ha Un H. destruct (no_deadlock _ _ _ _ _ _ _ _ U E Ha Un H) as [b C]. unfold can_step in C. exists b. destruct (exec (Running w ts) (LStep b)) as [[p e]|]; [eauto|contradiction].
Qed.
End Claims.

Lemma tiling_nodup s : NoDup (tiling s).
Proof.
  unfold tiling. apply FinFun.Injective_map_NoDup; [|apply seq_NoDup]. intros a b E. apply pair_equal_spec in E as [E _]. unfold BL in E. lia.
Qed.
Lemma requests_tile cfg : config_ok cfg -> forall k, 0 <= k < num_pieces (c_info cfg) -> get_piece_length (c_info cfg) k <= 2 ^ 63 - 16384 ->
  exists blocks, piece_requests (get_piece_length (c_info cfg) k) = Some blocks /\ NoDup blocks /\
    (forall x y, In (x, y) blocks <-> tile (piece_size (c_info cfg) k) x y) /\
    (forall data, zlen data = piece_size (c_info cfg) k -> concat (map (fun xy => slice data (fst xy) (snd xy)) blocks) = data) /\
    (forall x y, In (x, y) blocks -> check_block_size (c_info cfg) k x y = None).
Proof.
  intros ok k Hk Hb. destruct (piece_size_eq cfg ok k Hk) as [E S]. rewrite E in *. exists (tiling (piece_size (c_info cfg) k)). split; [apply requests_tiling; unfold BL; lia|].
  split; [apply tiling_nodup|]. split; [intros x y; apply tiling_tile; lia|]. split.
  - intros data Hd. rewrite <- Hd. apply tiling_concat. rewrite Hd. exact (proj1 S).
  - intros x y H. apply tiling_tile in H; [|lia]. destruct H as (H1 & (q & ->) & ->). unfold check_block_size. rewrite Z.rem_mul by (unfold BL; lia). cbn [Z.eqb negb]. rewrite E.
    set (s := piece_size (c_info cfg) k) in *. pose proof (Z.quot_rem' s BL) as E2. pose proof (Z.rem_bound_pos s BL ltac:(lia) ltac:(unfold BL; lia)) as Rs.
    unfold BL in *. destruct (q * 16384 =? 16384 * Z.quot s 16384) eqn:El; cbv iota; match goal with |- context [?a =? ?b] => replace (a =? b) with true by lia end; reflexivity.
Qed.
