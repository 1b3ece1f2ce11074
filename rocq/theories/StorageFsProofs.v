(** The disk invariant of storage/, and which file system changes keep it. *)
From Verif Require Import GoBase GoBaseProofs Strconv StrconvProofs Metainfo MetainfoSpec MetainfoProofs
  Fs FsProofs Storage StorageSys StorageSpec StorageSysSpec.

Lemma hex_digit_plain n : 0 <= n < 16 -> hex_digit n <> "/"%byte /\ hex_digit n <> "."%byte /\ hex_digit n <> "t"%byte.
Proof.
  intros H. assert (In n [0;1;2;3;4;5;6;7;8;9;10;11;12;13;14;15]) as Hin by (cbn; lia). clear H.
  repeat (destruct Hin as [<-|Hin]; [repeat split; discriminate|]). destruct Hin.
Qed.
Lemma hex_nibbles c : 0 <= b2z c / 16 < 16 /\ 0 <= b2z c mod 16 < 16.
Proof. pose proof (b2z_range c). split; [|apply Z.mod_pos_bound; lia]. split; [apply Z.div_pos; lia|apply Z.div_lt_upper_bound; lia]. Qed.
Lemma hex_chars b c : In c (hex b) -> c <> "/"%byte /\ c <> "."%byte /\ c <> "t"%byte.
Proof.
  unfold hex. rewrite in_flat_map. intros (x & _ & Hc). destruct (hex_nibbles x) as [H1 H2].
  destruct Hc as [<-|[<-|[]]]; now apply hex_digit_plain.
Qed.
Lemma plain_name_chars n : n <> [] -> (forall c, In c n -> c <> "/"%byte) -> (exists c, In c n /\ c <> "."%byte) -> plain_name n = true.
Proof.
  intros H1 H2 (c & Hc & H3). unfold plain_name. rewrite andb_true_iff, !negb_true_iff, !orb_false_iff, !bytes_eqb_neq. repeat split; auto.
  - intros ->. cbn in Hc. destruct Hc as [<-|[]]; congruence.
  - intros ->. cbn in Hc. destruct Hc as [<-|[<-|[]]]; congruence.
  - destruct (existsb (beqb "/"%byte) n) eqn:E; [|easy]. apply existsb_exists in E as (x & Hx & E). apply beqb_eq in E as <-. now destruct (H2 _ Hx).
Qed.
Lemma hex_plain b : b <> [] -> plain_name (hex b) = true.
Proof.
  destruct b as [|c b]; [congruence|]. intros _. destruct (hex_nibbles c) as [H1 H2]. apply plain_name_chars; [discriminate| |].
  - intros x Hx. now apply hex_chars in Hx.
  - exists (hex_digit (b2z c / 16)). split; [now left|]. now apply hex_digit_plain.
Qed.
Lemma hex_not_temp b : b <> [] -> hex b <> bs "temp".
Proof. destruct b as [|c b]; [congruence|]. intros _ E. destruct (hex_nibbles c) as [H1 H2]. apply hex_digit_plain in H1 as (_ & _ & H1). apply H1. cbn in E. congruence. Qed.

Lemma digits_chars s c : forallb is_digit s = true -> In c s -> c <> "/"%byte /\ c <> "."%byte /\ is_digit c = true.
Proof. intros H Hc. rewrite forallb_forall in H. apply H in Hc. repeat split; auto; intros ->; discriminate. Qed.
Lemma piece_name_plain k : 0 <= k -> plain_name (piece_name k) = true.
Proof.
  intros H. unfold piece_name. rewrite format_Z_nonneg by lia. pose proof (format_N_digits (Z.to_N k)) as Hd. pose proof (format_N_nonnil (Z.to_N k)).
  apply plain_name_chars.
  - destruct (format_N _); [congruence|discriminate].
  - intros c Hc. apply in_app_iff in Hc as [Hc|Hc]; [now apply (digits_chars _ _ Hd)|].
    cbn in Hc. intros ->. repeat (destruct Hc as [Hc|Hc]; [discriminate|]). destruct Hc.
  - exists "p"%byte. split; [|discriminate]. apply in_app_iff. right. cbn. tauto.
Qed.
Lemma span_digits_app s rest : forallb is_digit s = true -> (match rest with c :: _ => is_digit c = false | [] => True end) -> span_digits (s ++ rest) = (s, rest).
Proof.
  induction s as [|c s IH]; cbn.
  - intros _. destruct rest as [|c r]; [easy|]. intros E; cbn; now rewrite E.
  - rewrite andb_true_iff. intros [-> H] Hr. now rewrite IH.
Qed.
(** No blank starts like this. *)
Definition plain_start (s : bytes) : Prop := match s with c :: _ => is_digit c = true \/ c = "-"%byte \/ c = "+"%byte | [] => False end.
Lemma blank_start p c r : In p blanks -> (is_digit c = true \/ c = "-"%byte \/ c = "+"%byte) -> bytes_eqb (firstn (List.length p) (c :: r)) p = false.
Proof.
  intros Hp Hc. destruct (bytes_eqb _ p) eqn:E; [|reflexivity]. exfalso. apply bytes_eqb_eq in E.
  assert (forallb (fun p => match p with d :: _ => negb (is_digit d || beqb d "-"%byte || beqb d "+"%byte) | [] => false end) blanks = true) as B by (vm_compute; reflexivity).
  rewrite forallb_forall in B. specialize (B p Hp). destruct p as [|d p]; [discriminate|]. cbn [List.length firstn] in E. injection E as -> _.
  destruct Hc as [Hc|[->| ->]]; [rewrite Hc in B|..]; discriminate.
Qed.
Lemma skip_none fuel s : plain_start s -> skip_blanks fuel s = s.
Proof.
  intros H. destruct fuel; [reflexivity|]. cbn [skip_blanks]. destruct (List.find _ blanks) as [p|] eqn:F; [|reflexivity]. exfalso.
  apply List.find_some in F as [Hp F]. destruct s as [|c r]; [exact H|]. rewrite blank_start in F by assumption. discriminate.
Qed.
Lemma scan_piece k : 0 <= k <= max_int64 -> scan_piece_name (piece_name k) = Some k.
Proof.
  intros H. unfold piece_name. rewrite format_Z_nonneg by lia. pose proof (format_N_digits (Z.to_N k)) as Hd. pose proof (format_N_nonnil (Z.to_N k)) as Hn.
  unfold scan_piece_name. destruct (format_N (Z.to_N k)) as [|c s] eqn:E; [congruence|].
  assert (Hc : is_digit c = true) by (cbn in Hd; now apply andb_true_iff in Hd).
  rewrite skip_none by (cbn; auto). unfold scan_number.
  cbn [app]. rewrite (digit_not c "-"%byte), (digit_not c "+"%byte) by easy. cbn [orb].
  change (c :: s ++ bs ".piece") with ((c :: s) ++ bs ".piece"). rewrite span_digits_app by (easy || reflexivity).
  cbn [app firstn bs list_byte_of_string]. change (bytes_eqb _ _) with true. cbn [app].
  rewrite <- E, <- format_Z_nonneg by lia. apply parse_int_format. unfold is_int64, min_int64, max_int64 in *. lia.
Qed.
Lemma piece_name_inj k k' : 0 <= k <= max_int64 -> 0 <= k' <= max_int64 -> piece_name k = piece_name k' -> k = k'.
Proof. intros H H' E. pose proof (scan_piece k H) as S. rewrite E, scan_piece in S by easy. congruence. Qed.

(** slices *)
Lemma skipn_add {A} a b (l : list A) : skipn a (skipn b l) = skipn (b + a) l.
Proof. revert l; induction b as [|b IH]; intros [|x l]; cbn; try reflexivity; [now rewrite skipn_nil|apply IH]. Qed.
Lemma slice_length b from len : 0 <= from -> 0 <= len -> from + len <= zlen b -> zlen (slice b from len) = len.
Proof. intros. unfold slice, zlen in *. rewrite firstn_length, skipn_length. lia. Qed.
Lemma slice_slice b f1 l1 f2 l2 : 0 <= f1 -> 0 <= f2 -> 0 <= l2 -> f2 + l2 <= l1 -> slice (slice b f1 l1) f2 l2 = slice b (f1 + f2) l2.
Proof.
  intros. unfold slice. rewrite skipn_firstn_comm, skipn_add, firstn_firstn.
  rewrite Nat.min_l by lia. f_equal. f_equal. lia.
Qed.
Lemma slice_all b : slice b 0 (zlen b) = b.
Proof. unfold slice. cbn [Z.to_nat skipn]. unfold zlen. rewrite Nat2Z.id. apply firstn_all. Qed.

Lemma skipn_concat (sz : Z) (ds : list bytes) : 0 <= sz -> forall j, (j <= List.length ds)%nat ->
  (forall k d, (k < j)%nat -> nth_error ds k = Some d -> zlen d = sz) ->
  skipn (Z.to_nat (Z.of_nat j * sz)) (concat ds) = concat (skipn j ds).
Proof.
  intros Hs. induction ds as [|d ds IH]; intros j Hj H.
  - cbn in Hj. assert (j = 0%nat) as -> by lia. reflexivity.
  - destruct j as [|j]; [reflexivity|]. cbn [skipn concat]. rewrite <- (IH j).
    + assert (zlen d = sz) as Hd by (apply (H 0%nat); [lia|reflexivity]).
      replace (Z.to_nat (Z.of_nat (S j) * sz)) with (List.length d + Z.to_nat (Z.of_nat j * sz))%nat
        by (unfold zlen in Hd; rewrite Nat2Z.inj_succ, Z.mul_succ_l, Z2Nat.inj_add; lia).
      rewrite <- skipn_add, skipn_app_exact. reflexivity.
    + cbn in Hj; lia.
    + intros k e Hk He. apply (H (S k)); [lia|exact He].
Qed.
Lemma skipn_nth {A} (l : list A) j x : nth_error l j = Some x -> skipn j l = x :: skipn (S j) l.
Proof. revert l; induction j as [|j IH]; intros [|y l]; try discriminate; cbn; [congruence|apply IH]. Qed.
Lemma concat_length (ds : list bytes) (sz : Z) : forall j, (j <= List.length ds)%nat ->
  (forall k d, (k < j)%nat -> nth_error ds k = Some d -> zlen d = sz) -> zlen (concat ds) = Z.of_nat j * sz + zlen (concat (skipn j ds)).
Proof.
  induction ds as [|d ds IH]; intros j Hj H.
  - cbn in Hj. assert (j = 0%nat) as -> by lia. reflexivity.
  - destruct j as [|j]; [reflexivity|]. cbn [concat skipn]. rewrite zlen_app, (IH j).
    + rewrite (H 0%nat d) by (lia || reflexivity). lia.
    + cbn in Hj; lia.
    + intros k e Hk He. apply (H (S k)); [lia|exact He].
Qed.

Section Disk.
Variable sha1 : bytes -> bytes.
Variable cfg : config.
Hypothesis ok : config_ok cfg.
Notation i := (c_info cfg).
Notation n := (num_pieces i).
Notation PL := (i_piece_length i).

Lemma wf : well_formed i. Proof. apply ok. Qed.
Lemma n_pos : 0 < n. Proof. apply ok. Qed.
Lemma PL_pos : 0 < PL < 2 ^ 63. Proof. apply wf. Qed.
Lemma sizes : 0 <= total_size i < 2 ^ 63 /\ (n - 1) * PL < total_size i <= n * PL.
Proof. destruct wf as (_ & _ & H1 & H2). unfold num_pieces. tauto. Qed.
Lemma n_small : n <= max_int64.
Proof. pose proof PL_pos. pose proof sizes as [H1 H2]. unfold max_int64. assert ((n - 1) * 1 <= (n - 1) * PL) by (apply Z.mul_le_mono_nonneg_l; pose proof n_pos; lia). lia. Qed.
Lemma piece_size_eq k : 0 <= k < n -> get_piece_length i k = piece_size i k /\ 1 <= piece_size i k <= PL.
Proof.
  intros H. pose proof PL_pos. pose proof sizes as [H1 H2]. pose proof wf as W.
  pose proof (piece_length_range i k W H) as [Hr _]. unfold piece_size.
  destruct (Z.eq_dec k (n - 1)) as [->|Hk].
  - unfold num_pieces in *. rewrite (piece_length_last i _ W eq_refl) in * by lia. lia.
  - unfold num_pieces in *. rewrite (piece_length_other i k Hk) in *.
    assert ((k + 1) * PL <= (zlen (i_pieces i) - 1) * PL) by (apply Z.mul_le_mono_nonneg_r; lia). lia.
Qed.
(** Pieces before the last are full; the last ends where the torrent ends. *)
Lemma piece_size_full k : 0 <= k < n - 1 -> piece_size i k = PL.
Proof.
  intros H. pose proof PL_pos. pose proof sizes as [H1 H2]. unfold piece_size.
  assert ((k + 1) * PL <= (n - 1) * PL) by (apply Z.mul_le_mono_nonneg_r; lia). lia.
Qed.
Lemma piece_size_last : piece_size i (n - 1) = total_size i - (n - 1) * PL.
Proof. pose proof sizes. unfold piece_size. lia. Qed.
Lemma piece_range k : 0 <= k < n -> 0 <= k * PL /\ k * PL + piece_size i k <= total_size i.
Proof. intros H. pose proof PL_pos. unfold piece_size. split; [apply Z.mul_nonneg_nonneg; lia|lia]. Qed.

Lemma sha_nonnil : i_sha1 i <> [].
Proof. destruct ok as (_ & _ & H & _). now destruct (i_sha1 i). Qed.
Lemma name_plain : plain_name (i_name i) = true. Proof. apply ok. Qed.
Lemma sep1 : under_path (target cfg) (c_work cfg) = false. Proof. apply ok. Qed.
Lemma sep2 : under_path (c_work cfg) (target cfg) = false. Proof. apply ok. Qed.
Definition temps : path := c_work cfg ++ [bs "temp"].
Lemma target_path_eq : target_path cfg = target cfg.
Proof. unfold target_path, target. apply join_plain. cbn. unfold the_info. now rewrite name_plain. Qed.
Lemma temp_dir_eq : temp_dir cfg = temps.
Proof. unfold temp_dir, temps. now apply join_plain. Qed.
Lemma piece_dir_eq : piece_dir cfg = pieces_dir cfg.
Proof. unfold piece_dir, pieces_dir. apply join_plain. cbn. unfold the_info. now rewrite hex_plain by exact sha_nonnil. Qed.
Lemma piece_path_eq k : 0 <= k -> piece_path cfg k = piece_file cfg k.
Proof.
  intros H. unfold piece_path, piece_file, pieces_dir. rewrite <- app_assoc. apply join_plain. cbn. unfold the_info.
  now rewrite hex_plain, piece_name_plain by (exact sha_nonnil || easy).
Qed.
Lemma file_path_eq base x : In x (i_files i) -> file_path base x = base ++ f_path x /\ f_path x <> [] /\
  join base (removelast (f_path x)) = base ++ removelast (f_path x).
Proof.
  intros H. destruct ok as (_ & _ & _ & _ & F & _). rewrite Forall_forall in F. destruct (F x H) as [H1 H2]. repeat split; auto.
  - unfold file_path. now apply join_plain.
  - apply join_plain. apply forallb_forall. intros y Hy. rewrite forallb_forall in H2. apply H2.
    rewrite (app_removelast_last [] H1). apply in_app_iff. now left.
Qed.

(** Paths inside the work directory are never in the way of the target. *)
Lemma work_not_under_target r : under_path (target cfg) (c_work cfg ++ r) = false.
Proof.
  destruct (under_path _ _) eqn:E; [|easy]. exfalso. pose proof sep1. pose proof sep2.
  destruct (under_path_comparable _ _ _ E (under_path_app (c_work cfg) r)); congruence.
Qed.
Lemma target_not_under_work r q : under_path (target cfg) q = true -> q <> c_work cfg ++ r.
Proof. intros H ->. rewrite work_not_under_target in H. discriminate. Qed.
Lemma target_nonnil : target cfg <> [].
Proof. unfold target. intros E. apply app_eq_nil in E as [_ E]. discriminate. Qed.

(** A change that leaves the target and the pieces alone. *)
Notation outside := (outside cfg).
Lemma outside_dir nm q r : under_path (c_work cfg ++ [nm]) q = false -> under_path q (c_work cfg) = false -> under_path q (c_work cfg ++ nm :: r) = false.
Proof.
  clear sha1 ok. intros H1 H2. destruct (under_path q (c_work cfg ++ nm :: r)) eqn:E; [|reflexivity]. exfalso. revert q H1 H2 E. generalize (c_work cfg) as w.
  induction w as [|a w IH]; intros [|b q] H1 H2 E; cbn in *; try discriminate.
  - apply andb_true_iff in E as [E1 E2]. rewrite bytes_eqb_sym in H1. rewrite E1 in H1. discriminate.
  - apply andb_true_iff in E as [E1 E2]. rewrite E1 in H2. cbn in H2. rewrite bytes_eqb_sym in H1. rewrite E1 in H1. cbn in H1. eauto.
Qed.
Lemma outside_temps q r : outside q -> under_path (temps ++ r) q = false.
Proof.
  intros (_ & H & _). destruct (under_path (temps ++ r) q) eqn:E; [|reflexivity]. apply under_path_iff in E as [x ->]. unfold temps in H. rewrite <- app_assoc, under_path_app in H. discriminate.
Qed.
Lemma outside_pieces q r : outside q -> under_path (pieces_dir cfg ++ r) q = false.
Proof.
  intros (_ & _ & H & _). destruct (under_path (pieces_dir cfg ++ r) q) eqn:E; [|reflexivity]. apply under_path_iff in E as [x ->]. rewrite <- app_assoc, under_path_app in H. discriminate.
Qed.
Lemma outside_to_temps q r : outside q -> under_path q (temps ++ r) = false.
Proof. intros (_ & H1 & _ & H2). unfold temps. rewrite <- app_assoc. cbn [app]. now apply outside_dir. Qed.
Lemma outside_to_pieces q r : outside q -> under_path q (pieces_dir cfg ++ r) = false.
Proof. intros (_ & _ & H1 & H2). unfold pieces_dir. rewrite <- app_assoc. cbn [app]. now apply outside_dir. Qed.
Definition quiet (f f' : fs) : Prop :=
  (NoDup (keys f) -> NoDup (keys f')) /\
  (forall q, under_path (target cfg) q = true -> lookup q f' = lookup q f) /\
  (forall nm, lookup (pieces_dir cfg ++ [nm]) f' = lookup (pieces_dir cfg ++ [nm]) f) /\
  (lookup (pieces_dir cfg) f' = lookup (pieces_dir cfg) f \/
   (lookup (pieces_dir cfg) f = None /\ lookup (pieces_dir cfg) f' = Some NDir)) /\
  (forall q, outside q -> lookup q f' = lookup q f).
Lemma quiet_refl f : quiet f f.
Proof. repeat split; auto. Qed.
Lemma quiet_trans f g h : quiet f g -> quiet g h -> quiet f h.
Proof.
  intros (A1 & A2 & A3 & A4 & A5) (B1 & B2 & B3 & B4 & B5). repeat split; auto.
  - intros q Hq. now rewrite B2, A2.
  - intros nm. now rewrite B3, A3.
  - destruct A4 as [A4|[A4 A4']], B4 as [B4|[B4 B4']]; [left|right; split|right; split|]; congruence.
  - intros q Hq. now rewrite B5, A5.
Qed.
Lemma files_content_ext f f' l : (forall q, under_path (target cfg) q = true -> lookup q f' = lookup q f) -> files_content cfg f' l = files_content cfg f l.
Proof. intros H. induction l as [|x l IH]; [reflexivity|]. cbn. rewrite IH, H by apply under_path_app. reflexivity. Qed.
Lemma content_ext f f' : (forall q, under_path (target cfg) q = true -> lookup q f' = lookup q f) -> content cfg f' = content cfg f.
Proof. intros H. unfold content. rewrite (files_content_ext f f') by exact H. now rewrite H by apply under_path_refl. Qed.
Lemma quiet_content f f' : quiet f f' -> content cfg f' = content cfg f.
Proof. intros (_ & H & _). now apply content_ext. Qed.
Lemma quiet_on_disk f f' k : quiet f f' -> on_disk cfg f' k = on_disk cfg f k.
Proof. intros Q. unfold on_disk. rewrite (quiet_content _ _ Q). destruct Q as (_ & _ & H & _). unfold piece_file. now rewrite H. Qed.

(** The invariant of the disk. *)
Definition fs_ok (f : fs) : Prop :=
  disk_ok sha1 cfg f /\ NoDup (keys f) /\
  (lookup (pieces_dir cfg) f = None \/ lookup (pieces_dir cfg) f = Some NDir) /\
  (lookup (target cfg) f = None -> forall nm nd, lookup (pieces_dir cfg ++ [nm]) f = Some nd -> lookup (pieces_dir cfg) f = Some NDir) /\
  (forall k b c, 0 <= k < n -> content cfg f = Some c -> lookup (piece_file cfg k) f = Some (NFile b) -> b = slice c (k * PL) (piece_size i k)).
Lemma quiet_ok f f' : quiet f f' -> fs_ok f -> fs_ok f'.
Proof.
  intros Q ((D1 & D2) & N & P & T & A). pose proof (quiet_content _ _ Q) as C. destruct Q as (Q1 & Q2 & Q3 & Q4 & Q5).
  pose proof (Q2 _ (under_path_refl _)) as Qt. repeat split; auto.
  - rewrite Qt, C. exact D1.
  - intros nm nd H. rewrite Q3 in H. now apply D2.
  - destruct Q4 as [->|[_ ->]]; auto.
  - intros Ht nm nd H. rewrite Qt in Ht. rewrite Q3 in H. specialize (T Ht _ _ H). destruct Q4 as [->|[_ ->]]; auto.
  - intros k b c Hk Hc Hb. rewrite C in Hc. unfold piece_file in Hb. rewrite Q3 in Hb. now apply (A k b c).
Qed.
(** Nothing on disk is lost or altered. *)
Definition ext (f f' : fs) : Prop :=
  (forall k b, 0 <= k < n -> on_disk cfg f k = Some b -> on_disk cfg f' k = Some b) /\
  (forall c, content cfg f = Some c -> content cfg f' = Some c) /\
  (forall q, outside q -> lookup q f' = lookup q f).
Lemma ext_refl f : ext f f. Proof. repeat split; auto. Qed.
Lemma ext_trans f g h : ext f g -> ext g h -> ext f h. Proof. intros (A & A' & A'') (B & B' & B''). split; [auto|]. split; [auto|]. intros q Hq. now rewrite B'', A''. Qed.
Lemma quiet_ext f f' : quiet f f' -> ext f f'.
Proof. intros Q. split; [|split]; [intros * _ H; now rewrite (quiet_on_disk _ _ _ Q)|intros *; now rewrite (quiet_content _ _ Q)|apply Q]. Qed.
Definition J (f0 f : fs) : Prop := fs_ok f /\ ext f0 f.
Lemma quiet_J f0 f f' : quiet f f' -> J f0 f -> J f0 f'.
Proof. intros Q [H1 H2]. split; [now apply (quiet_ok f)|]. eapply ext_trans; [exact H2|now apply quiet_ext]. Qed.

(** Quiet calls. *)
Definition aside (q : path) : Prop := (under_path (target cfg) q = false /\ (forall r, q <> pieces_dir cfg ++ r)) /\ exists r, q = temps ++ r.
Lemma temps_aside r : aside (temps ++ r).
Proof.
  split; [|eexists; reflexivity]. unfold temps. rewrite <- app_assoc. split; [apply work_not_under_target|].
  intros r'. unfold pieces_dir. rewrite <- app_assoc. intros E. apply app_inv_head in E. cbn in E. injection E as E _.
  symmetry in E. now apply hex_not_temp in E; [|exact sha_nonnil].
Qed.
Lemma quiet_change f f' q : aside q -> (NoDup (keys f) -> NoDup (keys f')) -> (forall p, p <> q -> lookup p f' = lookup p f) -> quiet f f'.
Proof.
  intros [[A1 A2] [x A3]] Hn H. repeat split; auto.
  - intros p Hp. apply H. intros ->. congruence.
  - left. apply H. intros <-. now destruct (A2 []); rewrite app_nil_r.
  - intros p Hp. apply H. intros ->. pose proof (outside_to_temps _ x Hp) as O. rewrite <- A3, under_path_refl in O. discriminate.
Qed.
Lemma quiet_put f q nd : aside q -> quiet f (put q nd f).
Proof. intros A. apply (quiet_change _ _ q A); [apply nodup_put|]. intros p Hp. now apply lookup_put_other. Qed.
Lemma quiet_del f q : aside q -> quiet f (del q f).
Proof. intros A. apply (quiet_change _ _ q A); [apply nodup_del|]. intros p Hp. now apply lookup_del_other. Qed.
Lemma quiet_adds p f f' : adds_dirs p f f' -> (forall r, under_path (target cfg) r = true -> under_path r p = false) ->
  (forall nm, under_path (pieces_dir cfg ++ [nm]) p = false) -> (forall q, outside q -> under_path q p = false) -> quiet f f'.
Proof.
  intros [N H] H1 H2 H3. repeat split; auto.
  - intros q Hq. destruct (H q) as [->|(_ & _ & E)]; [easy|]. rewrite H1 in E; [discriminate|easy].
  - intros nm. destruct (H (pieces_dir cfg ++ [nm])) as [->|(_ & _ & E)]; [easy|]. rewrite H2 in E. discriminate.
  - destruct (H (pieces_dir cfg)) as [->|(E1 & E2 & _)]; auto.
  - intros q Hq. destruct (H q) as [->|(_ & _ & E)]; [easy|]. rewrite H3 in E by exact Hq. discriminate.
Qed.
Lemma prefix_not_target q r : under_path (target cfg) q = true -> under_path q (c_work cfg ++ r) = false.
Proof.
  intros Hq. destruct (under_path q _) eqn:E; [|easy]. pose proof (under_path_trans _ _ _ Hq E) as E'. now rewrite work_not_under_target in E'.
Qed.
Lemma quiet_mkdir_temp f f' r : adds_dirs (temps ++ r) f f' -> quiet f f'.
Proof.
  intros H. eapply quiet_adds; [exact H| | |intros q Hq; now apply outside_to_temps].
  - intros q Hq. unfold temps. rewrite <- app_assoc. now apply prefix_not_target.
  - intros nm. destruct (under_path _ _) eqn:E; [|easy]. apply under_path_iff in E as [r' E].
    destruct (temps_aside r) as [[_ A] _]. rewrite <- app_assoc in E. now apply A in E.
Qed.
Lemma quiet_mkdir_pieces f f' : adds_dirs (pieces_dir cfg) f f' -> quiet f f'.
Proof using cfg ok.
  clear sha1. intros H. eapply quiet_adds; [exact H| | |intros q Hq; rewrite <- (app_nil_r (pieces_dir cfg)); now apply outside_to_pieces].
  - intros q Hq. unfold pieces_dir. now apply prefix_not_target.
  - intros nm. destruct (under_path _ _) eqn:E; [|easy]. apply under_path_iff in E as [r' E].
    apply (f_equal (@List.length _)) in E. rewrite !app_length in E. cbn in E. lia.
Qed.
Lemma quiet_remove_temp f q c : quiet f (ef_mid (remove_all c (temps ++ [q]) f)) /\ quiet f (filter (fun e => negb (under_path (temps ++ [q]) (fst e))) f).
Proof.
  assert (G : forall keep : path -> bool, (forall p, under_path (temps ++ [q]) p = false -> keep p = true) ->
    quiet f (filter (fun e => keep (fst e)) f)).
  { intros keep Hk. assert (L : forall p, under_path (temps ++ [q]) p = false -> lookup p (filter (fun e => keep (fst e)) f) = lookup p f).
    { intros [|a p] Hp; [reflexivity|]. rewrite (lookup_filter _ f keep) by easy. now rewrite Hk. }
    assert (U : forall r, under_path (temps ++ [q]) (pieces_dir cfg ++ r) = false).
    { intros r. destruct (under_path (temps ++ [q]) (pieces_dir cfg ++ r)) eqn:E; [|easy]. apply under_path_iff in E as [r' E]. rewrite <- app_assoc in E.
      symmetry in E. destruct (temps_aside ([q] ++ r')) as [[_ A] _]. now apply A in E. }
    repeat split.
    - apply nodup_filter.
    - intros p Hp. apply L. destruct (under_path (temps ++ [q]) p) eqn:E; [|easy]. apply under_path_iff in E as [r' ->].
      rewrite <- app_assoc in Hp. destruct (temps_aside ([q] ++ r')) as [[A _] _]. congruence.
    - intros nm. now apply L.
    - left. apply L. specialize (U []). now rewrite app_nil_r in U.
    - intros p Hp. apply L. now apply outside_temps. }
  split.
  - cbn. apply (G (fun p => negb (under_path (temps ++ [q]) p) || ch_keep c p)). now intros p ->.
  - apply (G (fun p => negb (under_path (temps ++ [q]) p))). now intros p ->.
Qed.

(** Loud changes.  1: a verified piece moves into place. *)
Lemma piece_file_parent k : parent (piece_file cfg k) = pieces_dir cfg.
Proof. unfold parent, piece_file. apply removelast_last. Qed.
Lemma target_piece_apart k q : under_path (target cfg) q = true -> under_path (piece_file cfg k) q = false.
Proof.
  intros H. destruct (under_path (piece_file cfg k) q) eqn:E; [|easy]. apply under_path_iff in E as [r ->].
  unfold piece_file, pieces_dir in H. rewrite <- !app_assoc in H. now rewrite work_not_under_target in H.
Qed.
Lemma temp_piece_apart x k : under_path (temps ++ [x]) (piece_file cfg k) = false /\ under_path (piece_file cfg k) (temps ++ [x]) = false.
Proof.
  split; destruct (under_path _ _) eqn:E; try easy; apply under_path_iff in E as [r E].
  - rewrite <- app_assoc in E. unfold piece_file in E. symmetry in E. now apply (proj2 (proj1 (temps_aside ([x] ++ r)))) in E.
  - unfold piece_file in E. rewrite <- app_assoc in E. now apply (proj2 (proj1 (temps_aside [x]))) in E.
Qed.
Lemma under_single p a b : under_path (p ++ [a]) (p ++ [b]) = true -> a = b.
Proof. rewrite under_path_iff. intros [r E]. rewrite <- app_assoc in E. apply app_inv_head in E. cbn in E. congruence. Qed.
Lemma piece_file_inj k k' : 0 <= k < n -> 0 <= k' < n -> piece_file cfg k = piece_file cfg k' -> k = k'.
Proof.
  intros H H' E. unfold piece_file in E. apply app_inv_head in E. injection E as E. pose proof n_small.
  apply piece_name_inj; [lia|lia|exact E].
Qed.
Lemma content_target_none f : lookup (target cfg) f = None -> content cfg f = None.
Proof. intros H. unfold content. rewrite H. now destruct (i_files i). Qed.

Lemma piece_placed f k data x :
  fs_ok f -> lookup (target cfg) f = None -> 0 <= k < n -> verified sha1 cfg k data ->
  lookup (piece_file cfg k) f = None -> lookup (temps ++ [x]) f = Some (NFile data) -> lookup (pieces_dir cfg) f = Some NDir ->
  let f' := move (temps ++ [x]) (piece_file cfg k) f in
  fs_ok f' /\ ext f f' /\ lookup (target cfg) f' = None /\ on_disk cfg f' k = Some data /\
  (forall k', 0 <= k' < n -> k' <> k -> on_disk cfg f' k' = on_disk cfg f k').
Proof.
  intros (D & N & P & T & Agr) Ht Hk V Hp Hx Hd f'. destruct (temp_piece_apart x k) as [S1 S2].
  assert (L : forall q, lookup q f' = if under_path (piece_file cfg k) q then lookup ((temps ++ [x]) ++ skipn (List.length (piece_file cfg k)) q) f
                                     else if under_path (temps ++ [x]) q then None else lookup q f)
    by (intros q; now apply lookup_move).
  assert (Lt : forall q, under_path (target cfg) q = true -> lookup q f' = lookup q f).
  { intros q Hq. rewrite L, target_piece_apart by easy. destruct (under_path (temps ++ [x]) q) eqn:E; [|easy].
    apply under_path_iff in E as [r ->]. rewrite <- app_assoc in Hq. destruct (temps_aside ([x] ++ r)) as [[? ?] ?]; congruence. }
  assert (Lp : lookup (piece_file cfg k) f' = Some (NFile data)).
  { rewrite L, under_path_refl, skipn_all, app_nil_r. exact Hx. }
  assert (Lo : forall nm, nm <> piece_name k -> lookup (pieces_dir cfg ++ [nm]) f' = lookup (pieces_dir cfg ++ [nm]) f).
  { intros nm Hn. rewrite L. destruct (under_path (piece_file cfg k) (pieces_dir cfg ++ [nm])) eqn:E; [apply under_single in E; congruence|].
    destruct (under_path (temps ++ [x]) (pieces_dir cfg ++ [nm])) eqn:E'; [|easy]. apply under_path_iff in E' as [r E'].
    rewrite <- app_assoc in E'. symmetry in E'. now apply (proj2 (proj1 (temps_aside ([x] ++ r)))) in E'. }
  assert (Ld : lookup (pieces_dir cfg) f' = Some NDir).
  { rewrite L. destruct (under_path (piece_file cfg k) (pieces_dir cfg)) eqn:E.
    - apply under_path_iff in E as [r E]. apply (f_equal (@List.length _)) in E. unfold piece_file in E. rewrite !app_length in E. cbn in E. lia.
    - destruct (under_path (temps ++ [x]) (pieces_dir cfg)) eqn:E'; [|easy]. apply under_path_iff in E' as [r E'].
      rewrite <- app_assoc in E'. destruct (temps_aside ([x] ++ r)) as [[_ A] _]. symmetry in E'. rewrite <- (app_nil_r (pieces_dir cfg)) in E'. now apply A in E'. }
  pose proof (content_ext _ _ Lt) as C. pose proof (Lt _ (under_path_refl _)) as Lt0.
  pose proof (content_target_none _ Ht) as C0.
  assert (Hother : forall k', 0 <= k' < n -> k' <> k -> on_disk cfg f' k' = on_disk cfg f k').
  { intros k' Hk' Hne. unfold on_disk. rewrite C, C0. unfold piece_file. rewrite Lo; [easy|].
    intros E. apply Hne. pose proof n_small. apply piece_name_inj; [lia|lia|exact E]. }
  assert (Hthis : on_disk cfg f' k = Some data).
  { unfold on_disk. rewrite C, C0, Lp. reflexivity. }
  split; [|split; [|split; [|split]]].
  - repeat split.
    + left. now rewrite Lt0.
    + intros nm nd Hnm. destruct (bytes_eq_dec nm (piece_name k)) as [->|Hne].
      * change (pieces_dir cfg ++ [piece_name k]) with (piece_file cfg k) in Hnm. rewrite Lp in Hnm. injection Hnm as <-. exists k, data. auto.
      * rewrite Lo in Hnm by easy. destruct D as [_ D]. now apply D.
    + now apply nodup_move.
    + now right.
    + intros _ _ _ _. exact Ld.
    + intros k' b c _ E. rewrite C, C0 in E. discriminate.
  - split; [|split; [intros c0; rewrite C0; discriminate|]].
    2: { intros q Hq. rewrite L. unfold piece_file. now rewrite (outside_pieces _ _ Hq), (outside_temps _ _ Hq). }
    intros k' b Hk' Hb. destruct (Z.eq_dec k' k) as [->|Hne]; [|now rewrite Hother].
    unfold on_disk in Hb. rewrite C0, Hp in Hb. discriminate.
  - now rewrite Lt0.
  - exact Hthis.
  - exact Hother.
Qed.

(** 3: the piece directory goes away once the target is in place. *)
Lemma pieces_removed f c cc : fs_ok f -> content cfg f = Some cc ->
  (forall keep : path -> bool, (forall p, under_path (pieces_dir cfg) p = false -> keep p = true) ->
     fs_ok (filter (fun e => keep (fst e)) f) /\ ext f (filter (fun e => keep (fst e)) f) /\ content cfg (filter (fun e => keep (fst e)) f) = Some cc) ->
  (let f' := ef_mid (remove_all c (pieces_dir cfg) f) in fs_ok f' /\ ext f f' /\ content cfg f' = Some cc) /\
  (let f' := filter (fun e => negb (under_path (pieces_dir cfg) (fst e))) f in fs_ok f' /\ ext f f' /\ content cfg f' = Some cc).
Proof.
  intros H C G. split.
  - cbn. apply (G (fun p => negb (under_path (pieces_dir cfg) p) || ch_keep c p)). now intros p ->.
  - apply (G (fun p => negb (under_path (pieces_dir cfg) p))). now intros p ->.
Qed.
Lemma pieces_filtered f cc : fs_ok f -> content cfg f = Some cc ->
  forall keep : path -> bool, (forall p, under_path (pieces_dir cfg) p = false -> keep p = true) ->
     fs_ok (filter (fun e => keep (fst e)) f) /\ ext f (filter (fun e => keep (fst e)) f) /\ content cfg (filter (fun e => keep (fst e)) f) = Some cc.
Proof.
  intros (D & N & P & T & A) C keep Hk. set (f' := filter _ f).
  assert (L : forall p, p <> [] -> lookup p f' = if keep p then lookup p f else None) by (intros p Hp; now apply (lookup_filter p f keep)).
  assert (Lt : forall q, under_path (target cfg) q = true -> lookup q f' = lookup q f).
  { intros [|a q] Hq; [reflexivity|]. rewrite L by easy. rewrite Hk; [easy|].
    destruct (under_path (pieces_dir cfg) (a :: q)) eqn:E; [|easy]. apply under_path_iff in E as [r E]. rewrite E in Hq. unfold pieces_dir in Hq.
    rewrite <- app_assoc in Hq. now rewrite work_not_under_target in Hq. }
  pose proof (content_ext _ _ Lt) as C'. pose proof (Lt _ (under_path_refl _)) as Lt0.
  assert (Htn : lookup (target cfg) f <> None). { intros E. rewrite content_target_none in C by easy. discriminate. }
  split; [|split; [|now rewrite C']].
  - repeat split.
    + right. destruct D as [[E|(c & E & W)] _]; [contradiction|]. exists c. now rewrite C'.
    + intros nm nd H. destruct D as [_ D]. rewrite L in H by (now destruct (pieces_dir cfg)). destruct (keep _); [now apply D|discriminate].
    + now apply nodup_filter.
    + rewrite L; [destruct (keep _); [exact P|now left]|]. unfold pieces_dir. now destruct (c_work cfg).
    + intros E. rewrite Lt0 in E. contradiction.
    + intros k b c Hk' Hc Hb. rewrite C' in Hc. rewrite L in Hb by (unfold piece_file; now destruct (pieces_dir cfg)).
      destruct (keep _); [|discriminate]. now apply (A k b c).
  - split; [|split; [intros c0; now rewrite C'|]].
    2: { intros [|a q] Hq; [reflexivity|]. rewrite L by easy. rewrite Hk; [easy|]. rewrite <- (app_nil_r (pieces_dir cfg)). now apply outside_pieces. }
    intros k b Hb. unfold on_disk. rewrite C', C. easy.
Qed.

(** 2: the target moves into place. *)
Lemma concat_whole (ds : list bytes) : zlen ds = n ->
  (forall k d, nth_error ds k = Some d -> verified sha1 cfg (Z.of_nat k) d) ->
  whole sha1 cfg (concat ds) /\ forall k d, nth_error ds k = Some d -> slice (concat ds) (Z.of_nat k * PL) (piece_size i (Z.of_nat k)) = d.
Proof.
  intros Hn H. pose proof PL_pos as HPL. pose proof n_pos as Hnp.
  assert (Hfull : forall k d, (Z.of_nat k < n - 1) -> nth_error ds k = Some d -> zlen d = PL).
  { intros k d Hk Hd. destruct (H k d Hd) as [E _]. rewrite E. apply piece_size_full. lia. }
  assert (Hs : forall k d, nth_error ds k = Some d -> slice (concat ds) (Z.of_nat k * PL) (piece_size i (Z.of_nat k)) = d).
  { intros k d Hd. assert (Hk : (k < List.length ds)%nat) by (apply nth_error_Some; congruence).
    unfold slice. rewrite skipn_concat.
    - rewrite (skipn_nth _ _ _ Hd). cbn [concat]. destruct (H k d Hd) as [E _]. rewrite <- E. apply firstn_zlen_app.
    - lia.
    - lia.
    - intros k' d' Hk' Hd'. apply (Hfull k'); [unfold zlen in Hn; lia|exact Hd']. }
  split; [|exact Hs]. split.
  - destruct (nth_error ds (List.length ds - 1)) as [d|] eqn:Hd; [|apply nth_error_None in Hd; unfold zlen in Hn; lia].
    rewrite (concat_length ds PL (List.length ds - 1)).
    + rewrite (skipn_nth _ _ _ Hd). rewrite skipn_all2 by lia. cbn [concat]. rewrite app_nil_r.
      destruct (H _ _ Hd) as [E _]. rewrite E. replace (Z.of_nat (List.length ds - 1)) with (n - 1) by (unfold zlen in Hn; lia).
      rewrite piece_size_last. lia.
    + lia.
    + intros k d' Hk Hd'. apply (Hfull k); [unfold zlen in Hn; lia|exact Hd'].
  - intros k Hk. destruct (nth_error ds (Z.to_nat k)) as [d|] eqn:Hd; [|apply nth_error_None in Hd; unfold zlen in Hn; lia].
    specialize (Hs _ _ Hd). rewrite Z2Nat.id in Hs by lia. rewrite Hs. specialize (H _ _ Hd). now rewrite Z2Nat.id in H by lia.
Qed.
Lemma temp_target_apart x : under_path (temps ++ [x]) (target cfg) = false /\ under_path (target cfg) (temps ++ [x]) = false.
Proof.
  split.
  - destruct (under_path _ _) eqn:E; [|easy]. apply under_path_iff in E as [r E]. unfold temps in E. rewrite <- !app_assoc in E.
    pose proof sep2 as S. rewrite E, under_path_app in S. discriminate.
  - apply (temps_aside [x]).
Qed.
Lemma moved_to_target f x : fs_ok f -> lookup (target cfg) f = None ->
  let f' := move (temps ++ [x]) (target cfg) f in
  (exists c, content cfg f' = Some c /\ whole sha1 cfg c /\
     forall k b, 0 <= k < n -> on_disk cfg f k = Some b -> slice c (k * PL) (piece_size i k) = b) ->
  fs_ok f' /\ ext f f'.
Proof.
  intros (D & N & P & T & A) Ht f' (c & C & W & Hs). destruct (temp_target_apart x) as [S1 S2].
  assert (L : forall q, under_path (target cfg) q = false -> under_path (temps ++ [x]) q = false -> lookup q f' = lookup q f).
  { intros q H1 H2. unfold f'. now rewrite lookup_move, H1, H2. }
  assert (Lp : forall r, lookup (pieces_dir cfg ++ r) f' = lookup (pieces_dir cfg ++ r) f).
  { intros r. apply L.
    - unfold pieces_dir. rewrite <- app_assoc. apply work_not_under_target.
    - destruct (under_path (temps ++ [x]) (pieces_dir cfg ++ r)) eqn:E; [|easy]. apply under_path_iff in E as [r' E]. rewrite <- app_assoc in E. symmetry in E.
      now apply (proj2 (proj1 (temps_aside ([x] ++ r')))) in E. }
  pose proof (Lp []) as Lp0. rewrite app_nil_r in Lp0.
  split.
  - repeat split.
    + right. eauto.
    + intros nm nd H. rewrite Lp in H. destruct D as [_ D]. now apply D.
    + now apply nodup_move.
    + rewrite Lp0. exact P.
    + intros E. rewrite content_target_none in C by easy. discriminate.
    + intros k b c' Hk Hc Hb. rewrite C in Hc. injection Hc as <-. symmetry. apply Hs; [exact Hk|].
      unfold on_disk. rewrite (content_target_none _ Ht). unfold piece_file in *. rewrite Lp in Hb. now rewrite Hb.
  - split; [|split; [intros c0; rewrite (content_target_none _ Ht); discriminate|]].
    2: { intros q Hq. apply L; [apply Hq|]. now apply outside_temps. }
    intros k b Hk Hb. unfold on_disk at 1. rewrite C. f_equal. now apply Hs.
Qed.
End Disk.
