(** Load finds exactly the pieces on disk. *)
From Coq Require Import Permutation.
From Verif Require Import GoBase GoBaseProofs Bitfield BitfieldSpec BitfieldProofs BencFields BencFieldsProofs Metainfo MetainfoSpec MetainfoProofs
  Fs FsProofs Storage StorageSys StorageSpec StorageMemSpec StorageFsProofs StorageIoProofs StorageCoalesceProofs StorageProofs StorageGetProofs.

Lemma nodup_flat_child d (f : fs) : NoDup (keys f) -> NoDup (flat_map (fun e => match child d (fst e) with Some n => [n] | None => [] end) f).
Proof.
  induction f as [|[q nd] f IH]; intros H; [constructor|]. unfold keys in H. cbn in H. apply NoDup_cons_iff in H as [H1 H2]. cbn [flat_map fst].
  destruct (child d q) as [x|] eqn:E; [|now apply IH]. cbn [app]. constructor; [|now apply IH].
  intros Hin. apply in_flat_map in Hin as ((q' & nd') & Hin & Hx). cbn in Hx. destruct (child d q') as [x'|] eqn:E'; [|easy]. destruct Hx as [<-|[]].
  assert (Hc : forall p y, child d p = Some y -> p = d ++ [y]).
  { intros p y. unfold child. destruct (skipn (List.length d) p) as [|z [|]] eqn:Es; try discriminate. destruct (under_path d p) eqn:Eu; [|discriminate].
    intros [= ->]. apply under_path_iff in Eu as [r ->]. rewrite skipn_app, skipn_all, Nat.sub_diag in Es. cbn in Es. now subst r. }
  apply Hc in E, E'. subst. apply H1. apply in_map_iff. eexists. split; [|exact Hin]. reflexivity.
Qed.
Lemma child_iff d p y : child d p = Some y <-> p = d ++ [y].
Proof.
  unfold child. split.
  - destruct (skipn (List.length d) p) as [|z [|]] eqn:Es; try discriminate. destruct (under_path d p) eqn:Eu; [|discriminate].
    intros [= ->]. apply under_path_iff in Eu as [r ->]. rewrite skipn_app, skipn_all, Nat.sub_diag in Es. cbn in Es. now subst r.
  - intros ->. rewrite skipn_app, skipn_all, Nat.sub_diag. cbn. now rewrite under_path_app.
Qed.
Lemma names_in_spec d f : NoDup (keys f) -> NoDup (names_in d f) /\ forall nm, In nm (names_in d f) <-> lookup (d ++ [nm]) f <> None.
Proof.
  intros H. unfold names_in. set (l := flat_map _ f).
  assert (Pm : Permutation (sort_by (fun n => n) l) l) by apply sort_by_perm.
  split; [eapply Permutation_NoDup; [symmetry; exact Pm|now apply nodup_flat_child]|].
  intros nm. transitivity (In nm l); [split; apply Permutation_in; [exact Pm|symmetry; exact Pm]|].
  unfold l. rewrite in_flat_map. split.
  - intros ((q & nd) & Hin & Hx). cbn in Hx. destruct (child d q) as [x|] eqn:E; [|easy]. destruct Hx as [->|[]]. apply child_iff in E as ->.
    intros E. assert (Hn : ~ In (d ++ [nm]) (keys f)). { apply find_none. unfold lookup in E. destruct (d ++ [nm]) eqn:Ed; [now destruct d|exact E]. }
    apply Hn. apply in_map_iff. eexists. split; [|exact Hin]. reflexivity.
  - intros Hl. destruct (lookup (d ++ [nm]) f) as [nd|] eqn:E; [|congruence]. exists (d ++ [nm], nd). split.
    + unfold lookup in E. destruct (d ++ [nm]) eqn:Ed; [now destruct d|]. now apply find_in.
    + cbn. rewrite (proj2 (child_iff d _ nm) eq_refl). now left.
Qed.

Lemma sum_perm l l' : Permutation l l' -> fold_right Z.add 0 l = fold_right Z.add 0 l'.
Proof. induction 1; cbn; lia. Qed.
Lemma sum_filter {A} (g : A -> Z) P l : (forall x, In x l -> P x = false -> g x = 0) -> fold_right Z.add 0 (map g (filter P l)) = fold_right Z.add 0 (map g l).
Proof.
  induction l as [|x l IH]; intros H; [reflexivity|]. cbn [filter map fold_right].
  destruct (P x) eqn:E; cbn [map fold_right]; rewrite IH by (intros; apply H; [now right|easy]); [reflexivity|]. rewrite (H x (or_introl eq_refl) E). lia.
Qed.
Lemma sum_map_in {A} (g : A -> Z) (h : A -> Z) l : (forall x, In x l -> g x = h x) -> fold_right Z.add 0 (map g l) = fold_right Z.add 0 (map h l).
Proof. intros H. f_equal. now apply map_ext_in. Qed.

Section Load.
Variable sha1 : bytes -> bytes.
Variable cfg : config.
Variable env : nat -> choice.
Hypothesis ok : config_ok cfg.
Set Default Proof Using "All".
Notation i := (c_info cfg).
Notation n := (num_pieces i).
Notation PL := (i_piece_length i).
Notation none := (fun _ : Z => false).

(** A Storage while Load marks pieces as complete. *)
Definition loading (done : list Z) (m : mem) : Prop :=
  mem_int cfg none m /\ t_coalesced m = false /\
  forall k p, nth_error (t_pieces m) k = Some p -> pc_blocks p = None /\ (pc_coalesced p = true <-> In (Z.of_nat k) done).
Lemma mem_int_ext busy busy' m : (forall k, busy' k = busy k) -> mem_int cfg busy m -> mem_int cfg busy' m.
Proof. intros E (M1 & M2 & M3). split; [exact M1|]. split; [|exact M3]. intros k p H. rewrite E. now apply M2. Qed.

Lemma new_pieces_nth hs : forall k j p, nth_error (new_pieces i k hs) j = Some p ->
  exists h, nth_error hs j = Some h /\ p = new_piece i (Z.of_nat (k + j)) h (S (k + j)).
Proof.
  induction hs as [|h hs IH]; intros k [|j] p H; try discriminate; cbn in H.
  - injection H as <-. exists h. split; [reflexivity|]. now rewrite Nat.add_0_r.
  - apply IH in H as (h' & H1 & ->). exists h'. split; [exact H1|]. now replace (S k + j)%nat with (k + S j)%nat by lia.
Qed.
Lemma new_pieces_len hs : forall k, List.length (new_pieces i k hs) = List.length hs.
Proof. induction hs; intros k; cbn; auto. Qed.
Lemma new_pieces_err hs : forall k, map pc_err (new_pieces i k hs) = seq (S k) (List.length hs).
Proof. induction hs as [|h hs IH]; intros k; cbn; [reflexivity|]. now rewrite IH. Qed.
Lemma new_pieces_none hs : forall k, filter pc_coalesced (new_pieces i k hs) = [].
Proof. induction hs; intros k; cbn; auto. Qed.
Lemma new_mem_loading : loading [] (new_mem i).
Proof.
  pose proof (n_pos cfg ok) as Hn.
  assert (Hp : forall k p, nth_error (t_pieces (new_mem i)) k = Some p -> pc_blocks p = None /\ pc_coalesced p = false /\ 0 <= Z.of_nat k < n /\
    exists h, nth_error (i_pieces i) k = Some h /\ p = new_piece i (Z.of_nat k) h (S k)).
  { intros k p H. cbn in H. apply new_pieces_nth in H as (h & H1 & ->). split; [reflexivity|]. split; [reflexivity|]. split; [|exists h; auto].
    assert (k < List.length (i_pieces i))%nat by (apply nth_error_Some; congruence). unfold num_pieces, zlen. lia. }
  split; [|split; [reflexivity|]].
  - destruct (bf_new_spec n) as (b & Eb & Hb1 & Hb2); [lia|].
    split; [cbn; apply new_pieces_len|]. split; [|split; [|split; [reflexivity|split; [|split]]]].
    + intros k p H. destruct (Hp _ _ H) as (_ & _ & Hk & h & Hh & ->). destruct (piece_size_eq cfg ok _ Hk) as [Es _].
      unfold piece_ok. cbn. rewrite Es. repeat split; auto; try discriminate.
      * unfold piece_hash. rewrite Nat2Z.id. symmetry. now apply nth_error_nth.
      * intros _ _. apply nth_error_repeat. apply nth_error_Some. congruence.
      * intros _ (l & Hl & _). discriminate.
    + cbn [new_mem t_err t_pieces]. rewrite new_pieces_err. change (0%nat :: seq 1 (List.length (i_pieces i))) with (seq 0 (S (List.length (i_pieces i)))). apply seq_NoDup.
    + cbn [new_mem t_bitfield]. unfold num_pieces in Eb. rewrite Eb. exact Hb1.
    + cbn [new_mem t_bitfield]. unfold num_pieces in Eb. rewrite Eb. intros j. split; [intros H; now apply Hb2 in H|].
      intros (_ & p & H & Hc). destruct (Hp _ _ H) as (_ & Hc' & _). congruence.
    + cbn [new_mem t_complete t_pieces]. unfold num_coalesced. now rewrite new_pieces_none.
  - intros k p H. destruct (Hp _ _ H) as (H1 & H2 & _). split; [exact H1|]. rewrite H2. easy.
Qed.
Lemma loading_step done k w : loading done (w_mem w) -> 0 <= k < n -> ~ In k done ->
  exists m', complete_piece k w = (with_mem w m', Ok tt) /\ loading (k :: done) m' /\ t_downloaded m' = t_downloaded (w_mem w).
Proof.
  intros (M & Hc & L) Hk Hd. destruct (piece_exists sha1 cfg env ok _ _ _ M Hk) as [p Hp].
  set (j := Z.to_nat k) in *. assert (Ek : k = Z.of_nat j) by lia. clearbody j. subst k. destruct (L _ _ Hp) as [L1 L2].
  assert (Hpc : pc_coalesced p = false) by (destruct (pc_coalesced p); [exfalso; tauto|reflexivity]).
  pose proof M as (_ & M2 & _). destruct (M2 _ _ Hp) as (_ & _ & _ & _ & _ & _ & _ & P8 & _).
  destruct (complete_piece_run sha1 cfg env ok none j p w M Hp Hpc) as (b & E1 & E2 & _).
  { apply P8; [exact Hpc|]. intros (l & Hl & _). congruence. }
  eexists. split; [exact E1|]. split; [|reflexivity]. split; [eapply mem_int_ext; [|exact E2]; intros x; unfold free; now destruct (x =? Z.of_nat j)|]. split; [exact Hc|].
  cbn. intros k q Hq. apply nth_error_list_set in Hq as [(-> & -> & _)|[Hne Hq]].
  - cbn. split; [reflexivity|]. split; [now left|easy].
  - destruct (L _ _ Hq) as [H1 H2]. split; [exact H1|]. rewrite H2. split; [now right|]. intros [E|E]; [lia|exact E].
Qed.
Lemma loading_downloaded done m d : loading done m -> loading done (with_downloaded m d).
Proof. intros (M & H). split; [exact M|exact H]. Qed.

Definition same_disk (w w' : world) : Prop := w_fs w' = w_fs w /\ w_past w' = w_past w.
Lemma complete_all_run : forall c k done w, loading done (w_mem w) -> (forall x, In x done -> x < k) -> 0 <= k -> k + Z.of_nat c <= n ->
  exists m', complete_all c k w = (with_mem w m', Ok tt) /\ t_downloaded m' = t_downloaded (w_mem w) /\
    exists done', loading done' m' /\ forall x, In x done' <-> In x done \/ k <= x < k + Z.of_nat c.
Proof.
  induction c as [|c IH]; intros k done w L Hd Hk Hn; cbn [complete_all].
  - exists (w_mem w). split; [now destruct w|]. split; [reflexivity|]. exists done. split; [exact L|]. intros x. split; [now left|]. intros [H|H]; [exact H|lia].
  - destruct (loading_step done k w L) as (m1 & E1 & L1 & D1); [lia|intros H; apply Hd in H; lia|].
    unfold bind. rewrite E1. destruct (IH (k + 1) (k :: done) (with_mem w m1)) as (m2 & E2 & D2 & done' & L2 & H2); auto; [|lia|lia|].
    { intros x [<-|H]; [lia|]. apply Hd in H. lia. }
    rewrite E2. exists m2. split; [reflexivity|]. split; [cbn in D2; congruence|]. exists done'. split; [exact L2|]. intros x. rewrite H2. cbn [In]. split; [intros [[<-|H]|H]; [right; lia|now left|right; lia]|]. intros [H|H]; [left; now right|]. destruct (Z.eq_dec k x); [left; now left|right; lia].
Qed.
Lemma load_entries_run f : fs_ok sha1 cfg f -> forall names done w w' r, w_fs w = f -> loading done (w_mem w) -> NoDup names ->
  (forall nm, In nm names -> exists k b, 0 <= k < n /\ nm = piece_name k /\ lookup (pieces_dir cfg ++ [nm]) f = Some (NFile b) /\ ~ In k done) ->
  load_entries cfg env names w = (w', r) ->
  same_disk w w' /\ match r with
    | Ok _ => exists ks, names = map piece_name ks /\ Forall (fun k => 0 <= k < n) ks /\ loading (rev ks ++ done) (w_mem w') /\
                t_downloaded (w_mem w') = t_downloaded (w_mem w) +
                  fold_right Z.add 0 (map (fun k => match lookup (piece_file cfg k) f with Some (NFile b) => zlen b | _ => 0 end) ks)
    | Err e => e = EIO
    | Panic => False
    end.
Proof.
  intros F. induction names as [|nm names IH]; intros done w w' r Ew L Nd Hn E; cbn [load_entries] in E.
  - injection E as <- <-. split; [split; reflexivity|]. exists []. split; [reflexivity|]. split; [constructor|]. split; [exact L|]. cbn. lia.
  - destruct (Hn nm (or_introl eq_refl)) as (k & b & Hk & -> & Hl & Hd). pose proof (n_small cfg ok) as Hns. apply NoDup_cons_iff in Nd as [Nd1 Nd2].
    rewrite scan_piece in E by lia. rewrite (piece_dir_eq cfg ok) in E. unfold bind at 1 in E.
    match type of E with match ?X with _ => _ end = _ => destruct X as [w1 r1] eqn:E1 end. apply (look_run cfg env ok) in E1 as [(S1 & S2 & S3) H1].
    destruct r1 as [size|e|]; [|injection E as <- <-; split; [split; assumption|exact H1]|easy].
    destruct H1 as [c H1]. rewrite Ew, Hl in H1. injection H1 as <-.
    unfold bind at 1 in E. unfold add_downloaded, bind at 1, get_mem, set_mem in E.
    set (w2 := {| w_fs := w_fs w1; w_past := w_past w1; w_tick := w_tick w1; w_mem := _ |}) in E.
    assert (L2 : loading done (w_mem w2)) by (cbn; rewrite S3; exact L).
    destruct (loading_step done k w2 L2 Hk Hd) as (m3 & E3 & L3 & D3). unfold bind at 1 in E. rewrite E3 in E.
    eapply IH in E; [| |exact L3|exact Nd2|].
    + destruct E as [[T1 T2] E]. split; [split; [rewrite T1; exact S1|rewrite T2; exact S2]|]. destruct r as [u|e|]; [|exact E|exact E].
      destruct E as (ks & K1 & K2 & K3 & K4). exists (k :: ks). split; [cbn; now rewrite K1|]. split; [now constructor|].
      split; [cbn [rev]; now rewrite <- app_assoc|]. rewrite K4. cbn [with_mem w_mem]. rewrite D3. change (pieces_dir cfg ++ [piece_name k]) with (piece_file cfg k) in Hl. cbn [map fold_right]. rewrite Hl. cbn. rewrite S3. unfold zlen. lia.
    + cbn. now rewrite S1.
    + intros nm Hin. destruct (Hn nm (or_intror Hin)) as (k' & b' & Hk' & -> & Hl' & Hd'). exists k', b'. split; [exact Hk'|]. split; [reflexivity|]. split; [exact Hl'|].
      intros [<-|H]; [contradiction|contradiction].
Qed.

Lemma sum_over (g : Z -> Z) ks : NoDup ks -> Forall (fun k => 0 <= k < n) ks -> (forall k, 0 <= k < n -> ~ In k ks -> g k = 0) ->
  fold_right Z.add 0 (map g ks) = fold_right Z.add 0 (map (fun k => g (Z.of_nat k)) (seq 0 (List.length (i_pieces i)))).
Proof.
  intros Nd Hr H0. set (all := map Z.of_nat (seq 0 (List.length (i_pieces i)))).
  assert (Hall : forall k, In k all <-> 0 <= k < n).
  { intros k. unfold all. rewrite in_map_iff. unfold num_pieces, zlen. split; [intros (x & <- & Hx); apply in_seq in Hx; lia|].
    intros Hk. exists (Z.to_nat k). split; [lia|]. apply in_seq. lia. }
  assert (Nall : NoDup all). { unfold all. apply FinFun.Injective_map_NoDup; [intros a b; apply Nat2Z.inj|apply seq_NoDup]. }
  set (mem_ks := fun k => existsb (Z.eqb k) ks).
  assert (Hmem : forall k, mem_ks k = true <-> In k ks).
  { intros k. unfold mem_ks. rewrite existsb_exists. split; [intros (x & Hx & E); apply Z.eqb_eq in E; now subst|]. intros H. exists k. split; [exact H|apply Z.eqb_refl]. }
  assert (Pm : Permutation ks (filter mem_ks all)).
  { apply NoDup_Permutation; [exact Nd|now apply NoDup_filter|]. intros k. rewrite filter_In, Hmem, Hall. rewrite Forall_forall in Hr. split; [auto|tauto]. }
  rewrite <- (map_map Z.of_nat g). fold all. rewrite <- (sum_filter g mem_ks all).
  - apply sum_perm. now apply Permutation_map.
  - intros k Hk Hm. apply Hall in Hk. apply H0; [exact Hk|]. intros Hin. apply Hmem in Hin. congruence.
Qed.
Lemma sum_sizes : forall c, Z.of_nat c <= n -> fold_right Z.add 0 (map (fun k => piece_size i (Z.of_nat k)) (seq 0 c)) = Z.min (Z.of_nat c * PL) (total_size i).
Proof.
  destruct (sizes cfg ok) as [Hs1 Hs2]. pose proof (PL_pos cfg ok). induction c as [|c IH]; intros Hc; [cbn; lia|].
  rewrite seq_S, map_app, fold_right_app. cbn [map fold_right].
  assert (Hadd : forall l z, fold_right Z.add z l = fold_right Z.add 0 l + z) by (induction l as [|a l IHl]; intros z; cbn; [lia|rewrite IHl; lia]).
  rewrite Hadd, IH by lia. cbn [plus]. unfold piece_size. nia.
Qed.
Lemma stored_whole f c : content cfg f = Some c -> zlen c = total_size i -> stored_bytes cfg f = zlen c.
Proof.
  intros C Hz. destruct (sizes cfg ok) as [Hs1 Hs2]. unfold stored_bytes.
  rewrite (sum_map_in _ (fun k => piece_size i (Z.of_nat k))).
  - rewrite sum_sizes by (unfold num_pieces, zlen; lia). unfold num_pieces, zlen in *. lia.
  - intros k Hk. apply in_seq in Hk. unfold on_disk. rewrite C.
    assert (Hkn : 0 <= Z.of_nat k < n) by (unfold num_pieces, zlen; lia). destruct (piece_range cfg ok _ Hkn). destruct (piece_size_eq cfg ok _ Hkn) as [_ ?].
    apply slice_length; lia.
Qed.

Lemma load_spec f tick w' r : fs_ok sha1 cfg f -> load cfg env (booted cfg f tick) = (w', r) ->
  J sha1 cfg f (w_fs w') /\ Forall (J sha1 cfg f) (w_past w') /\
  match r with
  | Ok _ => mem_ok cfg none (w_fs w') (w_mem w') /\ (lookup (target cfg) f <> Some NDir -> t_downloaded (w_mem w') = stored_bytes cfg f) /\
            (forall k, 0 <= k < n -> (exists p, nth_error (t_pieces (w_mem w')) (Z.to_nat k) = Some p /\ pc_coalesced p = true) <-> on_disk cfg f k <> None) /\
            ((forall k, 0 <= k < n -> on_disk cfg f k <> None) -> content cfg (w_fs w') <> None /\ t_coalesced (w_mem w') = true)
  | Err e => e = EIO
  | Panic => False
  end.
Proof.
  intros F E. unfold load, bind at 1 in E. pose proof F as (D & Nd & Pd & Tp & _).
  assert (J0 : J sha1 cfg f f) by (split; [exact F|apply ext_refl]).
  match type of E with match ?X with _ => _ end = _ => destruct X as [w1 r1] eqn:E1 end. apply (look_run cfg env ok) in E1 as [(S1 & S2 & S3) H1]. cbn in S1, S2, S3.
  destruct r1 as [st|e|]; [|injection E as <- <-; rewrite S1, S2; auto|easy]. destruct H1 as [c H1]. change (w_fs (booted cfg f tick)) with f in H1. injection H1 as H1. rewrite (target_path_eq cfg ok) in H1.
  destruct (lookup (target cfg) f) as [nd|] eqn:Et.
  - (* the target is there *)
    destruct D as [[D|(cc & C & W)] _]; [congruence|]. destruct W as [Wz _].
    assert (exists size, st = Some size /\ (nd <> NDir -> size = stored_bytes cfg f)) as (size & -> & Hsz).
    { destruct nd as [|b]; eexists; (split; [symmetry; exact H1|]); [easy|]. intros _. rewrite (stored_whole f cc C Wz).
      unfold content in C. destruct (i_files i); rewrite Et in C; [congruence|discriminate]. }
    clear H1. assert (L0 : loading [] (w_mem w1)) by (rewrite S3; exact new_mem_loading). cbv iota in E. unfold bind at 1 in E.
    destruct (complete_all_run (List.length (i_pieces i)) 0 [] w1 L0) as (m2 & E2 & D2 & done & L2 & Hd); [easy|lia|unfold num_pieces, zlen; lia|].
    change (the_info cfg) with i in E. rewrite E2 in E. destruct L2 as (M2 & C2 & P2). pose proof M2 as (_ & _ & _ & M4 & _). rewrite C2 in M4.
    assert (Hall : forall k p, nth_error (t_pieces m2) k = Some p -> pc_coalesced p = true).
    { intros k p Hk. apply (P2 _ _ Hk). apply Hd. right. pose proof (piece_bound sha1 cfg env ok _ _ _ _ M2 Hk). unfold num_pieces, zlen in *. lia. }
    unfold complete_torrent, deliver, add_downloaded, bind, get_mem, set_mem in E. cbn in E. rewrite M4 in E. cbn in E. injection E as <- <-. cbn. rewrite S1, S2.
    split; [exact J0|]. split; [constructor|].
    assert (Hcomp : t_complete m2 = zlen (t_pieces m2)).
    { pose proof M2 as (_ & _ & _ & _ & _ & _ & M7). rewrite M7. unfold num_coalesced. apply filter_all. intros p Hp. apply In_nth_error in Hp as [k Hk]. eauto. }
    split; [|split; [|split]].
    + exact (mem_ok_done sha1 cfg env ok none f m2 cc M2 C2 Hcomp C).
    + intros Hnd. assert (nd <> NDir) by congruence. rewrite D2, S3. cbn. now apply Hsz.
    + intros k Hk. destruct (piece_exists sha1 cfg env ok _ _ _ M2 Hk) as [p Hp]. unfold on_disk. rewrite C. split; [easy|]. intros _. exists p. eauto.
    + intros _. rewrite C. easy.
  - (* pieces *)
    subst st. cbv iota in E. unfold bind at 1 in E. rewrite (piece_dir_eq cfg ok) in E.
    match type of E with match ?X with _ => _ end = _ => destruct X as [w2 r2] eqn:E2 end. apply (look_run cfg env ok) in E2 as [(T1 & T2 & T3) H2].
    rewrite S1 in T1, H2. rewrite S2 in T2. rewrite S3 in T3.
    destruct r2 as [names|e|]; [|injection E as <- <-; rewrite T1, T2; auto|easy]. destruct H2 as [c2 H2].
    assert (Cn : content cfg f = None) by now apply content_target_none.
    assert (Hon : forall k, on_disk cfg f k = match lookup (piece_file cfg k) f with Some (NFile b) => Some b | _ => None end) by (intros k; unfold on_disk; now rewrite Cn).
    assert (G : forall ks m, loading ks m -> NoDup ks -> Forall (fun k => 0 <= k < n) ks -> (forall k, 0 <= k < n -> In k ks <-> on_disk cfg f k <> None) ->
              t_downloaded m = fold_right Z.add 0 (map (fun k => match lookup (piece_file cfg k) f with Some (NFile b) => zlen b | _ => 0 end) ks) ->
              mem_ok cfg none f m /\ t_downloaded m = stored_bytes cfg f /\
              (forall k, 0 <= k < n -> (exists p, nth_error (t_pieces m) (Z.to_nat k) = Some p /\ pc_coalesced p = true) <-> on_disk cfg f k <> None)).
    { intros ks m (M & Hc & Hp) Nks Rks Hks Hdl. split; [|split].
      - split; [exact M|]. split; [|congruence]. intros k p Hk. destruct (Hp _ _ Hk) as [_ ->]. apply Hks. exact (piece_bound sha1 cfg env ok _ _ _ _ M Hk).
      - rewrite Hdl. rewrite sum_over; [|exact Nks|exact Rks|].
        + unfold stored_bytes. apply sum_map_in. intros k _. rewrite Hon. now destruct (lookup (piece_file cfg (Z.of_nat k)) f) as [[|]|].
        + intros k Hk Hn. destruct (lookup (piece_file cfg k) f) as [[|b]|] eqn:El; try reflexivity. destruct Hn. apply Hks; [exact Hk|]. rewrite Hon, El. easy.
      - intros k Hk. rewrite <- (Hks k Hk). destruct (piece_exists sha1 cfg env ok _ _ _ M Hk) as [p Hpk]. destruct (Hp _ _ Hpk) as [_ H]. rewrite Z2Nat.id in H by lia.
        rewrite Hpk, <- H. split; [intros (q & [= <-] & Hq); exact Hq|]. intros Hq. eauto. }
    destruct names as [names|]; cbv iota in E.
    + assert (En : names = names_in (pieces_dir cfg) f) by (destruct (lookup (pieces_dir cfg) f) as [[|]|]; [injection H2 as <-; reflexivity|discriminate|discriminate]). subst names.
      destruct (names_in_spec (pieces_dir cfg) f Nd) as [Nn Hn].
      unfold bind at 1 in E. destruct (load_entries cfg env (names_in (pieces_dir cfg) f) w2) as [w3 r3] eqn:E3.
      eapply (load_entries_run f F) with (done := []) in E3; [|exact T1|rewrite T3; exact new_mem_loading|exact Nn|].
      2: { intros nm Hin. apply Hn in Hin. destruct (lookup (pieces_dir cfg ++ [nm]) f) as [nd|] eqn:El; [|congruence]. destruct D as [_ D].
           destruct (D _ _ El) as (k & b & Hk & -> & -> & _). exists k, b. auto. }
      destruct E3 as [[U1 U2] E3]. rewrite T1 in U1. rewrite T2 in U2. destruct r3 as [u|e|]; [|injection E as <- <-; rewrite U1, U2; auto|easy].
      destruct E3 as (ks & K1 & K2 & K3 & K4). rewrite app_nil_r in K3.
      assert (Nks : NoDup ks) by (rewrite K1 in Nn; now apply NoDup_map_inv in Nn).
      destruct (G (rev ks) (w_mem w3)) as (G1 & G2 & G3); [exact K3|now apply NoDup_rev|now apply Forall_rev| | |].
      { intros k Hk. rewrite <- in_rev, Hon. pose proof (n_small cfg ok) as Hns. split.
        - intros Hin. assert (Hin' : In (piece_name k) (names_in (pieces_dir cfg) f)) by (rewrite K1; now apply in_map).
          apply Hn in Hin'. change (pieces_dir cfg ++ [piece_name k]) with (piece_file cfg k) in Hin'. destruct (lookup (piece_file cfg k) f) as [nd|] eqn:El; [|congruence].
          destruct D as [_ D]. destruct (D _ _ El) as (k' & b & _ & _ & -> & _). easy.
        - intros Hl. assert (Hin' : In (piece_name k) (names_in (pieces_dir cfg) f)).
          { apply Hn. change (pieces_dir cfg ++ [piece_name k]) with (piece_file cfg k). destruct (lookup (piece_file cfg k) f); [easy|congruence]. }
          rewrite K1 in Hin'. apply in_map_iff in Hin' as (k' & Ek & Hk'). rewrite Forall_forall in K2. specialize (K2 _ Hk'). apply piece_name_inj in Ek; [now subst|lia|lia]. }
      { rewrite K4. rewrite T3. cbn [new_mem t_downloaded]. rewrite Z.add_0_l. apply sum_perm, Permutation_map, Permutation_rev. }
      assert (S : St sha1 cfg f f (w_mem w3) w3). { split; [exact J0|]. rewrite U2. split; [constructor|]. split; [reflexivity|]. rewrite U1. apply quiet_refl. }
      destruct (coalesce_pieces_spec sha1 cfg env ok none f f (w_mem w3) w3 w' r S G1 Et E) as (R1 & R2 & R3 & R4 & R5 & Rd & R6 & R7).
      pose proof R2 as (R2a & R2b & R2c). split; [exact R2a|]. split; [exact R2b|]. destruct r as [u'|e|].
      * split; [exact R2c|]. split; [intros _; congruence|]. split; [intros k Hk; rewrite R5; now apply G3|]. intros Hall.
        assert (Hc : t_complete (w_mem w3) = zlen (t_pieces (w_mem w3))).
        { pose proof G1 as (GI & GA & _). pose proof GI as (_ & _ & _ & _ & _ & _ & M7). rewrite M7. unfold num_coalesced. apply filter_all. intros p Hp. apply In_nth_error in Hp as [k Hk].
          apply (GA _ _ Hk). apply Hall. exact (piece_bound sha1 cfg env ok _ _ _ _ GI Hk). }
        destruct (R7 Hc) as [A1 A2]. auto.
      * destruct (Z.eq_dec (t_complete (w_mem w3)) (zlen (t_pieces (w_mem w3)))) as [Ha|Ha]; [exact (R7 Ha)|]. destruct (R6 Ha) as [_ Hr]. discriminate.
      * congruence.
    + injection E as <- <-. rewrite T1, T2. split; [exact J0|]. split; [constructor|].
      assert (Hno : forall k, 0 <= k < n -> on_disk cfg f k = None).
      { intros k Hk. rewrite Hon. destruct (lookup (piece_file cfg k) f) as [nd|] eqn:El; [|reflexivity]. exfalso. rewrite (Tp eq_refl _ _ El) in H2. discriminate. }
      destruct (G [] (w_mem w2)) as (G1 & G2 & G3); [rewrite T3; exact new_mem_loading|constructor|constructor| |rewrite T3; reflexivity|].
      { intros k Hk. rewrite (Hno k Hk). split; [easy|congruence]. }
      split; [exact G1|]. split; [auto|]. split; [exact G3|]. intros Hall. pose proof (n_pos cfg ok). destruct (Hall 0); [lia|]. apply Hno. lia.
Qed.
End Load.
