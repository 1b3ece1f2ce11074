(** A working disk: starting, reading, and any history of calls, crashes and restarts. *)
From Verif Require Import GoBase GoBaseProofs Bitfield BencDecode Metainfo MetainfoSpec MetainfoProofs Fs FsProofs Storage StorageSys StorageSpec StorageMemSpec StorageFsProofs StorageIoProofs StorageCoalesceProofs StorageProofs StorageGetProofs StorageLoadProofs StorageSysSpec StorageSysProofs StorageHealthSpec StorageHealthProofs.

Section Health.
Variable sha1 : bytes -> bytes.
Variable cfg : config.
Variable env : nat -> choice.
Hypothesis ok : config_ok cfg.
Hypothesis W : works env.
Hypothesis FF : files_fit cfg.
Notation i := (c_info cfg).
Notation n := (num_pieces i).
Notation PL := (i_piece_length i).
Notation ready := (ready cfg env).

Lemma look_works {A} (q : choice -> fs -> option A) w w' r : look env q w = (w', r) ->
  same w w' /\ w_tick w' = S (w_tick w) /\ r = match q (env (w_tick w)) (w_fs w) with Some x => Ok x | None => Err EIO end.
Proof. unfold look. intros [= <- <-]. split; [repeat split|]. split; [reflexivity|]. now rewrite (proj1 (proj1 W _)). Qed.

(** *** GetBlock *)
Lemma open_works p b w w' r : open_file env p w = (w', r) -> lookup p (w_fs w) = Some (NFile b) -> same w w' /\ r = Ok b.
Proof. intros E H. apply look_works in E as (S & _ & ->). now rewrite H. Qed.
Lemma multi_loop_works f start fin length : - 2 ^ 63 <= start < 2 ^ 63 -> forall files rest total got w w' r, (forall x, In x files -> In x (i_files i)) ->
  files_content cfg f files = Some rest -> w_fs w = f -> 0 <= total -> total + zlen rest < 2 ^ 63 ->
  get_multi_loop cfg env files total start fin length got w = (w', r) -> exists d, r = Ok d.
Proof.
  intros Hst. induction files as [|x files IH]; intros rest total got w w' r Hin Hf Ew H0 Hm E; cbn [get_multi_loop] in E.
  - injection E as <- <-. eauto.
  - cbn [files_content] in Hf. destruct (lookup (target cfg ++ f_path x) f) as [[|b]|] eqn:El; try discriminate.
    destruct (files_content cfg f files) as [rest'|] eqn:Ef; [|discriminate]. destruct (zlen b =? f_length x) eqn:Eb; [|discriminate]. injection Hf as <-.
    rewrite zlen_app in Hm. pose proof (zlen_nonneg b). pose proof (zlen_nonneg rest').
    assert (Ew' : wrap_s 64 (total + f_length x) = total + zlen b) by (rewrite wrap_s_small; lia). rewrite Ew' in E.
    assert (Hin' : forall y, In y files -> In y (i_files i)) by (intros y Hy; apply Hin; now right).
    destruct (fin <=? total); [injection E as <- <-; eauto|]. destruct (start <=? total + zlen b).
    + destruct (file_path_eq cfg ok (target_path cfg) x) as (Ep & _); [apply Hin; now left|]. rewrite Ep, (target_path_eq cfg ok) in E.
      unfold bind in E. destruct (open_file env (target cfg ++ f_path x) w) as [w1 r1] eqn:Eo. apply (open_works _ b) in Eo as [(S1 & _) ->]; [|now rewrite Ew].
      cbv iota in E. assert (Ho : (if total <? start then wrap_s 64 (start - total) else 0) <? 0 = false) by (destruct (total <? start) eqn:Et; [rewrite wrap_s_small|]; lia).
      rewrite Ho in E. eapply IH in E; [exact E|exact Hin'|reflexivity|now rewrite S1|lia|lia].
    + eapply IH in E; [exact E|exact Hin'|reflexivity|exact Ew|lia|lia].
Qed.
Lemma get_works busy f idx begin length w w' r : fs_ok sha1 cfg f -> mem_ok cfg busy f (w_mem w) -> w_fs w = f -> agree cfg w -> in_piece cfg idx begin length ->
  get_block cfg env idx begin length w = (w', r) -> r <> Err EIO.
Proof.
  intros F M Ew Ag In E ->. destruct (sizes cfg ok) as [Hs _]. destruct In as (I1 & I2 & I3 & I4). destruct (piece_range cfg ok idx I1) as [R1 R2].
  unfold get_block, bind at 1, get_mem in E. destruct (t_coalesced (w_mem w)) eqn:Ec.
  - destruct M as (_ & _ & MC). specialize (MC Ec). destruct (content cfg f) as [c|] eqn:C; [|easy]. pose proof F as (D & _).
    assert (Hz : zlen c = total_size i).
    { destruct D as [[D|(cc & C' & [Wz _])] _]; [apply (content_target_none cfg) in D; congruence|]. congruence. }
    change (the_info cfg) with i in E. destruct (i_files i) as [|x0 xs] eqn:Ef.
    + unfold get_from_single, bind in E. destruct (open_file env (target_path cfg) w) as [w1 r1] eqn:Eo.
      apply (open_works _ c) in Eo as [_ ->].
      2: { rewrite (target_path_eq cfg ok), Ew. unfold content in C. rewrite Ef in C. destruct (lookup (target cfg) f) as [[|]|]; congruence. }
      cbv iota in E. destruct (make_ok length); cbn [negb] in E; [|discriminate]. change (the_info cfg) with i in E.
      rewrite wrap_s_small in E by lia. rewrite (proj2 (Z.ltb_ge (idx * PL + begin) 0)) in E by lia. rewrite (read_at_full cfg env ok) in E by lia. discriminate.
    + unfold get_from_multi in E. destruct (make_ok length); cbn [negb] in E; [|discriminate]. change (the_info cfg) with i in E. unfold bind in E.
      destruct (get_multi_loop _ _ _ _ _ _ _ _ w) as [w1 r1] eqn:El. eapply (multi_loop_works f) in El; [|apply (wrap_s_range 64); lia|auto| |exact Ew|lia|].
      * destruct El as [d ->]. destruct (zlen d <? length); discriminate.
      * unfold content in C. rewrite Ef in C at 1. destruct (lookup (target cfg) f) as [[|]|]; [exact C|discriminate|discriminate].
      * lia.
  - specialize (Ag Ec). rewrite Ew in Ag. pose proof M as (MI & MA & _). destruct (piece_exists sha1 cfg env ok _ _ _ MI I1) as [p Hp].
    unfold bind at 1 in E. rewrite <- (Z2Nat.id idx) in E by lia. rewrite (piece_at_in sha1 cfg env ok _ p w Hp) in E. destruct (pc_coalesced p) eqn:Pc; cbn [negb] in E; [|discriminate].
    apply (MA _ _ Hp) in Pc. rewrite Z2Nat.id in Pc by lia. pose proof MI as (_ & M2 & _). destruct (M2 _ _ Hp) as (P1 & _). rewrite Z2Nat.id in P1 by lia.
    unfold get_from_piece, bind in E. rewrite P1, (piece_path_eq cfg ok idx (proj1 I1)) in E.
    unfold on_disk in Pc. rewrite Ag in Pc. destruct (lookup (piece_file cfg idx) f) as [[|b]|] eqn:El; try easy. pose proof F as ([_ D] & _).
    destruct (D _ _ El) as (k & b' & Hk & Hn & Hb & [Hv _]). injection Hb as <-. pose proof (n_small cfg ok). apply piece_name_inj in Hn; [|lia|lia]. subst k.
    destruct (open_file env (piece_file cfg idx) w) as [w1 r1] eqn:Eo. apply (open_works _ b) in Eo as [_ ->]; [|now rewrite Ew].
    cbv iota in E. destruct (make_ok length); cbn [negb] in E; [|discriminate]. rewrite (proj2 (Z.ltb_ge begin 0)) in E by lia. rewrite (read_at_full cfg env ok) in E by lia. discriminate.
Qed.
Lemma multi_tick files : forall total start fin length got w w' r, get_multi_loop cfg env files total start fin length got w = (w', r) -> (w_tick w <= w_tick w')%nat.
Proof.
  induction files as [|x files IH]; intros total start fin length got w w' r E; cbn [get_multi_loop] in E; [injection E as <- <-; lia|].
  destruct (fin <=? total); [injection E as <- <-; lia|]. destruct (start <=? _); [|eauto]. unfold bind in E.
  destruct (open_file env (file_path (target_path cfg) x) w) as [w1 r1] eqn:Eo. apply look_works in Eo as (_ & T & _).
  destruct r1 as [b|e|]; [|injection E as <- <-; lia|injection E as <- <-; lia]. destruct (_ <? 0); [injection E as <- <-; lia|]. apply IH in E. lia.
Qed.
Lemma get_tick k b len w w' r : get_block cfg env k b len w = (w', r) -> (w_tick w <= w_tick w')%nat.
Proof.
  unfold get_block, bind at 1, get_mem. destruct (t_coalesced (w_mem w)).
  - destruct (i_files (the_info cfg)).
    + unfold get_from_single, bind. destruct (open_file env (target_path cfg) w) as [w1 r1] eqn:Eo. apply look_works in Eo as (_ & T & _).
      destruct r1 as [x|e|]; [|intros [= <- <-]; lia|intros [= <- <-]; lia]. destruct (negb (make_ok len)); [intros [= <- <-]; lia|]. destruct (_ <? 0); [intros [= <- <-]; lia|].
      destruct (read_at _ _ _) as [d [|]]; intros [= <- <-]; lia.
    + unfold get_from_multi. destruct (negb (make_ok len)); [intros [= <- <-]; lia|]. unfold bind. destruct (get_multi_loop _ _ _ _ _ _ _ _ w) as [w1 r1] eqn:El. apply multi_tick in El.
      destruct r1 as [d|e|]; [destruct (_ <? _)|..]; intros [= <- <-]; lia.
  - unfold bind at 1, piece_at, bind at 1, get_mem. destruct (if k <? 0 then None else _) as [p|]; [|intros [= <- <-]; lia]. cbn [ret]. destruct (negb _); [intros [= <- <-]; lia|].
    unfold get_from_piece, bind. destruct (open_file env _ w) as [w1 r1] eqn:Eo. apply look_works in Eo as (_ & T & _).
    destruct r1 as [x|e|]; [|intros [= <- <-]; lia|intros [= <- <-]; lia]. destruct (negb (make_ok len)); [intros [= <- <-]; lia|]. destruct (_ <? 0); [intros [= <- <-]; lia|].
    destruct (read_at _ _ _) as [d [|]]; intros [= <- <-]; lia.
Qed.

(** *** Load *)
Lemma complete_still c : forall k w w' r, complete_all c k w = (w', r) -> w_tick w' = w_tick w /\ same_disk w w'.
Proof.
  assert (C : forall k w w' r, complete_piece k w = (w', r) -> w_tick w' = w_tick w /\ same_disk w w').
  { intros k w w' r. unfold complete_piece, piece_at, deliver, set_piece, bind, get_mem, set_mem. cbn. destruct (if k <? 0 then None else _) as [p|]; cbn.
    - destruct (nth_error (t_futures (w_mem w)) (pc_err p)) as [[|]|]; cbn; try (intros [= <- <-]; now repeat split). destruct (bf_add _ _); intros [= <- <-]; now repeat split.
    - intros [= <- <-]; now repeat split. }
  induction c as [|c IH]; intros k w w' r E; cbn [complete_all] in E; [injection E as <- <-; now repeat split|]. unfold bind in E.
  destruct (complete_piece k w) as [w1 r1] eqn:E1. apply C in E1 as (T1 & D1 & D2). destruct r1 as [u|e|]; [|injection E as <- <-; split; [exact T1|split; assumption]..].
  apply IH in E as (T2 & D3 & D4). split; [congruence|split; congruence].
Qed.
Lemma entries_works f : fs_ok sha1 cfg f -> forall names done w w' r, w_fs w = f -> loading cfg done (w_mem w) -> NoDup names ->
  (forall nm, In nm names -> exists k b, 0 <= k < n /\ nm = piece_name k /\ lookup (pieces_dir cfg ++ [nm]) f = Some (NFile b) /\ ~ In k done) ->
  load_entries cfg env names w = (w', r) -> r <> Err EIO /\ (w_tick w <= w_tick w')%nat.
Proof.
  intros F. induction names as [|nm names IH]; intros done w w' r Ew L Nd Hn E; cbn [load_entries] in E.
  - injection E as <- <-. split; [discriminate|lia].
  - destruct (Hn nm (or_introl eq_refl)) as (k & b & Hk & -> & Hl & Hd). pose proof (n_small cfg ok) as Hns. apply NoDup_cons_iff in Nd as [Nd1 Nd2].
    rewrite scan_piece in E by lia. rewrite (piece_dir_eq cfg ok) in E. unfold bind at 1 in E.
    match type of E with match ?X with _ => _ end = _ => destruct X as [w1 r1] eqn:E1 end. apply look_works in E1 as ((S1 & S2 & S3) & T & ->). rewrite Ew, Hl in E.
    unfold bind at 1 in E. unfold add_downloaded, bind at 1, get_mem, set_mem in E.
    set (w2 := {| w_fs := w_fs w1; w_past := w_past w1; w_tick := w_tick w1; w_mem := _ |}) in E.
    assert (L2 : loading cfg done (w_mem w2)) by (cbn; rewrite S3; exact L).
    destruct (loading_step sha1 cfg env ok done k w2 L2 Hk Hd) as (m3 & E3 & L3 & D3). unfold bind at 1 in E. rewrite E3 in E.
    eapply IH in E; [| |exact L3|exact Nd2|].
    + cbn in E. destruct E. split; [assumption|lia].
    + cbn. now rewrite S1.
    + intros nm Hin. destruct (Hn nm (or_intror Hin)) as (k' & b' & Hk' & -> & Hl' & Hd'). exists k', b'. split; [exact Hk'|]. split; [reflexivity|]. split; [exact Hl'|].
      intros [<-|H]; [contradiction|contradiction].
Qed.
Lemma load_works f tick w' r : fs_ok sha1 cfg f -> ready tick f -> load cfg env (booted cfg f tick) = (w', r) -> good cfg env w' r /\ (exists u, r = Ok u) /\ agree cfg w' /\ noeio (w_mem w').
Proof.
  intros F R E. assert (N : noeio (w_mem w')).
  { eapply keeps_load; [|exact E]. intros id e H. cbn in H. apply nth_error_In in H. destruct H as [H|H]; [discriminate|]. apply repeat_spec in H. discriminate. }
  pose proof (load_spec sha1 cfg env ok f tick w' r F E) as (_ & _ & LS).
  enough (good cfg env w' r /\ agree cfg w') as [G A].
  { split; [exact G|]. split; [|auto]. destruct r as [u|e|]; [eauto| |easy]. subst e. now destruct G as (_ & _ & G). }
  unfold load, bind at 1 in E. pose proof F as (D & Nd & Pd & Tp & _).
  assert (J0 : J sha1 cfg f f) by (split; [exact F|apply ext_refl]).
  match type of E with match ?X with _ => _ end = _ => destruct X as [w1 r1] eqn:E1 end. apply look_works in E1 as ((S1 & S2 & S3) & T & ->). cbn in S1, S2, S3, T. cbv iota in E.
  change (w_fs (booted cfg f tick)) with f in E. rewrite (target_path_eq cfg ok) in E.
  destruct (lookup (target cfg) f) as [nd|] eqn:Et.
  - (* the target is there *)
    set (st := match nd with NDir => _ | NFile b => _ end) in E. assert (exists size, st = Some size) as [size Es] by (destruct nd; eexists; reflexivity). rewrite Es in E. clear st Es.
    unfold bind at 1 in E. change (the_info cfg) with i in E. assert (L0 : loading cfg [] (w_mem w1)) by (rewrite S3; exact (new_mem_loading sha1 cfg env ok)).
    destruct (complete_all_run sha1 cfg env ok (List.length (i_pieces i)) 0 [] w1 L0) as (m2 & E2 & D2 & done & L2 & Hd); [easy|lia|unfold num_pieces, zlen; lia|].
    rewrite E2 in E. destruct L2 as (M2 & C2 & P2). pose proof M2 as (_ & _ & _ & M4 & _). rewrite C2 in M4.
    unfold complete_torrent, deliver, add_downloaded, bind, get_mem, set_mem in E. cbn in E. rewrite M4 in E. cbn in E. injection E as <- <-.
    split; [|intros H; discriminate]. cbn. unfold good. cbn. rewrite S1, S2, T. split; [eapply ready_later; [|exact R]; lia|]. split; [constructor|discriminate].
  - (* pieces *)
    unfold bind at 1 in E. rewrite (piece_dir_eq cfg ok) in E.
    match type of E with match ?X with _ => _ end = _ => destruct X as [w2 r2] eqn:E2 end. apply look_works in E2 as ((T1 & T2 & T3) & T4 & ->).
    rewrite S1 in T1, E. rewrite S2 in T2. rewrite S3 in T3.
    assert (Cn : content cfg f = None) by now apply content_target_none.
    assert (Hon : forall k, on_disk cfg f k = match lookup (piece_file cfg k) f with Some (NFile b) => Some b | _ => None end) by (intros k; unfold on_disk; now rewrite Cn).
    destruct (lookup (pieces_dir cfg) f) as [[|b]|] eqn:Ed; cbv iota in E.
    + destruct (names_in_spec (pieces_dir cfg) f Nd) as [Nn Hn].
      unfold bind at 1 in E. destruct (load_entries cfg env (names_in (pieces_dir cfg) f) w2) as [w3 r3] eqn:E3.
      assert (Hnames : forall nm, In nm (names_in (pieces_dir cfg) f) -> exists k b, 0 <= k < n /\ nm = piece_name k /\ lookup (pieces_dir cfg ++ [nm]) f = Some (NFile b) /\ ~ In k (@nil Z)).
      { intros nm Hin. apply Hn in Hin. destruct (lookup (pieces_dir cfg ++ [nm]) f) as [nd|] eqn:El; [|congruence]. destruct D as [_ D].
           destruct (D _ _ El) as (k & b & Hk & -> & -> & _). exists k, b. auto. }
      assert (L2 : loading cfg [] (w_mem w2)) by (rewrite T3; exact (new_mem_loading sha1 cfg env ok)).
      pose proof (entries_works f F _ [] w2 w3 r3 T1 L2 Nn Hnames E3) as [H3 T5].
      eapply (load_entries_run sha1 cfg env ok f F) with (done := []) in E3; [|exact T1|exact L2|exact Nn|exact Hnames].
      destruct E3 as [[U1 U2] E3]. rewrite T1 in U1. rewrite T2 in U2. destruct r3 as [u|e|]; [|congruence|easy].
      destruct E3 as (ks & K1 & K2 & K3 & K4). rewrite app_nil_r in K3.
      assert (S : St sha1 cfg f f (w_mem w3) w3). { split; [exact J0|]. rewrite U2. split; [constructor|]. split; [reflexivity|]. rewrite U1. apply quiet_refl. }
      enough (good cfg env w' r /\ agree cfg w' /\ exists u, r = Ok u) as (G1 & G2 & _) by auto.
      eapply (pieces_good sha1 cfg env ok W FF (fun _ => false) f f (w_mem w3) w3 w' r S); [|exact Et| | |exact E].
      * destruct K3 as (M & Hc & Hp). split; [exact M|]. split; [|congruence]. intros k p Hk. destruct (Hp _ _ Hk) as [_ ->]. pose proof (piece_bound sha1 cfg env ok _ _ _ _ M Hk) as Hkn.
        rewrite <- in_rev, Hon. pose proof (n_small cfg ok) as Hns. split.
        -- intros Hin. assert (Hin' : In (piece_name (Z.of_nat k)) (names_in (pieces_dir cfg) f)) by (rewrite K1; now apply in_map).
          apply Hn in Hin'. change (pieces_dir cfg ++ [piece_name (Z.of_nat k)]) with (piece_file cfg (Z.of_nat k)) in Hin'. destruct (lookup (piece_file cfg (Z.of_nat k)) f) as [nd|] eqn:El; [|congruence].
          destruct D as [_ D]. destruct (D _ _ El) as (k' & b & _ & _ & -> & _). easy.
        -- intros Hl. assert (Hin' : In (piece_name (Z.of_nat k)) (names_in (pieces_dir cfg) f)).
          { apply Hn. change (pieces_dir cfg ++ [piece_name (Z.of_nat k)]) with (piece_file cfg (Z.of_nat k)). destruct (lookup (piece_file cfg (Z.of_nat k)) f); [easy|congruence]. }
          rewrite K1 in Hin'. apply in_map_iff in Hin' as (k' & Ek & Hk'). rewrite Forall_forall in K2. specialize (K2 _ Hk'). apply piece_name_inj in Ek; [now subst|lia|lia].
      * rewrite U1. eapply ready_later; [|exact R]. lia.
      * rewrite U2. constructor.
    + destruct R as (_ & R & _). exfalso. eapply R; [right; apply under_path_refl|exact Ed].
    + injection E as <- <-. split; [|intros _; now rewrite T1]. split; [rewrite T1; eapply ready_later; [|exact R]; lia|]. rewrite T2. split; [constructor|discriminate].
Qed.

(** *** Any history *)
Definition calm (w w' : world) : Prop := w_fs w' = w_fs w /\ w_past w' = w_past w /\ w_tick w' = w_tick w /\ t_coalesced (w_mem w') = t_coalesced (w_mem w).
Lemma put_calm k b d w w' r : put_in_piece k b d w = (w', r) -> calm w w' /\ forall e, r = Err e -> e = EBlockExists.
Proof.
  unfold put_in_piece, piece_at, set_piece, bind, get_mem, set_mem. cbn. destruct (if k <? 0 then None else _) as [p|]; cbn; [|intros [= <- <-]; repeat split; discriminate].
  destruct (pc_coalesced p); [intros [= <- <-]; repeat split; congruence|]. set (x := match pc_blocks p with Some l => _ | None => _ end). destruct x as [l|]; [|intros [= <- <-]; repeat split; discriminate].
  destruct (if Z.quot b BL <? 0 then None else _) as [[q|]|]; intros [= <- <-]; repeat split; congruence.
Qed.
Lemma reset_calm k w w' r : reset_piece k w = (w', r) -> calm w w' /\ forall e, r <> Err e.
Proof.
  unfold reset_piece, piece_at, deliver, set_piece, bind, get_mem, set_mem. cbn. destruct (if k <? 0 then None else _) as [p|]; cbn; [|intros [= <- <-]; repeat split; discriminate].
  destruct (nth_error (t_futures (w_mem w)) (pc_err p)) as [[v|]|]; cbn; intros [= <- <-]; repeat split; discriminate.
Qed.

Definition hinv (p : proc) : Prop :=
  match p with
  | Dead f t => ready t f
  | Running w _ => ready (w_tick w) (w_fs w) /\ agree cfg w /\ noeio (w_mem w)
  end.
Definition fine (e : event) : Prop := forall c e', e = Ret c (RErr e') -> disk_error e' -> exists k b l, c = CGet k b l /\ ~ in_piece cfg k b l.
Definition step_works (t : thread) (o : outcome) : Prop :=
  ready (w_tick (world_of o)) (w_fs (world_of o)) /\ Forall (ready (w_tick (world_of o))) (w_past (world_of o)) /\
  match o with Goes w' q => agree cfg w' /\ noeio (w_mem w') /\ Forall fine (events_of (th_call t) q) | Panics _ => True end.
Lemma fine_no c e : ~ disk_error e -> fine (Ret c (RErr e)).
Proof. intros H c' e' [= _ <-] D. contradiction. Qed.
Lemma in_piece_dec k b l : in_piece cfg k b l \/ ~ in_piece cfg k b l.
Proof. unfold in_piece. lia. Qed.

Lemma next_works base w ts j t o : inv sha1 cfg base (Running w ts) -> hinv (Running w ts) -> nth_error ts j = Some t ->
  next sha1 cfg env (forget_past w) ts t = Some o -> step_works t o.
Proof.
  intros (HJ & HM & O & T) (R & Ag & Ne) Hj N. pose proof (T _ _ Hj) as TO. cbn [disk_of] in HJ.
  assert (P0 : PI sha1 cfg (fun k => piece_locked k ts) base (forget_past w)) by (split; [exact HJ|]; split; [constructor|exact HM]).
  assert (STAY : forall q, Forall fine (events_of (th_call t) q) -> step_works t (Goes (forget_past w) q)).
  { intros q H. split; [exact R|]. split; [constructor|]. split; [exact Ag|]. split; [exact Ne|exact H]. }
  assert (BAD : step_works t (Panics (forget_past w))) by (split; [exact R|]; split; [constructor|exact I]).
  assert (NO : forall c e, ~ disk_error e -> Forall fine [Ret c (RErr e)]) by (intros; constructor; [now apply fine_no|constructor]).
  assert (YES : forall c r, (forall e, r <> RErr e) -> Forall fine [Ret c r]) by (intros c r H; constructor; [|constructor]; intros c' e' [= _ E]; now apply H in E).
  assert (GET : forall k b l o, th_call t = CGet k b l -> of_bytes (get_block cfg env k b l (forget_past w)) = o -> step_works t o).
  { intros k b l o' Ec E. destruct (get_block cfg env k b l (forget_past w)) as [w' r] eqn:G. pose proof G as G1. pose proof (get_tick _ _ _ _ _ _ G) as Tk. cbn in Tk.
    apply (get_block_spec cfg env ok sha1 (fun k => piece_locked k ts) (w_fs w)) in G; [|exact (proj1 HJ)|exact HM|reflexivity].
    destruct G as ((S1 & S2 & S3) & G). cbn [forget_past w_fs w_past w_mem] in S1, S2, S3.
    assert (Rw : ready (w_tick w') (w_fs w')) by (rewrite S1; eapply ready_later; eauto).
    assert (Pw : Forall (ready (w_tick w')) (w_past w')) by (rewrite S2; constructor).
    assert (Aw : agree cfg w') by (unfold agree; rewrite S1, S3; exact Ag). assert (Nw : noeio (w_mem w')) by (rewrite S3; exact Ne).
    destruct r as [d|e|]; cbn in E; subst o'; (split; [exact Rw|]; split; [exact Pw|]); [| |exact I]; (split; [exact Aw|]; split; [exact Nw|]); cbn; rewrite ?Ec.
    - apply YES. discriminate.
    - destruct (in_piece_dec k b l) as [In|In].
      + apply NO. destruct G as [->|[[-> _]|G]]; [|intros [|]; discriminate|contradiction].
        exfalso. exact (get_works (fun k => piece_locked k ts) (w_fs w) k b l (forget_past w) w' _ (proj1 HJ) HM eq_refl Ag In G1 eq_refl).
      + constructor; [|constructor]. intros c e' [= <- <-] _. eauto 8. }
  assert (CALM : forall w' q, calm (forget_past w) w' -> noeio (w_mem w') -> Forall fine (events_of (th_call t) q) -> step_works t (Goes w' q)).
  { intros w' q (C1 & C2 & C3 & C4) N' F. cbn in C1, C2, C3, C4. unfold step_works. cbn [world_of]. rewrite C1, C2, C3. split; [exact R|]. split; [constructor|].
    split; [unfold agree; rewrite C1, C4; exact Ag|]. split; [exact N'|exact F]. }
  unfold next in N. cbn [forget_past w_mem] in N. unfold thread_ok in TO.
  destruct (th_pc t) as [| | | |id|r] eqn:Ep.
  - (* Start *) destruct (th_call t) as [k b d|k b l|k|k|] eqn:Ec.
    + injection N as <-. destruct (check_block_size i k b (zlen d)) as [e|] eqn:Ck; [|destruct (t_coalesced (w_mem w))].
      * apply STAY, NO. unfold check_block_size in Ck.
        repeat match type of Ck with (if ?x then _ else _) = _ => destruct x end; inversion Ck; subst; intros [|]; discriminate.
      * apply STAY, NO. intros [|]; discriminate.
      * apply STAY. constructor.
    + destruct (t_coalesced (w_mem w)); injection N as <-; [eapply GET; eauto|].
      destruct (piece_at k (forget_past w)) as [w' [p|e|]]; [apply STAY; constructor|exact BAD|exact BAD].
    + destruct (piece_locked k ts) eqn:Lk; [discriminate|]. injection N as <-.
      destruct (reset_piece k (forget_past w)) as [w' r] eqn:Rs. pose proof (keeps_reset k (forget_past w) _ _ Ne Rs) as N'. apply reset_calm in Rs as [C Hr].
      destruct r as [u|e|]; cbn [of_unit]; [apply CALM; [exact C|exact N'|apply YES; discriminate]|now elim (Hr e)|].
      destruct C as (C1 & C2 & C3 & _). unfold step_works. cbn [world_of]. rewrite C1, C2, C3. exact BAD.
    + destruct (piece_locked k ts) eqn:Lk; [discriminate|]. injection N as <-. destruct (piece_at k (forget_past w)) as [w' [p|e|]]; [apply STAY; constructor|exact BAD|exact BAD].
    + destruct (torrent_rlocked ts); [discriminate|]. injection N as <-. apply STAY. constructor.
  - (* PutPiece *) destruct (th_call t) as [k b d|k b l|k|k|] eqn:Ec; try contradiction.
    destruct (piece_locked k ts) eqn:Lk; [discriminate|]. injection N as <-.
    destruct (put_in_piece k b d (forget_past w)) as [w' r] eqn:Rs. pose proof (keeps_put k b d (forget_past w) _ _ Ne Rs) as N'. apply put_calm in Rs as [C Hr].
    destruct r as [u|e|]; [apply CALM; [exact C|exact N'|constructor]|apply CALM; [exact C|exact N'|apply NO; rewrite (Hr e eq_refl); intros [|]; discriminate]|].
    destruct C as (C1 & C2 & C3 & _). unfold step_works. cbn [world_of]. rewrite C1, C2, C3. exact BAD.
  - (* PutMid *) destruct (th_call t) as [k b d|k b l|k|k|] eqn:Ec; try contradiction.
    destruct (torrent_rlocked ts); [discriminate|]. injection N as <-. destruct TO as (Dk & Db).
    assert (Lk : piece_locked k ts = true) by (apply piece_locked_iff; exists j, t; rewrite Ep, Ec; auto).
    destruct (piece_exists sha1 cfg env ok _ _ k (proj1 HM) Dk) as [p Hp].
    destruct (put_finish sha1 cfg env k (forget_past w)) as [w' r] eqn:Rs. rewrite <- (Z2Nat.id k) in Rs, Lk by lia.
    destruct (finish_good sha1 cfg env ok W FF (fun k => piece_locked k ts) base (Z.to_nat k) p (forget_past w) w' r P0 Hp Lk R ltac:(constructor) Ne Rs) as ((G1 & G2 & _) & A' & N' & He).
    rewrite (Z2Nat.id k) in Lk by lia.
    destruct r as [u|e|]; cbn [of_unit]; (split; [exact G1|]; split; [exact G2|]); [| |exact I]; (split; [exact A'|]; split; [exact N'|]).
    + apply YES. discriminate.
    + apply NO. now apply He.
  - (* GetPiece *) destruct (th_call t) as [k b d|k b l|k|k|] eqn:Ec; try contradiction.
    destruct (piece_locked k ts) eqn:Lk; [discriminate|]. injection N as <-. eapply GET; eauto.
  - (* Waiting *)
    destruct (nth_error (t_futures (w_mem w)) id) as [[[e|]|]|] eqn:Fu; try discriminate; injection N as <-; apply STAY; [apply NO; eapply Ne; eauto|apply YES; discriminate].
  - discriminate.
Qed.
Lemma exec_works base p l p' es : inv sha1 cfg base p -> hinv p -> exec sha1 cfg env p l = Some (p', es) -> hinv p' /\ Forall fine es.
Proof.
  intros I H E. assert (CR : forall w j, Forall (ready (w_tick w)) (w_past w) -> crash_at w j = Some (p', es) -> hinv p' /\ Forall fine es).
  { intros w j F C. unfold crash_at in C. destruct (nth_error (w_past w) j) as [f|] eqn:Ef; [|discriminate]. injection C as <- <-. split; [|constructor]. cbn. rewrite Forall_forall in F. apply F. now apply nth_error_In in Ef. }
  destruct p as [w ts|f tick], l as [c|t| |t j| |j]; cbn [exec] in E; try discriminate.
  - injection E as <- <-. split; [exact H|constructor].
  - destruct (nth_error ts t) as [th|] eqn:Ht; [|discriminate]. destruct (next sha1 cfg env (forget_past w) ts th) as [o|] eqn:N; [|discriminate].
    destruct (next_works base w ts t th o I H Ht N) as (N1 & N2 & N3). destruct o as [w' q|w']; injection E as <- <-; cbn [world_of] in *.
    + destruct N3 as (N3 & N4 & N5). split; [split; auto|exact N5].
    + split; [exact N1|constructor].
  - injection E as <- <-. split; [exact (proj1 H)|constructor].
  - destruct (nth_error ts t) as [th|] eqn:Ht; [|discriminate]. destruct (next sha1 cfg env (forget_past w) ts th) as [o|] eqn:N; [|discriminate].
    destruct (next_works base w ts t th o I H Ht N) as (N1 & N2 & N3). eapply CR; eauto.
  - destruct (load cfg env (booted cfg f tick)) as [w r] eqn:L. apply load_works in L; [|exact (proj1 (proj1 I))|exact H]. destruct L as ((G1 & G2 & _) & (u & ->) & A & N').
    injection E as <- <-. split; [split; auto|constructor].
  - destruct (load cfg env (booted cfg f tick)) as [w r] eqn:L. apply load_works in L; [|exact (proj1 (proj1 I))|exact H]. destruct L as ((G1 & G2 & _) & _). eapply CR; eauto.
Qed.
Lemma execs_works base p ls : forall p' es, inv sha1 cfg base p -> hinv p -> execs sha1 cfg env p ls = Some (p', es) -> inv sha1 cfg base p' /\ hinv p' /\ Forall fine es.
Proof.
  revert p. induction ls as [|l ls IH]; intros p p' es I H E; cbn [execs] in E; [injection E as <- <-; auto|].
  destruct (exec sha1 cfg env p l) as [[p1 es1]|] eqn:E1; [|discriminate]. destruct (execs sha1 cfg env p1 ls) as [[p2 es2]|] eqn:E2; [|discriminate]. injection E as <- <-.
  destruct (exec_works _ _ _ _ _ I H E1) as [H1 F1]. apply (exec_inv sha1 cfg env ok base) in E1 as (I1 & _); [|exact I].
  destruct (IH _ _ _ I1 H1 E2) as (I2 & H2 & F2). split; [exact I2|]. split; [exact H2|]. now apply Forall_app.
Qed.
Lemma hinv_start f tick : roomy cfg env f -> hinv (Dead f tick).
Proof. intros (A & B & C). split; [exact A|]. split; [exact B|]. intros t q _ H. apply (C t q). unfold temps in H. now rewrite <- app_assoc in H. Qed.

Lemma works_no_error f tick ls p es c e : untouched cfg f -> roomy cfg env f -> execs sha1 cfg env (Dead f tick) ls = Some (p, es) ->
  In (Ret c (RErr e)) es -> disk_error e -> exists k b len, c = CGet k b len /\ ~ in_piece cfg k b len.
Proof.
  intros U Rm E Hin D. destruct (execs_works f _ _ _ _ (inv_start sha1 cfg env ok f tick U) (hinv_start f tick Rm) E) as (_ & _ & F).
  rewrite Forall_forall in F. exact (F _ Hin _ _ eq_refl D).
Qed.
Lemma works_starts f tick ls d t es : untouched cfg f -> roomy cfg env f -> execs sha1 cfg env (Dead f tick) ls = Some (Dead d t, es) ->
  exists w, exec sha1 cfg env (Dead d t) LStart = Some (Running w [], []).
Proof.
  intros U Rm E. destruct (execs_works f _ _ _ _ (inv_start sha1 cfg env ok f tick U) (hinv_start f tick Rm) E) as (I & H & _).
  cbn [exec]. destruct (load cfg env (booted cfg d t)) as [w r] eqn:L. apply load_works in L; [|exact (proj1 (proj1 I))|exact H]. destruct L as (_ & (u & ->) & _). eauto.
Qed.
End Health.
