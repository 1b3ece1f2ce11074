(** Assembling the finished torrent (coalescePieces). *)
From Verif Require Import GoBase GoBaseProofs Metainfo MetainfoSpec MetainfoProofs Fs FsProofs Storage StorageSpec StorageFsProofs StorageIoProofs.

(** Like [files_content], below any directory. *)
Fixpoint files_at (base : path) (f : fs) (files : list file) : option bytes :=
  match files with
  | [] => Some []
  | x :: files' =>
      match lookup (base ++ f_path x) f, files_at base f files' with
      | Some (NFile b), Some r => if zlen b =? f_length x then Some (b ++ r) else None
      | _, _ => None
      end
  end.
Lemma files_content_at cfg f l : files_content cfg f l = files_at (target cfg) f l.
Proof. induction l as [|x l IH]; [reflexivity|]. cbn. now rewrite IH. Qed.
Lemma files_at_app base f l1 l2 : files_at base f (l1 ++ l2) =
  match files_at base f l1, files_at base f l2 with Some a, Some b => Some (a ++ b) | _, _ => None end.
Proof.
  induction l1 as [|x l1 IH]; cbn; [now destruct (files_at base f l2)|]. rewrite IH.
  destruct (lookup _ f) as [[|b]|]; try reflexivity. destruct (files_at base f l1), (files_at base f l2); try reflexivity;
    destruct (zlen b =? f_length x); try reflexivity. now rewrite app_assoc.
Qed.
Lemma files_at_ext base base' f f' l : (forall x, In x l -> lookup (base' ++ f_path x) f' = lookup (base ++ f_path x) f) -> files_at base' f' l = files_at base f l.
Proof. induction l as [|x l IH]; cbn; intros H; [reflexivity|]. rewrite IH by (intros; apply H; now right). rewrite (H x) by now left. reflexivity. Qed.
Lemma files_at_kept base f f' l a : files_at base f l = Some a -> (forall q nd, lookup q f = Some nd -> lookup q f' = Some nd) -> files_at base f' l = Some a.
Proof.
  revert a; induction l as [|x l IH]; cbn; intros a H K; [exact H|]. destruct (lookup (base ++ f_path x) f) as [[|b]|] eqn:E; try discriminate.
  rewrite (K _ _ E). destruct (files_at base f l); [|discriminate]. now rewrite (IH _ eq_refl K).
Qed.
Definition total_of (l : list file) : Z := fold_right Z.add 0 (map f_length l).
Lemma files_at_length base f l a : files_at base f l = Some a -> zlen a = total_of l.
Proof.
  revert a; induction l as [|x l IH]; cbn; intros a; [now intros [= <-]|]. destruct (lookup _ f) as [[|b]|]; try discriminate.
  destruct (files_at base f l) as [r|]; [|discriminate]. destruct (zlen b =? f_length x) eqn:E; [|discriminate]. intros [= <-].
  apply Z.eqb_eq in E. rewrite zlen_app, E, (IH r eq_refl). reflexivity.
Qed.

Lemma Forall2_weaken {A B} (R R' : A -> B -> Prop) l l' : Forall2 R l l' -> (forall a b, R a b -> R' a b) -> Forall2 R' l l'.
Proof. intros H W. induction H; constructor; auto. Qed.

Section Coalesce.
Variable sha1 : bytes -> bytes.
Variable cfg : config.
Variable env : nat -> choice.
Hypothesis ok : config_ok cfg.
Notation i := (c_info cfg).
Notation n := (num_pieces i).
Notation PL := (i_piece_length i).
Notation St := (St sha1 cfg).

Lemma read_pieces_ok f ps ds :
  Forall2 (fun p d => 0 <= pc_index p /\ lookup (piece_file cfg (pc_index p)) f = Some (NFile d)) ps ds -> read_pieces cfg f ps = (concat ds, true).
Proof.
  intros H. induction H as [|p d ps ds [Hi Hl] _ IH]; [reflexivity|]. cbn [read_pieces]. rewrite piece_path_eq, Hl, IH by easy. reflexivity.
Qed.

Lemma copied_length l1 l2 (data : bytes) : 0 <= l1 -> 0 <= l2 -> firstn (Z.to_nat l1) data ++ firstn (Z.to_nat l2) (skipn (Z.to_nat l1) data) = firstn (Z.to_nat (l1 + l2)) data.
Proof.
  intros H1 H2. rewrite Z2Nat.inj_add by lia. rewrite <- (firstn_skipn (Z.to_nat l1) data) at 3. rewrite firstn_app.
  rewrite firstn_length. destruct (Nat.le_gt_cases (Z.to_nat l1) (List.length data)).
  - rewrite Nat.min_l by easy. rewrite (firstn_all2 (n := (Z.to_nat l1 + Z.to_nat l2)%nat)) by (rewrite firstn_length; lia). f_equal. f_equal. lia.
  - rewrite Nat.min_r by lia. rewrite (skipn_all2 (n := Z.to_nat l1)) by lia. rewrite !firstn_nil, !app_nil_r.
    rewrite firstn_firstn. f_equal. lia.
Qed.

Lemma t_copy_files f0 f1 m x : forall files done a data,
  NoDup (map f_path (done ++ files)) -> Forall (fun y => 0 <= f_length y) files -> (forall y, In y files -> In y (i_files i)) ->
  (forall y, In y done -> f_path y <> []) ->
  triple (fun w => St f0 f1 m w /\ lookup (temps cfg ++ [x]) (w_fs w) = Some NDir /\ files_at (temps cfg ++ [x]) (w_fs w) done = Some a)
    (copy_files env (temps cfg ++ [x]) files data)
    (fun w r => St f0 f1 m w /\ match r with
       | Ok _ => lookup (temps cfg ++ [x]) (w_fs w) = Some NDir /\
                 files_at (temps cfg ++ [x]) (w_fs w) (done ++ files) = Some (a ++ firstn (Z.to_nat (total_of files)) data)
       | Err e => e = EIO
       | Panic => False
       end).
Proof.
  set (tmp := temps cfg ++ [x]). assert (Htn : tmp <> []) by (unfold tmp; now destruct (temps cfg)).
  assert (Hasd : forall r, aside cfg (tmp ++ r)) by (intros r; unfold tmp; rewrite <- app_assoc; now apply temps_aside).
  induction files as [|y files IH]; intros done a data Hnd Hlen Hin Hdone.
  - cbn [copy_files]. apply t_ret. intros w (S & H1 & H2). split; [exact S|]. split; [exact H1|]. cbn. now rewrite !app_nil_r.
  - cbn [copy_files]. destruct (file_path_eq cfg ok tmp y (Hin y (or_introl eq_refl))) as (Efp & Hpn & Ejn).
    inversion Hlen as [|? ? Hy Hlen']; subst.
    assert (Hnoty : forall z, In z done -> f_path z <> f_path y).
    { intros z Hz E. rewrite map_app in Hnd. cbn in Hnd. apply NoDup_remove_2 in Hnd. apply Hnd. apply in_app_iff. left. rewrite <- E. now apply in_map. }
    set (D := fun f : fs => lookup tmp f = Some NDir /\ files_at tmp f done = Some a).
    apply (t_bind _ _ _ (fun w r => St f0 f1 m w /\ D (w_fs w) /\ r = Ok tt)).
    { destruct (f_path y); [congruence|]. apply t_ret. intros w (S & H1 & H2). exact (conj S (conj (conj H1 H2) eq_refl)). }
    2: { now intros w e (_ & _ & ?). } 2: { now intros w (_ & _ & ?). }
    intros ?u. rewrite Ejn, Efp.
    assert (Dput : forall f nd, D f -> D (put (tmp ++ f_path y) nd f)).
    { intros f nd [D1 D2]. split.
      - rewrite lookup_put_other; [exact D1|]. intros E. rewrite <- (app_nil_r tmp) in E at 1. apply app_inv_head in E. congruence.
      - erewrite files_at_ext; [exact D2|]. intros z Hz. apply lookup_put_other. intros E. apply app_inv_head in E. now apply Hnoty in E. }
    apply (t_bind _ _ _ (fun w r => St f0 f1 m w /\ match r with Ok _ => D (w_fs w) | Err e => e = EIO | Panic => False end)).
    { eapply t_conseq; [apply (t_act sha1 cfg env f0 f1 m D D)| |]; [|intros w (S & HD & _); now split|now auto].
      intros c f _ [D1 D2]. split.
      - unfold tmp. rewrite <- app_assoc. eapply quiet_mkdir_temp; [exact ok|apply mkdir_all_mid].
      - intros f' Hf'. apply mkdir_all_end in Hf' as [Ha _].
        split; [unfold tmp in Ha; rewrite <- app_assoc in Ha; eapply quiet_mkdir_temp; eauto|].
        assert (K : forall q nd, lookup q f = Some nd -> lookup q f' = Some nd).
        { intros q nd Hq. destruct Ha as [_ Ha]. destruct (Ha q) as [->|(E & _)]; congruence. }
        split; [now apply K|]. eapply files_at_kept; eauto. }
    2: { intros w e (S & ->). auto. } 2: { now intros w (_ & ?). }
    intros ?u. apply (t_bind _ _ _ (fun w r => St f0 f1 m w /\ match r with Ok _ => D (w_fs w) | Err e => e = EIO | Panic => False end)).
    { eapply t_conseq; [apply (t_act sha1 cfg env f0 f1 m D D)| |]; [|now auto|now auto].
      intros c f _ HD. split; [apply quiet_refl|]. cbn. intros f' Hf'.
      assert (f' = put (tmp ++ f_path y) (NFile []) f) as ->.
      { destruct (lookup _ f) as [[|]|]; [discriminate|congruence|]. destruct (is_dir _ f); congruence. }
      split; [apply quiet_put; apply Hasd|now apply Dput]. }
    2: { intros w e (S & ->). auto. } 2: { now intros w (_ & ?). }
    intros ?u.
    set (D' := fun f => D f /\ lookup (tmp ++ f_path y) f = Some (NFile (firstn (Z.to_nat (f_length y)) data))).
    apply (t_bind _ _ _ (fun w r => St f0 f1 m w /\ match r with Ok _ => D' (w_fs w) | Err e => e = EIO | Panic => False end)).
    { eapply t_conseq; [apply (t_act sha1 cfg env f0 f1 m D D')| |]; [|now auto|now auto].
      intros c f _ HD. cbn. split; [apply quiet_put; apply Hasd|]. intros f' [= <-]. split; [apply quiet_put; apply Hasd|].
      split; [now apply Dput|]. apply lookup_put_same. intros E. apply app_eq_nil in E as [E _]. congruence. }
    2: { intros w e (S & ->). auto. } 2: { now intros w (_ & ?). }
    intros ?u. apply (t_bind _ _ _ (fun w r => St f0 f1 m w /\ match r with Ok _ => D' (w_fs w) /\ (Z.to_nat (f_length y) <= List.length data)%nat | Err e => e = EIO | Panic => False end)).
    { destruct (List.length data <? Z.to_nat (f_length y))%nat eqn:El.
      - apply t_fails. intros w (S & _). auto.
      - apply t_ret. intros w (S & HD). apply Nat.ltb_ge in El. auto. }
    2: { intros w e (S & ->). auto. } 2: { now intros w (_ & ?). }
    intros ?u. eapply t_conseq; [apply (IH (done ++ [y]) (a ++ firstn (Z.to_nat (f_length y)) data) (skipn (Z.to_nat (f_length y)) data))| |].
    + now rewrite <- app_assoc.
    + assumption.
    + intros z Hz. apply Hin. now right.
    + intros z Hz. apply in_app_iff in Hz as [Hz|[<-|[]]]; auto.
    + intros w (S & ((D1 & D2) & D3) & Hl). split; [exact S|]. split; [exact D1|].
      rewrite files_at_app, D2. cbn. rewrite D3. rewrite (proj2 (Z.eqb_eq _ _)); [now rewrite app_nil_r|].
      unfold zlen. rewrite firstn_length. lia.
    + intros w r (S & H). split; [exact S|]. destruct r; auto. destruct H as [H1 H2]. split; [exact H1|].
      rewrite <- app_assoc in H2. cbn [app] in H2. rewrite H2. rewrite <- app_assoc. f_equal. f_equal. change (total_of (y :: files)) with (f_length y + total_of files).
      apply copied_length; [lia|]. apply sum_nonneg. exact Hlen'.
Qed.

Definition m_done (m : mem) : mem :=
  {| t_bitfield := t_bitfield m; t_coalesced := true; t_complete := t_complete m; t_pieces := t_pieces m; t_err := t_err m;
     t_downloaded := t_downloaded m; t_futures := list_set (t_err m) (Some None) (t_futures m) |}.
Lemma t_complete_torrent f0 f1 m : nth_error (t_futures m) (t_err m) = Some None ->
  triple (fun w => St f0 f1 m w) complete_torrent (fun w r => r = Ok tt /\ St f0 f1 (m_done m) w).
Proof.
  intros H w w' r S E. pose proof S as (S1 & S2 & S3 & S4). unfold complete_torrent, deliver, bind, get_mem, set_mem in E. cbn in E.
  rewrite S3, H in E. injection E as <- <-. split; [reflexivity|]. now repeat split; cbn; try apply S1; try apply S4.
Qed.

(** Every piece is in place. *)
Definition all_there (f : fs) (m : mem) (ds : list bytes) : Prop :=
  lookup (target cfg) f = None /\ zlen ds = n /\
  (forall k d, nth_error ds k = Some d -> verified sha1 cfg (Z.of_nat k) d /\ on_disk cfg f (Z.of_nat k) = Some d) /\
  Forall2 (fun p d => 0 <= pc_index p /\ lookup (piece_file cfg (pc_index p)) f = Some (NFile d)) (t_pieces m) ds.
Lemma all_there_read f f' m ds : all_there f m ds -> quiet cfg f f' -> read_pieces cfg f' (t_pieces m) = (concat ds, true).
Proof.
  intros (_ & _ & _ & H) (_ & _ & Q & _). apply read_pieces_ok. eapply Forall2_weaken; [exact H|]. cbn. intros p d [H1 H2]. split; [exact H1|].
  unfold piece_file in *. now rewrite Q.
Qed.
(** The two ways it ends: as before, or with the target in place. *)
Definition coalesced_post (f0 f1 : fs) (m : mem) (w : world) (r : res serr unit) : Prop :=
  match r with
  | Ok _ => exists f2 c, St f0 f2 (m_done m) w /\ ext cfg f1 f2 /\ content cfg f2 = Some c
  | Err e => e = EIO /\ exists f2, St f0 f2 m w /\ ext cfg f1 f2 /\ (f2 = f1 \/ exists c, content cfg f2 = Some c)
  | Panic => False
  end.
Lemma t_finish f0 f1 m x ds (Y : fs -> Prop) :
  all_there f1 m ds -> nth_error (t_futures m) (t_err m) = Some None ->
  (forall f, quiet cfg f1 f -> Y f -> content cfg (move (temps cfg ++ [x]) (target cfg) f) = Some (concat ds)) ->
  triple (fun w => St f0 f1 m w /\ Y (w_fs w))
    (act env (fun _ => rename (temps cfg ++ [x]) (target cfg)) ;; act env (fun c => remove_all c (pieces_dir cfg)) ;; complete_torrent)
    (coalesced_post f0 f1 m).
Proof.
  intros A Hf HY.
  apply (t_bind _ _ _ (fun w r => match r with
    | Ok _ => exists f2, St f0 f2 m w /\ ext cfg f1 f2 /\ content cfg f2 = Some (concat ds)
    | Err e => e = EIO /\ St f0 f1 m w
    | Panic => False end)).
  - intros w w' r (S & Hy) E. pose proof (St_J _ _ _ _ _ _ S) as [Jok Jext]. pose proof S as (_ & _ & _ & Q).
    destruct A as (At & An & Av & _).
    assert (Ht' : lookup (target cfg) (w_fs w) = None) by (rewrite (proj1 (proj2 Q)); [exact At|apply under_path_refl]).
    destruct (concat_whole sha1 cfg ok ds An (fun k d H => proj1 (Av k d H))) as [W Hs].
    pose proof (HY _ Q Hy) as C.
    destruct (moved_to_target sha1 cfg ok (w_fs w) x Jok Ht') as [M1 M2].
    { exists (concat ds). split; [exact C|]. split; [exact W|]. intros k b Hk Hb.
      rewrite (quiet_on_disk _ _ _ _ Q) in Hb. destruct (nth_error ds (Z.to_nat k)) as [d|] eqn:Ed; [|apply nth_error_None in Ed; unfold zlen in An; lia].
      pose proof (Hs _ _ Ed) as E1. destruct (Av _ _ Ed) as [_ E2]. rewrite Z2Nat.id in E1, E2 by lia. congruence. }
    eapply act_loud with (Y := fun f => f = move (temps cfg ++ [x]) (target cfg) (w_fs w)) in E; [|exact S|apply quiet_refl|].
    + destruct r as [u|e|]; [|destruct E as [E1 E2]; auto|exact E]. destruct E as [E Ey]. exists (w_fs w'). split; [exact E|]. rewrite Ey.
      split; [|exact C]. eapply ext_trans; [apply quiet_ext; exact Q|exact M2].
    + cbn. rewrite Ht'. intros f'. destruct (lookup (temps cfg ++ [x]) (w_fs w)) as [[|b]|]; try discriminate;
        (destruct (_ && _); [|discriminate]); intros [= <-]; (split; [|easy]); (split; [exact M1|eapply ext_trans; eauto]).
  - intros u. apply t_ex. intros f2.
    intros w w' r (S & X & C) E.
    apply (t_bind (fun w0 => w0 = w) _ _ (fun w0 r0 => match r0 with
      | Ok _ => exists f3, St f0 f3 m w0 /\ ext cfg f1 f3 /\ content cfg f3 = Some (concat ds)
      | Err e => e = EIO /\ exists f3, St f0 f3 m w0 /\ ext cfg f1 f3 /\ content cfg f3 = Some (concat ds)
      | Panic => False end)) with (Q := coalesced_post f0 f1 m) in E; [exact E| | | | |reflexivity].
    + intros w1 w1' r1 -> E1. pose proof (St_J _ _ _ _ _ _ S) as [Jok Jext]. pose proof S as (_ & S2 & S3 & Q).
      assert (C' : content cfg (w_fs w) = Some (concat ds)) by (rewrite (quiet_content _ _ _ Q); exact C).
      pose proof (pieces_filtered sha1 cfg ok _ _ Jok C') as PF.
      destruct (pieces_removed sha1 cfg _ (env (w_tick w)) _ Jok C' PF) as [(R1 & R2 & R3) (R4 & R5 & R6)].
      set (fm := ef_mid (remove_all (env (w_tick w)) (pieces_dir cfg) (w_fs w))) in *.
      assert (X' : ext cfg f1 (w_fs w)) by (eapply ext_trans; [exact X|now apply quiet_ext]).
      assert (Jm : J sha1 cfg f0 fm) by (split; [exact R1|eapply ext_trans; eauto]).
      unfold act in E1. cbv zeta in E1. fold fm in E1. destruct (if ch_fail _ then _ else _) as [f'|] eqn:Ef; injection E1 as <- <-.
      * destruct (ch_fail _); [discriminate|]. injection Ef as <-. eexists. split; [split; [|split; [|split; [exact S3|apply quiet_refl]]]|].
        -- split; [exact R4|eapply ext_trans; eauto].
        -- cbn. constructor; [split; [exact R4|eapply ext_trans; eauto]|]. constructor; auto.
        -- split; [eapply ext_trans; eauto|exact R6].
      * split; [reflexivity|]. exists fm. split; [split; [|split; [|split; [exact S3|apply quiet_refl]]]|].
        -- exact Jm.
        -- cbn. constructor; auto.
        -- split; [eapply ext_trans; eauto|exact R3].
    + intros ? w1 w1' r1 (f3 & T1 & T2 & T3) E1. eapply t_complete_torrent in E1; eauto. destruct E1 as [-> E1].
      cbn. eauto.
    + intros w1 e (-> & f3 & T1 & T2 & T3). cbn. split; [reflexivity|]. exists f3. eauto.
    + now intros w1.
  - intros w e [-> S]. cbn. split; [reflexivity|]. exists f1. split; [exact S|]. split; [apply ext_refl|now left].
  - now intros w.
Qed.
Lemma coalesced_post_cleanup f0 f1 m (c : io unit) :
  (forall g mm, triple (fun w => St f0 g mm w) c (fun w _ => St f0 g mm w)) ->
  forall r, triple (fun w => coalesced_post f0 f1 m w r) c (fun w _ => coalesced_post f0 f1 m w r).
Proof.
  intros Hc r w w' r' P E. destruct r as [u|e|]; cbn in *; [| |exact P].
  - destruct P as (f2 & cc & S & P). exists f2, cc. split; [eapply Hc; eauto|exact P].
  - destruct P as (-> & f2 & S & P). split; [reflexivity|]. exists f2. split; [eapply Hc; eauto|exact P].
Qed.
Lemma post_io f0 f1 m w : St f0 f1 m w -> coalesced_post f0 f1 m w (Err EIO).
Proof. intros S. split; [reflexivity|]. exists f1. split; [exact S|]. split; [apply ext_refl|now left]. Qed.

Lemma t_get_St f0 f1 m (P : world -> Prop) {B} (k : mem -> io B) Q : (forall w, P w -> St f0 f1 m w) -> triple P (k m) Q -> triple P (bind get_mem k) Q.
Proof. intros HP H w w' r Hw E. unfold bind, get_mem in E. destruct (HP _ Hw) as (_ & _ & Em & _). rewrite Em in E. eapply H; eauto. Qed.
Lemma t_coalesce_single f0 f1 m ds : i_files i = [] -> all_there f1 m ds -> nth_error (t_futures m) (t_err m) = Some None ->
  triple (fun w => St f0 f1 m w) (coalesce_single cfg env) (coalesced_post f0 f1 m).
Proof.
  intros Hf A Ht. unfold coalesce_single. rewrite (temp_dir_eq cfg), (target_path_eq cfg ok), (piece_dir_eq cfg ok).
  eapply t_bind; [apply (t_mkdir_temps sha1 cfg env ok f0 f1 m)|intros ?u| |].
  2: { intros w e [S ->]. now apply post_io. } 2: { now intros w [_ ?]. }
  eapply t_bind; [eapply t_conseq; [apply (t_temp_file sha1 cfg env ok f0 f1 m)| |]|intros temp| |].
  { intros w [S _]. exact S. } { intros w r H. exact H. }
  2: { intros w e [S ->]. now apply post_io. } 2: { now intros w [_ ?]. }
  cbv beta. intros w w' r (S & x & -> & Hx) E. revert w w' r S Hx E.
  assert (G : triple (fun w => St f0 f1 m w /\ lookup (temps cfg ++ [x]) (w_fs w) = Some (NFile [])) (finally
    (do m0 <- get_mem;
     do r0 <- look env (fun _ f => Some (read_pieces cfg f (t_pieces m0)));
     act env (fun c => write c (temps cfg ++ [x]) (fst r0)) ;;
     (if snd r0 then ret tt else fails EIO) ;;
     act env (fun _ => rename (temps cfg ++ [x]) (target cfg)) ;;
     act env (fun c => remove_all c (pieces_dir cfg)) ;; complete_torrent)
    (act env (fun _ => remove (temps cfg ++ [x])))) (coalesced_post f0 f1 m)).
  2: { intros w w' r S Hx E. eapply G; eauto. }
  eapply t_finally; [|apply coalesced_post_cleanup; intros g mm; apply (t_remove_temp sha1 cfg env ok f0 g mm)].
  eapply t_get_St; [intros w [S _]; exact S|].
  eapply t_bind; [eapply t_conseq; [apply (t_look sha1 cfg env f0 f1 m (fun f => True) _ (fun rr f => rr = (concat ds, true)))| |]| | |].
  { intros c f y Q _ [= <-]. eapply all_there_read; eauto. }
  { intros w [S _]. now split. } { intros w r H. exact H. }
  2: { intros w e (S & _ & ->). now apply post_io. } 2: { now intros w (_ & _ & ?). }
  intros rr. eapply t_conseq with (P' := fun w => St f0 f1 m w /\ rr = (concat ds, true)); [|now intros w (S & _ & Hr)|intros w r H; exact H].
  apply t_pure. intros ->. cbn [fst snd].
  eapply t_bind; [apply (t_write sha1 cfg env ok f0 f1 m [x])|intros ?u| |].
  2: { intros w e [S ->]. now apply post_io. } 2: { now intros w [_ ?]. }
  apply (t_bind _ _ _ (fun w r => match r with Ok _ => St f0 f1 m w /\ lookup (temps cfg ++ [x]) (w_fs w) = Some (NFile (concat ds)) | _ => False end));
    [apply t_ret; intros w H; exact H|intros ?u|easy|easy].
  eapply (t_finish f0 f1 m x ds (fun f => lookup (temps cfg ++ [x]) f = Some (NFile (concat ds)))); eauto. intros f Q Hl. unfold content. rewrite Hf. destruct (temp_target_apart cfg ok x) as [S1 S2].
  now rewrite lookup_move, under_path_refl, skipn_all, app_nil_r, Hl by easy.
Qed.
Lemma t_coalesce_multi f0 f1 m ds : i_files i <> [] -> all_there f1 m ds -> nth_error (t_futures m) (t_err m) = Some None ->
  triple (fun w => St f0 f1 m w) (coalesce_multi cfg env) (coalesced_post f0 f1 m).
Proof.
  intros Hf A Ht. unfold coalesce_multi. rewrite (temp_dir_eq cfg), (target_path_eq cfg ok), (piece_dir_eq cfg ok).
  eapply t_bind; [apply (t_mkdir_temps sha1 cfg env ok f0 f1 m)|intros ?u| |].
  2: { intros w e [S ->]. now apply post_io. } 2: { now intros w [_ ?]. }
  eapply t_bind; [eapply t_conseq; [apply (t_temp_file sha1 cfg env ok f0 f1 m)| |]|intros temp| |].
  { intros w [S _]. exact S. } { intros w r H. exact H. }
  2: { intros w e [S ->]. now apply post_io. } 2: { now intros w [_ ?]. }
  cbv beta. intros w w' r (S & x & -> & Hx) E. revert w w' r S Hx E.
  assert (G : triple (fun w => St f0 f1 m w /\ lookup (temps cfg ++ [x]) (w_fs w) = Some NDir) (finally
    (do m0 <- get_mem;
     do r0 <- look env (fun _ f => Some (read_pieces cfg f (t_pieces m0)));
     copy_files env (temps cfg ++ [x]) (i_files (the_info cfg)) (fst r0) ;;
     act env (fun _ => rename (temps cfg ++ [x]) (target cfg)) ;;
     act env (fun c => remove_all c (pieces_dir cfg)) ;; complete_torrent)
    (act env (fun c => remove_all c (temps cfg ++ [x])))) (coalesced_post f0 f1 m)).
  2: { intros w w' r S Hx E. eapply G; eauto. }
  eapply t_finally; [|apply coalesced_post_cleanup; intros g mm; apply (t_remove_all_temp sha1 cfg env ok f0 g mm)].
  eapply t_get_St; [intros w [S _]; exact S|].
  eapply t_bind; [eapply t_conseq; [apply (t_look sha1 cfg env f0 f1 m (fun f => lookup (temps cfg ++ [x]) f = Some NDir) _ (fun rr f => rr = (concat ds, true)))| |]| | |].
  { intros c f y Q _ [= <-]. eapply all_there_read; eauto. }
  { intros w [S Hx]. now split. } { intros w r H. exact H. }
  2: { intros w e (S & _ & ->). now apply post_io. } 2: { now intros w (_ & _ & ?). }
  intros rr. eapply t_conseq with (P' := fun w => (St f0 f1 m w /\ lookup (temps cfg ++ [x]) (w_fs w) = Some NDir /\ files_at (temps cfg ++ [x]) (w_fs w) [] = Some []) /\ rr = (concat ds, true)); [|now intros w (S & H1 & Hr)|intros w r H; exact H].
  apply t_pure. intros ->. cbn [fst snd]. change (the_info cfg) with i.
  destruct ok as (W & _ & _ & _ & Fp & Nd & _).
  eapply t_bind; [apply (t_copy_files f0 f1 m x (i_files i) [] [] (concat ds))|intros ?u| |].
  { exact Nd. } { apply W. } { auto. } { easy. }
  2: { intros w e [S ->]. now apply post_io. } 2: { now intros w [_ ?]. }
  eapply (t_finish f0 f1 m x ds (fun f => lookup (temps cfg ++ [x]) f = Some NDir /\
    files_at (temps cfg ++ [x]) f (i_files i) = Some (firstn (Z.to_nat (total_of (i_files i))) (concat ds)))); eauto. intros f Q [H1 H2]. unfold content. destruct (temp_target_apart cfg ok x) as [S1 S2].
  rewrite lookup_move, under_path_refl, skipn_all, app_nil_r, H1 by easy.
  rewrite files_content_at. rewrite (files_at_ext (temps cfg ++ [x]) _ f).
  - rewrite H2. assert (total_of (i_files i) = zlen (concat ds)) as ->.
    { destruct A as (_ & An & Av & _). destruct (concat_whole sha1 cfg ok ds An (fun k d H => proj1 (Av k d H))) as [[Wl _] _].
      rewrite Wl. unfold total_size. now destruct (i_files i). }
    unfold zlen. rewrite Nat2Z.id, firstn_all. now destruct (i_files i).
  - intros y Hy. rewrite lookup_move, under_path_app by easy. now rewrite skipn_app_exact.
Qed.
(** coalescePieces when every piece is complete. *)
Lemma t_coalesce_pieces f0 f1 m ds : all_there f1 m ds -> nth_error (t_futures m) (t_err m) = Some None -> t_complete m = zlen (t_pieces m) ->
  triple (fun w => St f0 f1 m w) (coalesce_pieces cfg env) (coalesced_post f0 f1 m).
Proof.
  intros A Ht Hc. unfold coalesce_pieces. eapply t_conseq with (P' := fun w => St f0 f1 m w /\ True); [|now split|intros w r H; exact H].
  eapply t_get_St; [intros w [S _]; exact S|]. rewrite Hc, Z.eqb_refl. cbn [negb]. change (the_info cfg) with i.
  eapply t_conseq with (P' := fun w => St f0 f1 m w); [|now intros w [S _]|intros w r H; exact H].
  destruct (i_files i) eqn:E; [eapply t_coalesce_single; eauto|eapply t_coalesce_multi; eauto; congruence].
Qed.
End Coalesce.
