(** GetBlock returns bytes of the pieces on disk. *)
From Verif Require Import GoBase GoBaseProofs BencDecode Metainfo MetainfoSpec MetainfoProofs
  Fs FsProofs Storage StorageSpec StorageMemSpec StorageFsProofs StorageIoProofs StorageCoalesceProofs StorageProofs.

Lemma slice_app b from x y : 0 <= from -> 0 <= x -> 0 <= y -> slice b from x ++ slice b (from + x) y = slice b from (x + y).
Proof.
  intros. unfold slice. rewrite !Z2Nat.inj_add by lia. rewrite <- skipn_add.
  set (l := skipn _ b). set (u := Z.to_nat x). set (v := Z.to_nat y). clearbody l u v. revert u; induction l as [|z l IH]; intros [|u]; cbn; try reflexivity.
  - now rewrite !firstn_nil.
  - now rewrite IH.
Qed.
Lemma slice_zero b from : slice b from 0 = [].
Proof. reflexivity. Qed.
Lemma slice_min b from len : 0 <= from -> 0 <= len -> zlen (slice b from len) = Z.max 0 (Z.min len (zlen b - from)).
Proof. intros. unfold slice, zlen. rewrite firstn_length, skipn_length. lia. Qed.
Lemma slice_clip b from len : slice b from len = slice b from (zlen (slice b from len)).
Proof.
  unfold slice, zlen. rewrite Nat2Z.id. rewrite firstn_length. set (l := skipn _ b). destruct (Nat.le_ge_cases (Z.to_nat len) (List.length l)).
  - now rewrite Nat.min_l.
  - rewrite Nat.min_r by easy. now rewrite !firstn_all2 by lia.
Qed.
(** A part of the middle. *)
Lemma slice_mid (a b c : bytes) off len : 0 <= off -> 0 <= len -> off + len <= zlen b -> slice (a ++ b ++ c) (zlen a + off) len = slice b off len.
Proof.
  intros. unfold slice. rewrite Z2Nat.inj_add by (unfold zlen; lia). rewrite <- skipn_add. unfold zlen at 1. rewrite Nat2Z.id.
  rewrite skipn_app, skipn_all, Nat.sub_diag. cbn [app]. change (skipn 0 (b ++ c)) with (b ++ c).
  rewrite skipn_app. rewrite firstn_app. rewrite skipn_length. unfold zlen in *.
  replace (Z.to_nat len - (Datatypes.length b - Z.to_nat off))%nat with 0%nat by lia. cbn [firstn]. now rewrite app_nil_r.
Qed.

(** Nothing but the number of os calls changed. *)
Definition same (w w' : world) : Prop := w_fs w' = w_fs w /\ w_past w' = w_past w /\ w_mem w' = w_mem w.

Section Get.
Variable cfg : config.
Variable env : nat -> choice.
Hypothesis ok : config_ok cfg.
Set Default Proof Using "All".
Notation i := (c_info cfg).
Notation n := (num_pieces i).
Notation PL := (i_piece_length i).

Lemma look_run {A} (q : choice -> fs -> option A) w w' r : look env q w = (w', r) ->
  same w w' /\ match r with Ok x => exists c, q c (w_fs w) = Some x | Err e => e = EIO | Panic => False end.
Proof.
  unfold look. intros [= <- <-]. split; [repeat split|]. destruct (ch_fail _); [reflexivity|].
  destruct (q (env (w_tick w)) (w_fs w)) eqn:E; eauto.
Qed.
Lemma open_run p w w' r : open_file env p w = (w', r) ->
  same w w' /\ match r with Ok b => lookup p (w_fs w) = Some (NFile b) | Err e => e = EIO | Panic => False end.
Proof.
  intros E. apply look_run in E as [S H]. split; [exact S|]. destruct r; auto. destruct H as [_ H].
  destruct (lookup p (w_fs w)) as [[|b]|]; congruence.
Qed.
Lemma same_trans a b c : same a b -> same b c -> same a c.
Proof. intros (A1 & A2 & A3) (B1 & B2 & B3). repeat split; congruence. Qed.
Lemma same_refl a : same a a.
Proof. repeat split. Qed.
Lemma read_at_spec b off len d : 0 <= off -> 0 <= len -> read_at b off len = (d, false) -> d = slice b off len /\ zlen d = len.
Proof.
  intros Ho Hl. unfold read_at. intros [= <- H]. fold (slice b off len) in *. split; [reflexivity|].
  pose proof (slice_min b off len Ho Hl). lia.
Qed.
Lemma read_at_full b off len : 0 <= off -> 0 <= len -> off + len <= zlen b -> read_at b off len = (slice b off len, false).
Proof.
  intros. unfold read_at. fold (slice b off len). rewrite (slice_length b off len) by lia. now rewrite Z.ltb_irrefl.
Qed.

Lemma multi_loop_spec f c start fin length : content cfg f = Some c -> zlen c = total_size i -> zlen c < 2 ^ 63 -> - 2 ^ 63 <= start < 2 ^ 63 -> 0 <= length ->
  let s := Z.max start 0 in
  forall files (pre rest : bytes) got w w' r, (forall x, In x files -> In x (i_files i)) ->
  files_content cfg f files = Some rest -> c = pre ++ rest -> w_fs w = f ->
  got = slice c s (zlen got) -> zlen got = Z.max 0 (Z.min (zlen pre - s) length) ->
  get_multi_loop cfg env files (zlen pre) start fin length got w = (w', r) ->
  same w w' /\ match r with
               | Ok d => d = slice c s (zlen d) /\ zlen d <= length /\ (s + length <= fin -> s + length <= zlen c -> zlen d = length)
               | Err e => e = EIO
               | Panic => False
               end.
Proof.
  intros C HT Hc Hst Hlen s. induction files as [|x files IH]; intros pre rest got w w' r Hin Hf Ec Ew Hgot Hg E; cbn [get_multi_loop] in E.
  - cbn in Hf. injection Hf as <-. rewrite app_nil_r in Ec. injection E as <- <-. split; [apply same_refl|]. split; [exact Hgot|]. split; [lia|]. intros _ H. rewrite Ec in H. lia.
  - cbn [files_content] in Hf. destruct (lookup (target cfg ++ f_path x) f) as [[|b]|] eqn:El; try discriminate.
    destruct (files_content cfg f files) as [rest'|] eqn:Ef; [|discriminate]. destruct (zlen b =? f_length x) eqn:Eb; [|discriminate]. injection Hf as <-.
    assert (Ec' : c = (pre ++ b) ++ rest') by now rewrite <- app_assoc.
    assert (Hz : zlen c = zlen pre + zlen b + zlen rest') by (rewrite Ec', !zlen_app; lia).
    pose proof (zlen_nonneg pre). pose proof (zlen_nonneg b). pose proof (zlen_nonneg rest').
    assert (Ew' : wrap_s 64 (zlen pre + f_length x) = zlen (pre ++ b)) by (rewrite zlen_app, wrap_s_small; lia). rewrite Ew' in E.
    assert (Hin' : forall y, In y files -> In y (i_files i)) by (intros y Hy; apply Hin; now right).
    destruct (fin <=? zlen pre) eqn:Efin.
    { injection E as <- <-. split; [apply same_refl|]. split; [exact Hgot|]. split; [lia|]. intros H' H''. lia. }
    destruct (start <=? zlen (pre ++ b)) eqn:Est.
    + destruct (file_path_eq cfg ok (target_path cfg) x) as (Ep & _); [apply Hin; now left|]. rewrite Ep, (target_path_eq cfg ok) in E.
      assert (Eo : (if zlen pre <? start then wrap_s 64 (start - zlen pre) else 0) = Z.max 0 (start - zlen pre)).
      { destruct (zlen pre <? start) eqn:Ep'; [rewrite wrap_s_small; lia|lia]. }
      rewrite Eo in E. set (off := Z.max 0 (start - zlen pre)) in *.
      unfold bind in E. destruct (open_file env (target cfg ++ f_path x) w) as [w1 [b'|e|]] eqn:Eopen; apply open_run in Eopen as [S1 Ho1].
      * rewrite Ew, El in Ho1. injection Ho1 as <-. rewrite (proj2 (Z.ltb_ge off 0)) in E by lia.
        unfold read_at in E. cbn [fst] in E. fold (slice b off (length - zlen got)) in E.
        pose proof (slice_min b off (length - zlen got) ltac:(lia) ltac:(lia)) as Hy. set (d := slice b off (length - zlen got)) in *.
        rewrite zlen_app in Est.
        assert (Hd : d = slice c (zlen pre + off) (zlen d)).
        { rewrite Ec. rewrite slice_mid by lia. apply slice_clip. }
        eapply IH in E; [|exact Hin'|reflexivity|exact Ec'|destruct S1 as (-> & _); exact Ew| |].
        -- destruct E as [S2 E]. split; [eapply same_trans; eauto|exact E].
        -- destruct (Z.eq_dec (zlen d) 0) as [Ez|Hnz].
           ++ assert (d = []) as -> by (destruct d; [reflexivity|rewrite zlen_cons in Ez; pose proof (zlen_nonneg d); lia]). rewrite app_nil_r. exact Hgot.
           ++ rewrite zlen_app, <- slice_app by (unfold s; lia). rewrite <- Hgot. f_equal. rewrite Hd at 1. f_equal. unfold s, off in *. lia.
        -- rewrite !zlen_app. unfold s, off in *. lia.
      * injection E as <- <-. split; [exact S1|exact Ho1].
      * easy.
    + rewrite zlen_app in Est. eapply IH in E; [exact E|exact Hin'|reflexivity|exact Ec'|exact Ew|exact Hgot|rewrite zlen_app; unfold s in *; lia].
Qed.

(** What GetBlock may return, whatever it is asked for. *)
Lemma get_from_target_spec f c idx begin length w w' r : content cfg f = Some c -> zlen c = total_size i -> w_fs w = f ->
  (match i_files i with [] => get_from_single cfg env idx begin length | _ => get_from_multi cfg env idx begin length end) w = (w', r) ->
  same w w' /\ match r with
               | Ok d => exists s, 0 <= s /\ s + length <= zlen c /\ d = slice c s length /\ 0 <= length /\ (in_piece cfg idx begin length -> s = idx * PL + begin)
               | Err e => e = EIO \/ ~ in_piece cfg idx begin length
               | Panic => ~ make_ok length = true
               end.
Proof.
  intros C Hz Ew E. destruct (sizes cfg ok) as [Hs _].
  assert (Hr : - 2 ^ 63 <= wrap_s 64 (idx * PL + begin) < 2 ^ 63) by (apply (wrap_s_range 64); lia).
  assert (Hin : in_piece cfg idx begin length -> wrap_s 64 (idx * PL + begin) = idx * PL + begin /\ 0 <= idx * PL + begin /\ idx * PL + begin + length <= zlen c).
  { intros (I1 & I2 & I3 & I4). destruct (piece_range cfg ok idx I1) as [R1 R2]. rewrite wrap_s_small; lia. }
  destruct (i_files i) as [|x0 xs] eqn:Ef.
  - unfold get_from_single, bind in E. destruct (open_file env (target_path cfg) w) as [w1 [b|e|]] eqn:Eo; apply open_run in Eo as [S1 H1].
    + unfold content in C. rewrite Ef in C. rewrite (target_path_eq cfg ok), Ew in H1. rewrite H1 in C. injection C as <-.
      change (the_info cfg) with i in E. destruct (make_ok length) eqn:Em; cbn [negb] in E; [|injection E as <- <-; split; [exact S1|easy]].
      assert (Hl : 0 <= length) by (unfold make_ok in Em; lia).
      destruct (wrap_s 64 (idx * PL + begin) <? 0) eqn:E0.
      * injection E as <- <-. split; [exact S1|]. right. intros H. apply Hin in H. lia.
      * destruct (read_at b (wrap_s 64 (idx * PL + begin)) length) as [d short] eqn:Er. destruct short; injection E as <- <-; (split; [exact S1|]); cbn.
        -- left; reflexivity.
        -- apply read_at_spec in Er as [-> Hd]; [|lia|lia]. rewrite slice_min in Hd by lia.
           destruct (Z.le_gt_cases (wrap_s 64 (idx * PL + begin)) (zlen b)) as [Hle|Hgt].
           ++ exists (wrap_s 64 (idx * PL + begin)). split; [lia|]. split; [lia|]. split; [reflexivity|]. split; [exact Hl|]. intros H. now apply Hin in H.
           ++ assert (length = 0) as -> by lia. exists 0. split; [lia|]. split; [lia|]. split; [reflexivity|]. split; [lia|]. intros H. apply Hin in H. lia.
    + injection E as <- <-. split; [exact S1|now left].
    + easy.
  - unfold get_from_multi in E. change (the_info cfg) with i in E.
    destruct (make_ok length) eqn:Em; cbn [negb] in E; [|injection E as <- <-; split; [apply same_refl|easy]].
    assert (Hl : 0 <= length) by (unfold make_ok in Em; lia). set (start := wrap_s 64 (idx * PL + begin)) in *. unfold bind in E.
    destruct (get_multi_loop cfg env (i_files i) 0 start (wrap_s 64 (start + length)) length [] w) as [w1 r1] eqn:El. 
    assert (Hfc : files_content cfg f (i_files i) = Some c). { unfold content in C. rewrite Ef in C |- *. destruct (lookup (target cfg) f) as [[|]|]; [exact C|discriminate|discriminate]. }
    change 0 with (zlen (@nil byte)) in El.
    eapply (multi_loop_spec f c start _ length C Hz ltac:(lia) Hr Hl (i_files i) [] c [] w) in El; auto.
    2: { change (zlen (@nil byte)) with 0. lia. }
    destruct El as [S1 El]. destruct r1 as [d|e|].
    + destruct El as (D1 & D2 & D3). destruct (zlen d <? length) eqn:Ed; injection E as <- <-; (split; [exact S1|]).
      * right. intros H. destruct (Hin H) as (I1 & I2 & I3). fold start in I1. assert (zlen d = length); [|lia].
        apply D3; [|lia]. rewrite wrap_s_small; lia.
      * assert (Ed' : zlen d = length) by lia. rewrite Ed' in D1.
        assert (Hbound : length = 0 \/ Z.max start 0 + length <= zlen c). { rewrite D1 in Ed'. rewrite slice_min in Ed' by lia. lia. }
        destruct (Z.le_gt_cases (Z.max start 0 + length) (zlen c)) as [Hle|Hgt].
        -- exists (Z.max start 0). split; [lia|]. split; [exact Hle|]. split; [exact D1|]. split; [exact Hl|]. intros H. destruct (Hin H) as (I1 & I2 & _). fold start in I1. lia.
        -- assert (length = 0) as -> by lia. exists 0. split; [lia|]. split; [pose proof (zlen_nonneg c); lia|]. split; [exact D1|]. split; [lia|].
           intros H. destruct (Hin H) as (I1 & I2 & I3). fold start in I1. lia.
    + injection E as <- <-. split; [exact S1|now left].
    + easy.
Qed.

Lemma get_block_spec sha1 busy f idx begin length w w' r : fs_ok sha1 cfg f -> mem_ok cfg busy f (w_mem w) -> w_fs w = f ->
  get_block cfg env idx begin length w = (w', r) ->
  same w w' /\ match r with
    | Ok d => zlen d = length /\
        (d = [] \/ (exists c s, content cfg f = Some c /\ 0 <= s /\ s + length <= zlen c /\ d = slice c s length) \/
         (exists b, 0 <= idx < n /\ on_disk cfg f idx = Some b /\ 0 <= begin /\ begin + length <= zlen b /\ d = slice b begin length)) /\
        (in_piece cfg idx begin length -> exists b, on_disk cfg f idx = Some b /\ d = slice b begin length)
    | Err e => e = EIO \/ (e = EIncompletePiece /\ 0 <= idx < n /\ on_disk cfg f idx = None) \/ ~ in_piece cfg idx begin length
    | Panic => make_ok length = false \/ ~ 0 <= idx < n
    end.
Proof.
  intros F M Ew E. unfold get_block, bind at 1, get_mem in E. pose proof M as (MI & MA & MC). pose proof F as (D & _ & _ & _ & Agr).
  destruct (t_coalesced (w_mem w)) eqn:Et.
  - destruct (content cfg f) as [c|] eqn:C; [|now destruct (MC eq_refl)].
    destruct D as [[Ht|(c' & C' & W)] _]; [rewrite content_target_none in C by easy; discriminate|]. rewrite C in C'. injection C' as <-. destruct W as [Wz _].
    change (the_info cfg) with i in E. eapply get_from_target_spec in E; eauto. destruct E as [S E]. split; [exact S|]. destruct r as [d|e|].
    + destruct E as (s & E1 & E2 & E3 & E4 & E5). split; [rewrite E3; now apply slice_length|]. split; [right; left; exists c, s; auto|]. intros H. pose proof (E5 H) as ->. unfold on_disk. rewrite C.
      eexists. split; [reflexivity|]. destruct H as (I1 & I2 & I3 & I4). destruct (piece_range cfg ok idx I1). rewrite E3. symmetry. apply slice_slice; lia.
    + destruct E as [E|E]; auto.
    + left. now destruct (make_ok length).
  - unfold bind at 1 in E. assert (Hr : ~ 0 <= idx < n \/ 0 <= idx < n) by lia. destruct Hr as [Hr|Hr].
    { rewrite (piece_at_out sha1 cfg env ok idx busy) in E by auto. injection E as <- <-. split; [apply same_refl|now right]. }
    destruct (piece_exists sha1 cfg env ok _ _ _ MI Hr) as [p Hk]. set (k := Z.to_nat idx) in *. assert (Ek : idx = Z.of_nat k) by lia. clearbody k. subst idx.
    rewrite (piece_at_in sha1 cfg env ok k p) in E by exact Hk. pose proof MI as (_ & M2 & _). destruct (M2 _ _ Hk) as (P1 & _).
    destruct (pc_coalesced p) eqn:Hc; cbn [negb] in E.
    2: { injection E as <- <-. split; [apply same_refl|]. right; left. split; [reflexivity|]. split; [exact Hr|].
         destruct (on_disk cfg f (Z.of_nat k)) eqn:Eo; [|reflexivity]. assert (pc_coalesced p = true) by (apply (MA _ _ Hk); congruence). congruence. }
    unfold get_from_piece, bind in E. rewrite P1, (piece_path_eq cfg ok) in E by lia.
    destruct (open_file env (piece_file cfg (Z.of_nat k)) w) as [w1 [b|e|]] eqn:Eo; apply open_run in Eo as [S1 H1].
    + rewrite Ew in H1. assert (Hd : on_disk cfg f (Z.of_nat k) = Some b).
      { unfold on_disk. destruct (content cfg f) as [c|] eqn:C; [|now rewrite H1]. f_equal. symmetry. now apply (Agr _ _ _ Hr eq_refl H1). }
      destruct (make_ok length) eqn:Em; cbn [negb] in E; [|injection E as <- <-; split; [exact S1|now left]].
      assert (Hl : 0 <= length) by (unfold make_ok in Em; lia).
      destruct (begin <? 0) eqn:Eb; [injection E as <- <-; split; [exact S1|now left]|].
      destruct (read_at b begin length) as [d short] eqn:Er. destruct short; injection E as <- <-; (split; [exact S1|]).
      * now left.
      * apply read_at_spec in Er as [-> Hz]; [|lia|lia]. split; [exact Hz|]. split; [|intros _; exists b; auto].
        rewrite slice_min in Hz by lia. destruct (Z.le_gt_cases (begin + length) (zlen b)) as [Hle|Hgt].
        -- right; right. exists b. repeat split; auto; lia.
        -- left. assert (length = 0) as -> by lia. reflexivity.
    + injection E as <- <-. split; [exact S1|now left].
    + easy.
Qed.
End Get.
