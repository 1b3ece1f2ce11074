(** GetBlock on any disk and in any state. *)
From Verif Require Import GoBase GoBaseProofs BencDecode Metainfo MetainfoSpec MetainfoProofs
  Fs FsProofs Storage StorageSys StorageSpec StorageSysSpec StorageMemSpec StorageFsProofs StorageIoProofs StorageCoalesceProofs StorageProofs StorageGetProofs.

Section Read.
Variable cfg : config.
Variable env : nat -> choice.

Lemma open_any p w w' r : open_file env p w = (w', r) -> same w w' /\ match r with Ok b => lookup p (w_fs w) = Some (NFile b) | Err e => e = EIO | Panic => False end.
Proof.
  unfold open_file, look. intros [= <- <-]. split; [repeat split|]. destruct (ch_fail _); [reflexivity|]. destruct (lookup p (w_fs w)) as [[|b]|]; reflexivity.
Qed.
Lemma read_short b off len : zlen (fst (read_at b off len)) <= Z.max 0 len.
Proof. unfold read_at, zlen. cbn [fst]. rewrite firstn_length. lia. Qed.
Lemma read_at_any b off len d : 0 <= off -> 0 <= len -> read_at b off len = (d, false) -> d = slice b off len /\ zlen d = len.
Proof. intros Ho Hl. unfold read_at. intros [= <- H]. fold (slice b off len) in *. split; [reflexivity|]. pose proof (slice_min b off len Ho Hl). lia. Qed.
Lemma make_nonneg l : make_ok l = true -> 0 <= l.
Proof. unfold make_ok. rewrite andb_true_iff. lia. Qed.
Lemma multi_any length files : forall total start fin got w w' r, 0 <= length -> zlen got <= length -> get_multi_loop cfg env files total start fin length got w = (w', r) ->
  same w w' /\ match r with Ok d => zlen d <= length | Err e => True | Panic => False end.
Proof.
  induction files as [|f files IH]; intros total start fin got w w' r Hl Hg E; cbn [get_multi_loop] in E; [injection E as <- <-; split; [repeat split|exact Hg]|].
  destruct (fin <=? total); [injection E as <- <-; split; [repeat split|exact Hg]|]. destruct (start <=? _); [|now apply IH in E].
  unfold bind in E. destruct (open_file env (file_path (target_path cfg) f) w) as [w1 [b|e|]] eqn:O; apply open_any in O as [S1 O].
  - destruct (_ <? 0); [injection E as <- <-; auto|]. apply IH in E; [|exact Hl|].
    + destruct E as [S2 E]. split; [|exact E]. destruct S1 as (A1 & A2 & A3), S2 as (B1 & B2 & B3). unfold same. rewrite B1, B2, B3. auto.
    + rewrite zlen_app. pose proof (read_short b (if total <? start then wrap_s 64 (start - total) else 0) (length - zlen got)). lia.
  - injection E as <- <-. auto.
  - destruct O.
Qed.
(** The bytes of one file. *)
Definition part_of (f : fs) (p : path) (off len : Z) (d : bytes) : Prop := exists b, lookup p f = Some (NFile b) /\ off + len <= zlen b /\ d = slice b off len.
Lemma get_any k begin length w w' r : get_block cfg env k begin length w = (w', r) ->
  same w w' /\ match r with
  | Ok d => zlen d = length /\ (t_coalesced (w_mem w) = true -> i_files (c_info cfg) = [] -> 0 < length ->
              0 <= wrap_s 64 (k * i_piece_length (c_info cfg) + begin) /\ part_of (w_fs w) (target_path cfg) (wrap_s 64 (k * i_piece_length (c_info cfg) + begin)) length d)
  | Err _ => True
  | Panic => make_ok length = false \/ (t_coalesced (w_mem w) = false /\ ~ 0 <= k < zlen (t_pieces (w_mem w)))
  end.
Proof.
  unfold get_block. unfold bind at 1. unfold get_mem. destruct (t_coalesced (w_mem w)) eqn:C.
  - change (the_info cfg) with (c_info cfg). destruct (i_files (c_info cfg)) as [|x l] eqn:Fl.
    + unfold get_from_single, bind. destruct (open_file env (target_path cfg) w) as [w1 [b|e|]] eqn:O; apply open_any in O as [S1 O].
      * destruct (make_ok length) eqn:Mk; cbn [negb]; [|intros [= <- <-]; auto]. change (the_info cfg) with (c_info cfg). set (off := wrap_s 64 _). destruct (off <? 0) eqn:Ho; [intros [= <- <-]; auto|].
        destruct (read_at b off length) as [d [|]] eqn:R; intros [= <- <-]; [auto|]. split; [exact S1|]. apply make_nonneg in Mk. apply read_at_any in R as [-> R]; [|lia|exact Mk].
        split; [exact R|]. intros _ _ Hp. split; [lia|]. exists b. split; [exact O|]. split; [|reflexivity]. rewrite slice_min in R by lia. lia.
      * intros [= <- <-]. auto.
      * destruct O.
    + unfold get_from_multi. destruct (make_ok length) eqn:Mk; cbn [negb]; [|intros [= <- <-]; split; [repeat split|auto]]. unfold bind. apply make_nonneg in Mk.
      match goal with |- context [get_multi_loop ?a ?b ?c ?d ?e ?f ?g ?h w] => destruct (get_multi_loop a b c d e f g h w) as [w1 [d1|e1|]] eqn:G end; apply multi_any in G; try exact Mk; try (unfold zlen; cbn; lia).
      * destruct G as [S1 G]. destruct (zlen d1 <? length) eqn:Z1; intros [= <- <-]; [auto|]. split; [exact S1|]. split; [lia|]. discriminate.
      * intros [= <- <-]. tauto.
  - unfold piece_at, bind at 1. unfold bind at 1. unfold get_mem. destruct (if k <? 0 then None else nth_error (t_pieces (w_mem w)) (Z.to_nat k)) as [p|] eqn:P.
    + cbn [ret]. destruct (negb (pc_coalesced p)); [intros [= <- <-]; split; [repeat split|exact I]|]. unfold get_from_piece, bind.
      destruct (open_file env (piece_path cfg (pc_index p)) w) as [w1 [b|e|]] eqn:O; apply open_any in O as [S1 O].
      * destruct (make_ok length) eqn:Mk; cbn [negb]; [|intros [= <- <-]; auto]. destruct (begin <? 0) eqn:Ho; [intros [= <- <-]; auto|].
        destruct (read_at b begin length) as [d [|]] eqn:R; intros [= <- <-]; [auto|]. split; [exact S1|]. apply make_nonneg in Mk. apply read_at_any in R as [-> R]; [|lia|exact Mk]. split; [exact R|discriminate].
      * intros [= <- <-]. auto.
      * destruct O.
    + intros [= <- <-]. split; [repeat split|]. right. split; [reflexivity|]. intros H. destruct (k <? 0) eqn:K; [lia|]. apply nth_error_None in P. unfold zlen in H. lia.
Qed.
End Read.

Section Runs.
Variable sha1 : bytes -> bytes.
Variable cfg : config.
Variable env : nat -> choice.
(** What a step of a call of GetBlock does. *)
Lemma get_step w ts j th k begin length p' es : nth_error ts j = Some th -> th_call th = CGet k begin length -> exec sha1 cfg env (Running w ts) (LStep j) = Some (p', es) ->
  disk_of p' = w_fs w /\ (forall w' ts', p' = Running w' ts' -> w_mem w' = w_mem w) /\
  (forall d, In (Ret (CGet k begin length) (RBlock d)) es -> exists w', get_block cfg env k begin length (forget_past w) = (w', Ok d)) /\
  ((exists f t, p' = Dead f t) -> make_ok length = false \/ (t_coalesced (w_mem w) = false /\ ~ 0 <= k < zlen (t_pieces (w_mem w)))).
Proof.
  intros Hj Hc E. cbn [exec] in E. rewrite Hj in E. unfold next in E. rewrite Hc in E.
  assert (forall o : outcome, o = of_bytes (get_block cfg env k begin length (forget_past w)) ->
    match o with Goes w' pc' => Some (Running w' (list_set j {| th_call := CGet k begin length; th_pc := pc' |} ts), events_of (CGet k begin length) pc')
               | Panics w' => Some (Dead (w_fs w') (w_tick w'), []) end = Some (p', es) ->
    disk_of p' = w_fs w /\ (forall w' ts', p' = Running w' ts' -> w_mem w' = w_mem w) /\
    (forall d, In (Ret (CGet k begin length) (RBlock d)) es -> exists w', get_block cfg env k begin length (forget_past w) = (w', Ok d)) /\
    ((exists f t, p' = Dead f t) -> make_ok length = false \/ (t_coalesced (w_mem w) = false /\ ~ 0 <= k < zlen (t_pieces (w_mem w))))) as X.
  { intros o -> H. destruct (get_block cfg env k begin length (forget_past w)) as [w1 r] eqn:G. pose proof (get_any _ _ _ _ _ _ _ _ G) as [(S1 & _ & S3) R]. cbn in S1, S3.
    destruct r as [d|e|]; cbn [of_bytes] in H; injection H as <- <-; cbn [disk_of events_of].
    - split; [exact S1|]. split; [intros ? ? [= <- _]; exact S3|]. split; [|intros (? & ? & [=])]. intros d' [[= <-]|[]]. eauto.
    - split; [exact S1|]. split; [intros ? ? [= <- _]; exact S3|]. split; [|intros (? & ? & [=])]. intros d' [[=]|[]].
    - split; [exact S1|]. split; [intros ? ? [=]|]. split; [intros d' []|]. intros _. exact R. }
  destruct (th_pc th) eqn:Pc; try discriminate.
  - change (w_mem (forget_past w)) with (w_mem w) in E. destruct (t_coalesced (w_mem w)) eqn:C; [now apply (X _ eq_refl)|].
    unfold piece_at, bind, get_mem in E. change (w_mem (forget_past w)) with (w_mem w) in E.
    destruct (if k <? 0 then None else nth_error (t_pieces (w_mem w)) (Z.to_nat k)) as [p|] eqn:P; cbn in E; injection E as <- <-; cbn [disk_of forget_past w_fs].
    + split; [reflexivity|]. split; [intros ? ? [= <- _]; reflexivity|]. split; [intros ? []|intros (? & ? & [=])].
    + split; [reflexivity|]. split; [intros ? ? [=]|]. split; [intros ? []|]. intros _. right. split; [reflexivity|]. intros H. destruct (k <? 0) eqn:K; [lia|]. apply nth_error_None in P. unfold zlen in H. lia.
  - destruct (piece_locked k ts); [discriminate|]. now apply (X _ eq_refl).
  - destruct (nth_error _ fut) as [[[e|]|]|]; try discriminate; injection E as <- <-; cbn [disk_of forget_past w_fs events_of];
      (split; [reflexivity|]; split; [intros ? ? [= <- _]; reflexivity|]; split; [intros ? [[=]|[]]|intros (? & ? & [=])]).
Qed.
Lemma get_event p l p' es k begin length d : exec sha1 cfg env p l = Some (p', es) -> In (Ret (CGet k begin length) (RBlock d)) es ->
  exists w ts j th, p = Running w ts /\ l = LStep j /\ nth_error ts j = Some th /\ th_call th = CGet k begin length.
Proof.
  intros E H. unfold exec in E. destruct p as [w ts|f t]; destruct l as [c|j| |j x| |j]; try discriminate;
    try (destruct (load cfg env (booted cfg f t)) as [? [| |]]; injection E as <- <-; destruct H);
    try (unfold crash_at in E; destruct (nth_error _ _); [injection E as <- <-; destruct H|discriminate]);
    try (injection E as <- <-; destruct H).
  - destruct (nth_error ts j) as [th|] eqn:Hj; [|discriminate]. exists w, ts, j, th. destruct (next _ _ _ _ _ _) as [[w' pc'|w']|]; [|injection E as <- <-; destruct H|discriminate].
    injection E as <- <-. destruct pc'; cbn in H; try (exfalso; exact H). destruct H as [H|[]]. injection H as H _. auto.
  - destruct (nth_error ts j) as [th|]; [|discriminate]. destruct (next _ _ _ _ _ _) as [o|]; [|discriminate]. unfold crash_at in E. destruct (nth_error _ _); [injection E as <- <-; destruct H|discriminate].
Qed.
Lemma read_length ls : forall p p' es k begin length d, execs sha1 cfg env p ls = Some (p', es) -> In (Ret (CGet k begin length) (RBlock d)) es -> zlen d = length.
Proof.
  induction ls as [|l ls IH]; intros p p' es k begin length d E H; cbn [execs] in E; [injection E as <- <-; destruct H|].
  destruct (exec sha1 cfg env p l) as [[p1 es1]|] eqn:E1; [|discriminate]. destruct (execs sha1 cfg env p1 ls) as [[p2 es2]|] eqn:E2; [|discriminate]. injection E as <- <-.
  apply in_app_or in H as [H|H]; [|eauto]. destruct (get_event _ _ _ _ _ _ _ _ E1 H) as (w & ts & j & th & -> & -> & Hj & Hc).
  destruct (get_step _ _ _ _ _ _ _ _ _ Hj Hc E1) as (_ & _ & G & _). destruct (G _ H) as [w' G']. now apply get_any in G' as [_ [G' _]].
Qed.
End Runs.
Section Place.
Variable sha1 : bytes -> bytes.
Variable cfg : config.
Variable env : nat -> choice.
Hypothesis ok : config_ok cfg.
Lemma read_place w ts l p' es k begin length d : exec sha1 cfg env (Running w ts) l = Some (p', es) -> In (Ret (CGet k begin length) (RBlock d)) es ->
  t_coalesced (w_mem w) = true -> i_files (c_info cfg) = [] -> in_piece cfg k begin length -> 0 < length ->
  exists b, lookup (target cfg) (w_fs w) = Some (NFile b) /\ k * i_piece_length (c_info cfg) + begin + length <= zlen b /\ d = slice b (k * i_piece_length (c_info cfg) + begin) length.
Proof.
  intros E H C Fl (I1 & I2 & I3 & I4) Hp. destruct (get_event _ _ _ _ _ _ _ _ _ _ _ E H) as (w0 & ts0 & j & th & [= <- <-] & -> & Hj & Hc).
  destruct (get_step _ _ _ _ _ _ _ _ _ _ _ _ Hj Hc E) as (_ & _ & G & _). destruct (G _ H) as [w' G']. apply get_any in G' as [_ [_ G']]. destruct (G' C Fl Hp) as [_ (b & B1 & B2 & B3)].
  destruct (piece_range cfg ok k I1) as [R1 R2]. destruct (sizes cfg ok) as [Z1 Z2]. pose proof ok as [(_ & _ & Wt & _) _].
  rewrite wrap_s_small in B2, B3 by lia. rewrite (target_path_eq cfg ok) in B1. exists b. auto.
Qed.
End Place.
