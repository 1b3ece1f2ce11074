(** The calls of a Storage keep memory and disk consistent. *)
From Verif Require Import GoBase GoBaseProofs Bitfield BitfieldSpec BitfieldProofs Metainfo MetainfoSpec MetainfoProofs
  Fs FsProofs Storage StorageSpec StorageMemSpec StorageFsProofs StorageIoProofs StorageCoalesceProofs.

(** Lists *)
Lemma nth_error_list_set {A} k j (x y : A) l : nth_error (list_set k x l) j = Some y ->
  (j = k /\ y = x /\ exists z, nth_error l k = Some z) \/ (j <> k /\ nth_error l j = Some y).
Proof.
  intros H. destruct (Nat.eq_dec k j) as [->|Hne].
  - left. assert (j < List.length l)%nat as Hj by (rewrite <- (list_set_length j x l); apply nth_error_Some; congruence).
    rewrite list_set_nth_eq in H by easy. apply nth_error_Some in Hj. destruct (nth_error l j) as [z|]; [|congruence].
    split; [easy|]. split; [congruence|eauto].
  - right. split; [congruence|]. now rewrite list_set_nth_neq in H.
Qed.
Lemma map_list_set {A B} (g : A -> B) k x l : map g (list_set k x l) = list_set k (g x) (map g l).
Proof. revert k; induction l as [|y l IH]; intros [|k]; cbn; try reflexivity. now rewrite IH. Qed.
Lemma filter_list_set {A} (P : A -> bool) k x y l : nth_error l k = Some y -> P y = false -> P x = true ->
  zlen (filter P (list_set k x l)) = zlen (filter P l) + 1.
Proof.
  revert k; induction l as [|z l IH]; intros [|k] H Hy Hx; try discriminate; cbn in *.
  - injection H as ->. rewrite Hy, Hx. rewrite zlen_cons. lia.
  - destruct (P z); rewrite ?zlen_cons, (IH k) by easy; lia.
Qed.
Lemma filter_le {A} (P : A -> bool) l : zlen (filter P l) <= zlen l.
Proof. unfold zlen. assert (List.length (filter P l) <= List.length l)%nat by (induction l; cbn; [lia|destruct (P a); cbn; lia]). lia. Qed.
Lemma filter_full {A} (P : A -> bool) l : zlen (filter P l) = zlen l -> forall x, In x l -> P x = true.
Proof.
  induction l as [|z l IH]; intros H x; [easy|]. cbn [filter] in H. pose proof (filter_le P l) as Hl.
  destruct (P z) eqn:E.
  - rewrite !zlen_cons in H. intros [<-|Hx]; [exact E|]. apply IH; [lia|exact Hx].
  - rewrite zlen_cons in H. lia.
Qed.
Lemma filter_all {A} (P : A -> bool) l : (forall x, In x l -> P x = true) -> zlen (filter P l) = zlen l.
Proof. induction l as [|z l IH]; intros H; [reflexivity|]. cbn [filter]. rewrite (H z) by now left. rewrite !zlen_cons, IH; [easy|]. intros; apply H; now right. Qed.

(** Blocks of a piece *)
Lemma num_blocks_spec s : 1 <= s -> 1 <= num_blocks s /\ BL * (num_blocks s - 1) < s <= BL * num_blocks s.
Proof.
  intros H. unfold num_blocks. pose proof (Z.quot_rem' s BL) as E. pose proof (Z.rem_bound_pos s BL ltac:(lia) ltac:(unfold BL; lia)) as R.
  unfold BL in *. destruct (Z.rem s 16384 =? 0) eqn:Er; cbn [negb]; lia.
Qed.
Lemma all_blocks_full (l : list (option bytes)) : num_some l = zlen l -> exists ds, l = map Some ds /\ all_blocks l = Some (concat ds).
Proof.
  unfold num_some. intros H. pose proof (filter_full _ _ H) as F. clear H. induction l as [|x l IH]; [exists []; auto|].
  destruct IH as (ds & E1 & E2); [intros; apply F; now right|]. specialize (F x (or_introl eq_refl)). destruct x as [d|]; [|discriminate].
  exists (d :: ds). cbn. rewrite E2, <- E1. auto.
Qed.
Lemma blocks_total s (ds : list bytes) : 1 <= s -> zlen ds = num_blocks s ->
  (forall j d, nth_error ds j = Some d -> zlen d = block_size s (Z.of_nat j)) -> zlen (concat ds) = s.
Proof.
  intros Hs Hn H. destruct (num_blocks_spec s Hs) as [H1 H2]. unfold block_size in H.
  destruct (nth_error ds (List.length ds - 1)) as [d|] eqn:Hd; [|apply nth_error_None in Hd; unfold zlen in Hn; lia].
  rewrite (concat_length ds BL (List.length ds - 1)).
  - rewrite (skipn_nth _ _ _ Hd), skipn_all2 by lia. cbn [concat]. rewrite app_nil_r, (H _ _ Hd). unfold zlen, BL in *. lia.
  - lia.
  - intros k e Hk He. rewrite (H _ _ He). unfold zlen, BL in *. lia.
Qed.

Lemma later_refl m : later m m.
Proof. repeat split; auto. intros k p H. eauto. Qed.
Lemma later_trans a b c : later a b -> later b c -> later a c.
Proof.
  intros (A1 & A2 & A3 & A4) (B1 & B2 & B3 & B4). split; [congruence|]. split; [auto|]. split; [auto|].
  intros k p H. destruct (A4 _ _ H) as (p' & H' & C' & E'). destruct (B4 _ _ H') as (p'' & H'' & C'' & E'').
  exists p''. split; [exact H''|]. split; [auto|]. destruct E' as [E'|[e E']]; [|right; exists e; now apply B3].
  destruct E'' as [E''|[e E'']]; [left; congruence|]. right. exists e. now rewrite <- E'.
Qed.
Lemma list_set_kept {A} id (v : A) l j x : nth_error l id <> Some x -> nth_error l j = Some x -> nth_error (list_set id v l) j = Some x.
Proof. intros H Hj. rewrite list_set_nth_neq; [exact Hj|]. intros ->. congruence. Qed.
Lemma list_set_same_len {A} id (v : A) l x : nth_error l id = Some x -> nth_error (list_set id v l) id = Some v.
Proof. intros H. apply list_set_nth_eq. apply nth_error_Some. congruence. Qed.

Definition with_futures (m : mem) (fu : list fut) : mem :=
  {| t_bitfield := t_bitfield m; t_coalesced := t_coalesced m; t_complete := t_complete m; t_pieces := t_pieces m; t_err := t_err m;
     t_downloaded := t_downloaded m; t_futures := fu |}.
Definition with_pieces (m : mem) (ps : list piece) : mem :=
  {| t_bitfield := t_bitfield m; t_coalesced := t_coalesced m; t_complete := t_complete m; t_pieces := ps; t_err := t_err m;
     t_downloaded := t_downloaded m; t_futures := t_futures m |}.
Definition with_downloaded (m : mem) (d : Z) : mem :=
  {| t_bitfield := t_bitfield m; t_coalesced := t_coalesced m; t_complete := t_complete m; t_pieces := t_pieces m; t_err := t_err m;
     t_downloaded := d; t_futures := t_futures m |}.
Definition with_mem (w : world) (m : mem) : world := {| w_fs := w_fs w; w_past := w_past w; w_tick := w_tick w; w_mem := m |}.
Definition free (busy : Z -> bool) (k : Z) : Z -> bool := fun j => if j =? k then false else busy j.
Definition take (busy : Z -> bool) (k : Z) : Z -> bool := fun j => if j =? k then true else busy j.
Definition done_piece (p : piece) : piece :=
  {| pc_sha1 := pc_sha1 p; pc_index := pc_index p; pc_length := pc_length p; pc_num := pc_num p;
     pc_coalesced := true; pc_complete := pc_complete p; pc_blocks := None; pc_err := pc_err p |}.
Definition m_piece_done (k : nat) (p : piece) (b : bytes) (m : mem) : mem :=
  {| t_bitfield := b; t_coalesced := t_coalesced m; t_complete := t_complete m + 1; t_pieces := list_set k (done_piece p) (t_pieces m); t_err := t_err m;
     t_downloaded := t_downloaded m; t_futures := list_set (pc_err p) (Some None) (t_futures m) |}.

Lemma sequence_some {A B} (g : A -> option B) l : (forall k x, nth_error l k = Some x -> g x <> None) -> exists ds, Forall2 (fun x d => g x = Some d) l ds.
Proof.
  induction l as [|x l IH]; intros H; [exists []; constructor|]. destruct IH as [ds IH]; [intros k y Hy; now apply (H (S k))|].
  destruct (g x) as [d|] eqn:E; [|now destruct (H O x eq_refl)]. exists (d :: ds). now constructor.
Qed.
Lemma Forall2_nth {A B} (R : A -> B -> Prop) l ds k d : Forall2 R l ds -> nth_error ds k = Some d -> exists x, nth_error l k = Some x /\ R x d.
Proof. intros H; revert k; induction H; intros [|k] E; try discriminate; cbn in *; [injection E as ->; eauto|auto]. Qed.
Lemma Forall2_len {A B} (R : A -> B -> Prop) l ds : Forall2 R l ds -> List.length l = List.length ds.
Proof. induction 1; cbn; congruence. Qed.
Lemma Forall2_strengthen {A B} (R T : A -> B -> Prop) l ds : Forall2 R l ds -> (forall k x d, nth_error l k = Some x -> R x d -> T x d) -> Forall2 T l ds.
Proof. induction 1; intros HH; constructor; [now apply (HH O)|]. apply IHForall2. intros k. apply (HH (S k)). Qed.

Lemma filter_list_set_same {A} (P : A -> bool) k x y l : nth_error l k = Some y -> P x = P y -> zlen (filter P (list_set k x l)) = zlen (filter P l).
Proof.
  revert k; induction l as [|z l IH]; intros [|k] H Hx; try discriminate; cbn in *.
  - injection H as ->. rewrite Hx. now destruct (P y).
  - destruct (P z); rewrite ?zlen_cons, (IH k) by easy; lia.
Qed.
(** The blocks of a piece after a block arrived. *)
Definition blocks_of (p : piece) : list (option bytes) := match pc_blocks p with Some l => l | None => repeat None (Z.to_nat (pc_num p)) end.
Definition put_piece (p : piece) (j : nat) (d : bytes) : piece :=
  {| pc_sha1 := pc_sha1 p; pc_index := pc_index p; pc_length := pc_length p; pc_num := pc_num p; pc_coalesced := false;
     pc_complete := pc_complete p + 1; pc_blocks := Some (list_set j (Some d) (blocks_of p)); pc_err := pc_err p |}.
Lemma num_some_repeat {A} k : num_some (repeat (@None A) k) = 0.
Proof. unfold num_some. induction k; [reflexivity|exact IHk]. Qed.
Lemma num_some_set {A} j (d : A) l : nth_error l j = Some None -> num_some (list_set j (Some d) l) = num_some l + 1.
Proof. intros H. unfold num_some. now apply (filter_list_set _ _ _ _ _ H). Qed.
Lemma num_some_hole {A} j (l : list (option A)) : nth_error l j = Some None -> num_some l < zlen l.
Proof.
  intros H. unfold num_some. set (P := fun x : option A => match x with Some _ => true | None => false end).
  pose proof (filter_le P l). destruct (Z.eq_dec (zlen (filter P l)) (zlen l)) as [E|]; [|lia].
  pose proof (filter_full _ _ E None (nth_error_In _ _ H)). discriminate.
Qed.

Section Calls.
Variable sha1 : bytes -> bytes.
Variable cfg : config.
Variable env : nat -> choice.
Hypothesis ok : config_ok cfg.
Set Default Proof Using "All".
Notation i := (c_info cfg).
Notation n := (num_pieces i).

Lemma piece_ok_ext fu fu' b k p : nth_error fu' (pc_err p) = nth_error fu (pc_err p) -> piece_ok cfg fu b k p -> piece_ok cfg fu' b k p.
Proof. intros E. unfold piece_ok. now rewrite E. Qed.
Lemma piece_at_in k p w : nth_error (t_pieces (w_mem w)) k = Some p -> piece_at (Z.of_nat k) w = (w, Ok p).
Proof. intros H. unfold piece_at, bind, get_mem. rewrite (proj2 (Z.ltb_ge _ _)) by lia. now rewrite Nat2Z.id, H. Qed.
Lemma piece_at_out j busy w : mem_int cfg busy (w_mem w) -> ~ 0 <= j < n -> piece_at j w = (w, Panic).
Proof.
  intros (Hl & _) Hj. unfold piece_at, bind, get_mem. destruct (j <? 0) eqn:E; [reflexivity|].
  rewrite (proj2 (nth_error_None _ _)); [reflexivity|]. unfold num_pieces, zlen in Hj. lia.
Qed.
Lemma piece_exists busy m j : mem_int cfg busy m -> 0 <= j < n -> exists p, nth_error (t_pieces m) (Z.to_nat j) = Some p.
Proof.
  intros (Hl & _) Hj. destruct (nth_error _ _) as [p|] eqn:E; [eauto|]. apply nth_error_None in E. unfold num_pieces, zlen in Hj. lia.
Qed.
Lemma piece_bound busy m k p : mem_int cfg busy m -> nth_error (t_pieces m) k = Some p -> 0 <= Z.of_nat k < n.
Proof. intros (Hl & _) H. assert (k < List.length (t_pieces m))%nat by (apply nth_error_Some; congruence). unfold num_pieces, zlen. lia. Qed.
Lemma deliver_run id v w : nth_error (t_futures (w_mem w)) id = Some None ->
  deliver id v w = (with_mem w (with_futures (w_mem w) (list_set id (Some v) (t_futures (w_mem w)))), Ok tt).
Proof. intros H. unfold deliver, bind, get_mem. now rewrite H. Qed.
Lemma err_inj busy m j k p q : mem_int cfg busy m -> nth_error (t_pieces m) j = Some p -> nth_error (t_pieces m) k = Some q -> pc_err p = pc_err q -> j = k.
Proof.
  intros (_ & _ & Hn & _) Hj Hk E. apply NoDup_cons_iff in Hn as [_ Hn].
  rewrite NoDup_nth_error in Hn. apply Hn; [rewrite map_length; apply nth_error_Some; congruence|].
  rewrite (map_nth_error pc_err _ _ Hj), (map_nth_error pc_err _ _ Hk). congruence.
Qed.
Lemma err_not_top busy m j p : mem_int cfg busy m -> nth_error (t_pieces m) j = Some p -> pc_err p <> t_err m.
Proof.
  intros (_ & _ & Hn & _) Hj E. apply NoDup_cons_iff in Hn as [Hn _]. apply Hn. rewrite <- E. apply in_map. eapply nth_error_In; eauto.
Qed.

(** completePiece *)
Lemma complete_piece_run busy k p w : mem_int cfg busy (w_mem w) -> nth_error (t_pieces (w_mem w)) k = Some p -> pc_coalesced p = false ->
  nth_error (t_futures (w_mem w)) (pc_err p) = Some None ->
  exists b, complete_piece (Z.of_nat k) w = (with_mem w (m_piece_done k p b (w_mem w)), Ok tt) /\
    mem_int cfg (free busy (Z.of_nat k)) (m_piece_done k p b (w_mem w)) /\ later (w_mem w) (m_piece_done k p b (w_mem w)).
Proof.
  intros M Hk Hc Hf. set (m := w_mem w) in *. pose proof M as (M1 & M2 & M3 & M4 & M5 & M6 & M7).
  pose proof (M2 _ _ Hk) as (P1 & P2 & P3 & P4 & P5 & P6 & P7 & P8 & P9).
  pose proof (piece_bound _ _ _ _ M Hk) as Hb.
  destruct (bf_add_spec (t_bitfield m) (Z.of_nat k)) as (b & Hb1 & Hb2 & Hb3); [lia|].
  exists b. split; [|split].
  - unfold complete_piece. unfold bind at 1. rewrite (piece_at_in k p) by exact Hk. unfold bind at 1. rewrite deliver_run by exact Hf.
    unfold set_piece, bind, get_mem, set_mem, m_piece_done, done_piece. cbn. rewrite Nat2Z.id, P1. fold m. rewrite Hb1. reflexivity.
  - split; [cbn; now rewrite list_set_length|]. split; [|split; [|split; [|split; [|split]]]].
    + cbn. intros j q Hj. apply nth_error_list_set in Hj as [(-> & -> & _)|[Hne Hj]].
      * unfold free. rewrite Z.eqb_refl. unfold piece_ok. cbn. repeat split; auto; try discriminate.
        intros _. eapply list_set_same_len; eauto.
      * unfold free. rewrite (proj2 (Z.eqb_neq _ _)) by lia. eapply piece_ok_ext; [|apply M2; exact Hj].
        apply list_set_nth_neq. intros E. symmetry in E. eapply err_inj in E; eauto.
    + cbn. rewrite map_list_set. cbn. rewrite list_set_same; [exact M3|]. now apply map_nth_error.
    + cbn. rewrite list_set_nth_neq; [exact M4|]. eapply err_not_top; eauto.
    + cbn. rewrite Hb2. exact M5.
    + cbn. intros j. rewrite Hb3, M6. split.
      * intros [->|(H0 & q & Hq & Hqc)].
        -- split; [lia|]. rewrite Nat2Z.id. exists (done_piece p). split; [eapply list_set_same_len; eauto|reflexivity].
        -- split; [exact H0|]. exists q. split; [|exact Hqc]. rewrite list_set_nth_neq; [exact Hq|]. intros E. rewrite E in Hk. congruence.
      * intros (H0 & q & Hq & Hqc). apply nth_error_list_set in Hq as [(E & -> & _)|[Hne Hq]]; [left; lia|]. right. eauto.
    + cbn. unfold num_coalesced. rewrite (filter_list_set _ _ _ _ _ Hk) by easy. unfold num_coalesced in M7. now rewrite M7.
  - split; [reflexivity|]. split; [auto|]. split; cbn.
    + intros id v Hid. rewrite list_set_nth_neq; [exact Hid|]. intros <-. fold m in Hf. congruence.
    + intros j q Hj. destruct (Nat.eq_dec j k) as [->|Hne].
      * exists (done_piece p). split; [eapply list_set_same_len; eauto|]. split; [easy|]. left. cbn. congruence.
      * exists q. rewrite list_set_nth_neq by congruence. auto.
Qed.

(** Memory and disk *)
Lemma mem_ok_quiet busy f f' m : quiet cfg f f' -> mem_ok cfg busy f m -> mem_ok cfg busy f' m.
Proof.
  intros Q (M & D & C). split; [exact M|]. split.
  - intros k p H. rewrite (quiet_on_disk _ _ _ _ Q). now apply D.
  - rewrite (quiet_content _ _ _ Q). exact C.
Qed.
Lemma mem_ok_busy busy busy' f m : (forall k, 0 <= k < n -> busy' k = busy k) -> mem_ok cfg busy f m -> mem_ok cfg busy' f m.
Proof.
  intros E (M & D). split; [|exact D]. pose proof M as (M1 & M2 & M3). split; [exact M1|]. split; [|exact M3].
  intros k p H. rewrite E; [now apply M2|eapply piece_bound; eauto].
Qed.
(** A piece that is not complete is not on disk, and neither is the target. *)
Lemma incomplete_absent busy f m k p : fs_ok sha1 cfg f -> mem_ok cfg busy f m -> nth_error (t_pieces m) k = Some p -> pc_coalesced p = false ->
  on_disk cfg f (Z.of_nat k) = None /\ content cfg f = None /\ lookup (target cfg) f = None /\ lookup (piece_file cfg (Z.of_nat k)) f = None /\ t_coalesced m = false.
Proof.
  intros (D & _) (M & A & C) Hk Hc. assert (Hd : on_disk cfg f (Z.of_nat k) = None).
  { destruct (on_disk cfg f (Z.of_nat k)) eqn:E; [|reflexivity]. assert (pc_coalesced p = true) by (apply (A _ _ Hk); congruence). congruence. }
  assert (Hn : content cfg f = None) by (unfold on_disk in Hd; now destruct (content cfg f)).
  split; [exact Hd|]. split; [exact Hn|]. split; [destruct D as [[E|(c & E & _)] _]; [exact E|congruence]|]. split.
  - unfold on_disk in Hd. rewrite Hn in Hd. destruct (lookup (piece_file cfg (Z.of_nat k)) f) as [[|b]|] eqn:E; [|discriminate|reflexivity].
    destruct D as [_ D]. destruct (D _ _ E) as (k' & b & _ & _ & E' & _). discriminate.
  - destruct (t_coalesced m); [|reflexivity]. now destruct (C eq_refl).
Qed.
Lemma all_complete busy m : mem_int cfg busy m -> t_complete m = zlen (t_pieces m) -> forall k p, nth_error (t_pieces m) k = Some p -> pc_coalesced p = true.
Proof.
  intros (_ & _ & _ & _ & _ & _ & M7) E k p H. rewrite M7 in E. unfold num_coalesced in E. eapply filter_full; [exact E|]. eapply nth_error_In; eauto.
Qed.
Lemma some_incomplete busy m k p : mem_int cfg busy m -> nth_error (t_pieces m) k = Some p -> pc_coalesced p = false -> t_complete m <> zlen (t_pieces m).
Proof. intros M H Hc E. assert (pc_coalesced p = true) by (eapply all_complete; eauto). congruence. Qed.
Lemma fs_ok_verified f k b : fs_ok sha1 cfg f -> 0 <= k < n -> on_disk cfg f k = Some b -> verified sha1 cfg k b.
Proof.
  intros ((D1 & D2) & _) Hk H. unfold on_disk in H. destruct (content cfg f) as [c|] eqn:C.
  - injection H as <-. destruct D1 as [E|(c' & E & W)]; [rewrite content_target_none in C by easy; discriminate|].
    injection E as <-. now apply W.
  - destruct (lookup (piece_file cfg k) f) as [[|b']|] eqn:E; try discriminate. injection H as ->.
    destruct (D2 _ _ E) as (k' & b' & Hk' & En & Eb & V). injection Eb as <-. pose proof (n_small cfg ok). apply piece_name_inj in En; [now subst|lia|lia].
Qed.
Lemma mem_all_there busy f m : fs_ok sha1 cfg f -> mem_ok cfg busy f m -> lookup (target cfg) f = None -> t_complete m = zlen (t_pieces m) -> exists ds, all_there sha1 cfg f m ds.
Proof.
  intros F (M & A & C) Ht Hc. destruct (sequence_some (fun p => on_disk cfg f (pc_index p)) (t_pieces m)) as [ds H].
  { intros k p Hk. pose proof M as (_ & M2 & _). destruct (M2 _ _ Hk) as (-> & _). apply (A _ _ Hk). eapply all_complete; eauto. }
  exists ds. split; [exact Ht|]. pose proof M as (M1 & M2 & _). split; [unfold zlen; rewrite <- (Forall2_len _ _ _ H), M1; reflexivity|]. split.
  - intros k d Hd. destruct (Forall2_nth _ _ _ _ _ H Hd) as (p & Hp & Hpd). destruct (M2 _ _ Hp) as (E & _). rewrite E in Hpd. split; [|exact Hpd].
    eapply fs_ok_verified; eauto. eapply piece_bound; eauto.
  - eapply Forall2_strengthen; [exact H|]. cbn. intros k p d Hp Hd. destruct (M2 _ _ Hp) as (E & _). rewrite E in *. split; [lia|].
    unfold on_disk in Hd. rewrite (content_target_none _ _ Ht) in Hd. destruct (lookup (piece_file cfg (Z.of_nat k)) f) as [[|]|]; congruence.
Qed.

(** coalesceBlocks *)
Definition blocks_post (busy : Z -> bool) (f0 f1 : fs) (m : mem) (k : nat) (p : piece) (data : bytes) (w : world) (r : res serr unit) : Prop :=
  match r with
  | Ok _ => sha1 data = piece_hash i (Z.of_nat k) /\
            exists f2 b, St sha1 cfg f0 f2 (m_piece_done k p b m) w /\
              mem_int cfg (free busy (Z.of_nat k)) (m_piece_done k p b m) /\ later m (m_piece_done k p b m) /\
              lookup (target cfg) f2 = None /\ on_disk cfg f2 (Z.of_nat k) = Some data /\
              (forall k', 0 <= k' < n -> k' <> Z.of_nat k -> on_disk cfg f2 k' = on_disk cfg f1 k') /\ ext cfg f1 f2
  | Err e => St sha1 cfg f0 f1 m w /\
             (e = EIO \/ sha1 data <> piece_hash i (Z.of_nat k) /\ e = EChecksum (Z.of_nat k) (sha1 data) (piece_hash i (Z.of_nat k)))
  | Panic => False
  end.
Lemma full_data fu busy k p l : 0 <= Z.of_nat k < n -> piece_ok cfg fu busy k p -> pc_blocks p = Some l -> pc_complete p = zlen l ->
  exists data, all_blocks l = Some data /\ zlen data = piece_size i (Z.of_nat k).
Proof.
  intros Hk (_ & _ & P3 & P4 & P5 & _) Hl Hc. rewrite Hl in P5. destruct P5 as (_ & Q2 & Q3 & Q4).
  destruct (all_blocks_full l) as (ds & -> & E); [congruence|]. exists (concat ds). split; [exact E|].
  destruct (piece_size_eq cfg ok _ Hk) as [_ Hs]. apply blocks_total; [lia| |].
  - unfold zlen in *. rewrite map_length in Q2. congruence.
  - intros j d Hj. rewrite <- P3. apply Q4. now apply map_nth_error.
Qed.
Lemma t_coalesce_full f0 f1 m busy k p l data :
  fs_ok sha1 cfg f1 -> mem_ok cfg busy f1 m -> nth_error (t_pieces m) k = Some p -> busy (Z.of_nat k) = true ->
  pc_blocks p = Some l -> pc_complete p = zlen l -> all_blocks l = Some data -> zlen data = piece_size i (Z.of_nat k) ->
  triple (fun w => St sha1 cfg f0 f1 m w) (coalesce_blocks sha1 cfg env (Z.of_nat k)) (blocks_post busy f0 f1 m k p data).
Proof.
  intros F MO Hk Hb Hl Hc Hd Hs. pose proof MO as (M & _). pose proof M as (_ & M2 & _).
  pose proof (M2 _ _ Hk) as (P1 & P2 & P3 & P4 & P5 & P6 & P7 & P8 & P9). destruct (P6 Hb) as [Pc _].
  destruct (incomplete_absent _ _ _ _ _ F MO Hk Pc) as (Ho & Hcn & Ht & Hp & Htc).
  assert (Hf : nth_error (t_futures m) (pc_err p) = Some None) by (apply P8; auto).
  pose proof (piece_bound _ _ _ _ M Hk) as Hkn.
  unfold coalesce_blocks. eapply t_bind with (R := fun w r => St sha1 cfg f0 f1 m w /\ r = Ok p).
  { intros w w' r S E. rewrite (piece_at_in k p) in E by (destruct S as (_ & _ & -> & _); exact Hk). injection E as <- <-. now split. }
  2: { now intros w e [_ ?]. } 2: { now intros w [_ ?]. }
  intros q. apply (t_pure (Ok q = Ok p) (fun w => St sha1 cfg f0 f1 m w)). intros [= ->].
  rewrite Hl, Hc, Z.eqb_refl. cbn [negb]. rewrite (temp_dir_eq cfg), (piece_dir_eq cfg ok), P1, P2, (piece_path_eq cfg ok) by lia.
  assert (PE : forall w, St sha1 cfg f0 f1 m w -> blocks_post busy f0 f1 m k p data w (Err EIO)) by (intros w S; split; auto).
  eapply t_bind; [apply (t_mkdir_temps sha1 cfg env ok f0 f1 m)|intros ?u| |].
  2: { intros w e [S ->]. now apply PE. } 2: { now intros w [_ ?]. }
  eapply t_bind; [eapply t_conseq; [apply (t_temp_file sha1 cfg env ok f0 f1 m)| |]|intros temp| |].
  { intros w [S _]. exact S. } { intros w r H. exact H. }
  2: { intros w e [S ->]. now apply PE. } 2: { now intros w [_ ?]. }
  cbv beta. rewrite Hd. intros w w' r (S & x & -> & Hx) E. revert w w' r S Hx E.
  assert (G : triple (fun w => St sha1 cfg f0 f1 m w) (finally
    (act env (fun c => write c (temps cfg ++ [x]) data) ;;
     (if negb (bytes_eqb (sha1 data) (piece_hash i (Z.of_nat k))) then fails (EChecksum (Z.of_nat k) (sha1 data) (piece_hash i (Z.of_nat k)))
      else act env (fun c => mkdir_all c (pieces_dir cfg)) ;;
           act env (fun _ => rename (temps cfg ++ [x]) (piece_file cfg (Z.of_nat k))) ;; complete_piece (Z.of_nat k)))
    (act env (fun _ => remove (temps cfg ++ [x])))) (blocks_post busy f0 f1 m k p data)).
  2: { intros w w' r S Hx E. eapply G; eauto. }
  apply t_finally with (R := blocks_post busy f0 f1 m k p data).
  2: { intros r w w' r' P E. destruct r as [?|e|]; cbn in P |- *; [| |exact P].
    - destruct P as (P & f2 & b & S & R). split; [exact P|]. exists f2, b. split; [eapply (t_remove_temp sha1 cfg env ok f0); eauto|exact R].
    - destruct P as (S & R). split; [eapply (t_remove_temp sha1 cfg env ok f0); eauto|exact R]. }
  eapply t_bind; [apply (t_write sha1 cfg env ok f0 f1 m [x])|intros ?u| |].
  2: { intros w e [S ->]. now apply PE. } 2: { now intros w [_ ?]. }
  destruct (bytes_eqb (sha1 data) (piece_hash i (Z.of_nat k))) eqn:Eh; cbn [negb].
  2: { apply bytes_eqb_neq in Eh. apply t_fails. intros w [S _]. split; auto. }
  apply bytes_eqb_eq in Eh.
  eapply t_bind; [apply (t_mkdir_pieces sha1 cfg env ok f0 f1 m (temps cfg ++ [x]))|intros ?u| |].
  2: { intros w e [S ->]. now apply PE. } 2: { now intros w [_ ?]. }
  eapply t_bind; [apply (t_place_piece sha1 cfg env ok f0 f1 m x (Z.of_nat k) data); auto; now split|intros ?u| |].
  2: { intros w e [S ->]. now apply PE. } 2: { easy. }
  intros w w' r (f2 & S & T1 & T2 & T3 & T4) E. pose proof S as (S1 & S2 & S3 & S4).
  destruct (complete_piece_run busy k p w) as (b & E1 & E2 & E3); try (rewrite S3; assumption); try assumption.
  rewrite S3 in E2, E3. rewrite E1 in E. injection E as <- <-. rewrite S3. split; [exact Eh|]. exists f2, b. split; [|auto 8].
  split; [exact S1|]. split; [exact S2|]. split; [reflexivity|exact S4].
Qed.

(** Since [f0] every state of the disk was all right and kept what was there; now memory
    and disk agree. *)
Definition PI (busy : Z -> bool) (f0 : fs) (w : world) : Prop :=
  J sha1 cfg f0 (w_fs w) /\ Forall (J sha1 cfg f0) (w_past w) /\ mem_ok cfg busy (w_fs w) (w_mem w).
Lemma PI_St busy f0 w : PI busy f0 w -> St sha1 cfg f0 (w_fs w) (w_mem w) w.
Proof. intros (H1 & H2 & _). split; [exact H1|]. split; [exact H2|]. split; [reflexivity|apply quiet_refl]. Qed.
Lemma St_PI busy f0 f1 m w : St sha1 cfg f0 f1 m w -> mem_ok cfg busy f1 m -> PI busy f0 w.
Proof.
  intros S M. split; [eapply St_J; eauto|]. destruct S as (_ & S2 & -> & Q). split; [exact S2|]. eapply mem_ok_quiet; eauto.
Qed.
Lemma mem_ok_done busy f m c : mem_int cfg busy m -> t_coalesced m = false -> t_complete m = zlen (t_pieces m) -> content cfg f = Some c -> mem_ok cfg busy f (m_done m).
Proof.
  intros M Hc Ha C. pose proof M as (M1 & M2 & M3 & M4 & M5 & M6 & M7). split; [split; [exact M1|split; [|split; [exact M3|split; [|auto]]]]|split].
  - cbn. intros k p Hk. eapply piece_ok_ext; [|apply M2; exact Hk]. apply list_set_nth_neq. intros E. symmetry in E. eapply err_not_top in E; eauto.
  - cbn. eapply list_set_same_len; eauto.
  - cbn. intros k p Hk. split; [intros _|intros _; eapply all_complete; eauto]. unfold on_disk. now rewrite C.
  - rewrite C. easy.
Qed.
Lemma later_done busy m : mem_int cfg busy m -> t_coalesced m = false -> later m (m_done m).
Proof.
  intros M Hc. pose proof M as (_ & _ & _ & M4 & _). rewrite Hc in M4. split; [reflexivity|]. split; [easy|]. split; cbn.
  - intros id v H. rewrite list_set_nth_neq; [exact H|]. intros <-. congruence.
  - intros k p H. exists p. auto.
Qed.
Lemma mem_ok_complete busy f m c : mem_int cfg busy m -> t_coalesced m = false -> t_complete m = zlen (t_pieces m) -> content cfg f = Some c -> mem_ok cfg busy f m.
Proof.
  intros M Hc Ha C. split; [exact M|]. split; [|now rewrite C].
  intros k p Hk. split; [intros _|intros _; eapply all_complete; eauto]. unfold on_disk. now rewrite C.
Qed.
(** coalescePieces, whether or not there is something to do. *)
Lemma coalesce_pieces_spec busy f0 f1 m w w' r : St sha1 cfg f0 f1 m w -> mem_ok cfg busy f1 m -> lookup (target cfg) f1 = None ->
  coalesce_pieces cfg env w = (w', r) ->
  r <> Panic /\ PI busy f0 w' /\ later m (w_mem w') /\ ext cfg f1 (w_fs w') /\ t_pieces (w_mem w') = t_pieces m /\ t_downloaded (w_mem w') = t_downloaded m /\
  (t_complete m <> zlen (t_pieces m) -> w' = w /\ r = Ok tt) /\
  (t_complete m = zlen (t_pieces m) -> match r with Ok _ => t_coalesced (w_mem w') = true /\ content cfg (w_fs w') <> None | Err e => e = EIO | Panic => False end).
Proof.
  intros S M Ht E. pose proof S as (S1 & S2 & S3 & S4). pose proof M as (MI & MA & MC).
  assert (Hc : t_coalesced m = false). { destruct (t_coalesced m); [|easy]. destruct (MC eq_refl). now apply content_target_none. }
  assert (Hf : nth_error (t_futures m) (t_err m) = Some None). { destruct MI as (_ & _ & _ & H & _). now rewrite Hc in H. }
  destruct (Z.eq_dec (t_complete m) (zlen (t_pieces m))) as [Ha|Ha].
  - destruct (mem_all_there busy f1 m) as [ds A]; auto; [apply S1|].
    eapply t_coalesce_pieces in E; eauto. destruct r as [u|e|]; cbn in E; [| |easy].
    + destruct E as (f2 & c & T & X & C). assert (M2 : mem_ok cfg busy f2 (m_done m)) by (eapply mem_ok_done; eauto).
      split; [easy|]. split; [eapply St_PI; eauto|]. pose proof T as (T1 & T2 & T3 & T4). rewrite T3.
      split; [eapply later_done; eauto|]. split; [eapply ext_trans; [exact X|now apply quiet_ext]|]. split; [reflexivity|]. split; [reflexivity|].
      split; [easy|]. intros _. split; [reflexivity|]. rewrite (quiet_content _ _ _ T4), C. easy.
    + destruct E as (-> & f2 & T & X & C). pose proof T as (T1 & T2 & T3 & T4).
      assert (M2 : mem_ok cfg busy f2 m) by (destruct C as [->|[c C]]; [exact M|eapply mem_ok_complete; eauto]).
      split; [easy|]. split; [eapply St_PI; eauto|]. rewrite T3. split; [apply later_refl|].
      split; [eapply ext_trans; [exact X|now apply quiet_ext]|]. repeat split; easy.
  - unfold coalesce_pieces, bind, get_mem in E. rewrite S3 in E. rewrite (proj2 (Z.eqb_neq _ _) Ha) in E. cbn in E. injection E as <- <-.
    split; [easy|]. split; [eapply St_PI; eauto|]. rewrite S3. split; [apply later_refl|]. split; [now apply quiet_ext|]. repeat split; easy.
Qed.

(** The second half of PutBlock *)
Lemma mem_ok_failed busy f k p e d m : mem_ok cfg busy f m -> nth_error (t_pieces m) k = Some p -> busy (Z.of_nat k) = true -> full p ->
  let m' := with_futures (with_downloaded m d) (list_set (pc_err p) (Some (Some e)) (t_futures m)) in
  mem_ok cfg (free busy (Z.of_nat k)) f m' /\ later m m' /\ nth_error (t_futures m') (pc_err p) = Some (Some (Some e)).
Proof.
  intros (M & A & C) Hk Hb Hfull m'. pose proof M as (M1 & M2 & M3 & M4 & M5).
  pose proof (M2 _ _ Hk) as (P1 & P2 & P3 & P4 & P5 & P6 & P7 & P8 & P9). destruct (P6 Hb) as [Pc Pb].
  assert (Hf : nth_error (t_futures m) (pc_err p) = Some None) by (apply P8; auto).
  assert (Hd : nth_error (t_futures m') (pc_err p) = Some (Some (Some e))) by (cbn; eapply list_set_same_len; eauto).
  split; [split; [|split; [exact A|exact C]]|split; [|exact Hd]].
  - split; [exact M1|]. split; [|split; [exact M3|split; [|exact M5]]].
    + intros j q Hj. unfold free. destruct (Z.eqb_spec (Z.of_nat j) (Z.of_nat k)) as [E|Hne].
      * apply Nat2Z.inj in E as ->. change (t_pieces m') with (t_pieces m) in Hj. rewrite Hk in Hj. injection Hj as <-. unfold piece_ok.
        repeat split; auto; try congruence; try discriminate; eauto. intros _ H. now specialize (H Hfull).
      * eapply piece_ok_ext; [|apply M2; exact Hj]. cbn. apply list_set_nth_neq. intros E. symmetry in E. assert (j = k) by (eapply err_inj; eauto). lia.
    + cbn. rewrite list_set_nth_neq; [exact M4|]. eapply err_not_top; eauto.
  - split; [reflexivity|]. split; [easy|]. split; cbn.
    + intros id v H. rewrite list_set_nth_neq; [exact H|]. intros <-. congruence.
    + intros j q H. exists q. auto.
Qed.
Lemma mem_ok_piece_done busy f1 f2 k p b m data : mem_ok cfg busy f1 m -> nth_error (t_pieces m) k = Some p ->
  mem_int cfg (free busy (Z.of_nat k)) (m_piece_done k p b m) -> t_coalesced m = false ->
  on_disk cfg f2 (Z.of_nat k) = Some data -> (forall k', 0 <= k' < n -> k' <> Z.of_nat k -> on_disk cfg f2 k' = on_disk cfg f1 k') ->
  mem_ok cfg (free busy (Z.of_nat k)) f2 (m_piece_done k p b m).
Proof.
  intros (M & A & C) Hk M' Hc H1 H2. split; [exact M'|]. split; [|cbn; congruence].
  cbn. intros j q Hj. apply nth_error_list_set in Hj as [(-> & -> & _)|[Hne Hj]].
  - rewrite H1. easy.
  - rewrite H2; [now apply A|exact (piece_bound busy m j q M Hj)|lia].
Qed.
Lemma put_finish_spec busy f0 k p w w' r : PI busy f0 w -> nth_error (t_pieces (w_mem w)) k = Some p -> busy (Z.of_nat k) = true ->
  put_finish sha1 cfg env (Z.of_nat k) w = (w', r) ->
  r <> Panic /\ PI (free busy (Z.of_nat k)) f0 w' /\ later (w_mem w) (w_mem w') /\ ext cfg (w_fs w) (w_fs w') /\
  (forall j, j <> k -> nth_error (t_pieces (w_mem w')) j = nth_error (t_pieces (w_mem w)) j) /\
  (~ full p -> w' = w /\ r = Ok tt) /\
  (r = Ok tt -> t_complete (w_mem w') = zlen (t_pieces (w_mem w')) -> content cfg (w_fs w') <> None) /\
  (forall l, pc_blocks p = Some l -> pc_complete p = zlen l -> exists data, all_blocks l = Some data /\ zlen data = piece_size i (Z.of_nat k) /\
     if bytes_eqb (sha1 data) (piece_hash i (Z.of_nat k)) then
       match r with Ok _ => on_disk cfg (w_fs w') (Z.of_nat k) = Some data | Err e => e = EIO | Panic => False end
     else exists e, r = Err e /\ (e = EIO \/ e = EChecksum (Z.of_nat k) (sha1 data) (piece_hash i (Z.of_nat k))) /\
            t_pieces (w_mem w') = t_pieces (w_mem w) /\ nth_error (t_futures (w_mem w')) (pc_err p) = Some (Some (Some e))).
Proof.
  intros P Hk Hb E. pose proof (PI_St _ _ _ P) as S. pose proof P as ([F X] & _ & M). pose proof M as (MI & MA & MC). pose proof MI as (M1 & M2 & _).
  pose proof (M2 _ _ Hk) as PO. pose proof PO as (P1 & P2 & P3 & P4 & P5 & P6 & P7 & P8 & P9). destruct (P6 Hb) as [Pc Pb].
  pose proof (piece_bound _ _ _ _ MI Hk) as Hkn.
  destruct (incomplete_absent _ _ _ _ _ F M Hk Pc) as (Ho & Hcn & Ht & Hp & Htc).
  destruct (pc_blocks p) as [l|] eqn:Hl; [|congruence]. unfold put_finish in E.
  destruct (Z.eq_dec (pc_complete p) (zlen l)) as [Hc|Hc].
  - assert (Hfull : full p) by (exists l; auto).
    destruct (full_data (t_futures (w_mem w)) (busy (Z.of_nat k)) k p l) as (data & Hd & Hs); auto.
    destruct (coalesce_blocks sha1 cfg env (Z.of_nat k) w) as [w1 r1] eqn:E1.
    eapply t_coalesce_full in E1; eauto. destruct r1 as [u1|e1|]; cbn in E1; [| |easy].
    + destruct E1 as (Hh & f2 & b & S1 & MI2 & L1 & T1 & T2 & T3 & X2).
      assert (MO2 : mem_ok cfg (free busy (Z.of_nat k)) f2 (m_piece_done k p b (w_mem w))) by (eapply mem_ok_piece_done; eauto).
      destruct (coalesce_pieces_spec _ _ _ _ _ _ _ S1 MO2 T1 E) as (R1 & R2 & R3 & R4 & R5 & Rd & R6 & R7).
      split; [exact R1|]. split; [exact R2|]. split; [eapply later_trans; eauto|]. split; [eapply ext_trans; eauto|]. split; [intros j Hj; rewrite R5; cbn; now rewrite list_set_nth_neq by congruence|]. split; [easy|]. split.
      { intros -> Hcomp. destruct (Z.eq_dec (t_complete (m_piece_done k p b (w_mem w))) (zlen (t_pieces (m_piece_done k p b (w_mem w))))) as [Ha|Ha].
        - apply (R7 Ha).
        - destruct (R6 Ha) as [-> _]. pose proof S1 as (_ & _ & E3 & _). rewrite E3 in Hcomp. now elim Ha. }
      intros l' [= <-] _. exists data. split; [exact Hd|]. split; [exact Hs|]. rewrite (proj2 (bytes_eqb_eq _ _) Hh).
      destruct (Z.eq_dec (t_complete (m_piece_done k p b (w_mem w))) (zlen (t_pieces (m_piece_done k p b (w_mem w))))) as [Ha|Ha].
      * specialize (R7 Ha). destruct r; auto; now apply R4.
      * destruct (R6 Ha) as [-> ->]. now apply R4.
    + destruct E1 as [S1 He]. pose proof S1 as (T1 & T2 & T3 & T4). destruct (w_mem w) as [tb tc tco tp te td tf] eqn:Em.
      set (m := {| t_bitfield := tb |}) in *. clearbody m. clear tb tc tco tp te td tf.
      assert (Hf : nth_error (t_futures m) (pc_err p) = Some None) by (apply P8; auto).
      unfold bind at 1 in E. rewrite (piece_at_in k p) in E by (now rewrite T3).
      unfold add_downloaded, deliver, bind, get_mem, set_mem, fails in E. cbn in E. rewrite T3, Hf in E. injection E as <- <-.
      destruct (mem_ok_failed busy (w_fs w) k p e1 (t_downloaded m + pc_length p) m) as (Q1 & Q2 & Q3); auto.
      split; [easy|]. split; [|split; [exact Q2|split; [now apply quiet_ext|split; [easy|split; [easy|split; [easy|]]]]]].
      * split; [now apply (St_J _ _ _ _ _ _ S1)|]. split; [exact T2|]. cbn. eapply mem_ok_quiet; [exact T4|exact Q1].
      * intros l' [= <-] _. exists data. split; [exact Hd|]. split; [exact Hs|]. cbn.
        destruct (bytes_eqb (sha1 data) (piece_hash i (Z.of_nat k))) eqn:Eh.
        -- apply bytes_eqb_eq in Eh. destruct He as [->|[He _]]; [reflexivity|congruence].
        -- exists e1. split; [reflexivity|]. split; [destruct He as [He|[_ He]]; auto|]. split; [reflexivity|exact Q3].
  - assert (Hnf : ~ full p) by (intros (l' & E' & Hc'); congruence).
    assert (E1 : coalesce_blocks sha1 cfg env (Z.of_nat k) w = (w, Ok tt)).
    { unfold coalesce_blocks, bind at 1. rewrite (piece_at_in k p) by exact Hk. rewrite Hl, (proj2 (Z.eqb_neq _ _) Hc). reflexivity. }
    rewrite E1 in E. unfold coalesce_pieces, bind, get_mem in E. pose proof (some_incomplete _ _ _ _ MI Hk Pc) as Hsi.
    rewrite (proj2 (Z.eqb_neq _ _) Hsi) in E. cbn in E. injection E as <- <-.
    split; [easy|]. split; [|split; [apply later_refl|split; [apply ext_refl|split; [easy|split; [easy|split; [easy|]]]]]].
    + split; [easy|]. split; [apply P|]. split; [|easy]. split; [exact M1|]. split; [|apply MI].
      intros j q Hj. unfold free. destruct (Z.eqb_spec (Z.of_nat j) (Z.of_nat k)) as [Ejk|Hne]; [|now apply M2].
      apply Nat2Z.inj in Ejk as ->. rewrite Hk in Hj. injection Hj as <-. unfold piece_ok. rewrite Hl. repeat split; try assumption; try apply P5; try discriminate.
      * intros _ _. apply P8; auto.
      * intros _ H. contradiction.
    + intros l' [= <-] H. contradiction.
Qed.

(** The first half of PutBlock *)
Lemma check_ok k b len : 0 <= k < n -> check_block_size i k b len = None ->
  exists j, b = BL * j /\ (0 <= b < piece_size i k -> 0 <= j < num_blocks (piece_size i k) /\ len = block_size (piece_size i k) j).
Proof.
  intros Hk H. destruct (piece_size_eq cfg ok k Hk) as [Es Hs]. unfold check_block_size in H. rewrite Es in H.
  set (s := piece_size i k) in *. destruct (num_blocks_spec s) as [N1 N2]; [lia|].
  pose proof (Z.quot_rem' b BL) as Eb. pose proof (Z.quot_rem' s BL) as E2. pose proof (Z.rem_bound_pos s BL ltac:(lia) ltac:(unfold BL; lia)) as Rs.
  destruct (Z.rem b BL =? 0) eqn:Er; cbn [negb] in H; [|discriminate]. exists (Z.quot b BL). split; [lia|]. intros Hb.
  unfold block_size. assert (Hj : 0 <= Z.quot b BL) by (apply Z.quot_pos; unfold BL; lia). unfold BL in *.
  destruct (b =? 16384 * Z.quot s 16384) eqn:El; destruct (_ =? len) eqn:Ee; cbn [negb] in H; try discriminate; lia.
Qed.
Lemma piece_blocks fu busy k p : 0 <= Z.of_nat k < n -> piece_ok cfg fu busy k p -> pc_coalesced p = false ->
  zlen (blocks_of p) = num_blocks (piece_size i (Z.of_nat k)) /\ pc_complete p = num_some (blocks_of p) /\
  (forall j b, nth_error (blocks_of p) j = Some (Some b) -> zlen b = block_size (piece_size i (Z.of_nat k)) (Z.of_nat j)) /\
  (full p <-> num_some (blocks_of p) = zlen (blocks_of p)).
Proof.
  intros Hk (_ & _ & P3 & P4 & P5 & _) Hc. destruct (piece_size_eq cfg ok _ Hk) as [_ Hs]. destruct (num_blocks_spec (piece_size i (Z.of_nat k))) as [N _]; [lia|].
  unfold blocks_of. destruct (pc_blocks p) as [l|] eqn:E.
  - destruct P5 as (_ & Q1 & Q2 & Q3). rewrite P3 in Q3. split; [congruence|]. split; [exact Q2|]. split; [exact Q3|].
    unfold full. rewrite E. split; [intros (l' & [= <-] & H); congruence|]. intros H. exists l. split; [reflexivity|congruence].
  - destruct P5 as [P5|P5]; [congruence|]. rewrite num_some_repeat. split; [unfold zlen; rewrite repeat_length; lia|]. split; [exact P5|]. split.
    + intros j b H. apply nth_error_In, repeat_spec in H. discriminate.
    + unfold full. rewrite E. split; [intros (l' & ? & _); discriminate|]. unfold zlen. rewrite repeat_length. lia.
Qed.
Lemma put_in_piece_spec busy f0 idx b d w w' r : PI busy f0 w -> busy idx = false -> check_block_size i idx b (zlen d) = None ->
  put_in_piece idx b d w = (w', r) ->
  match r with
  | Ok _ => exists k p j, idx = Z.of_nat k /\ nth_error (t_pieces (w_mem w)) k = Some p /\ pc_coalesced p = false /\ b = BL * Z.of_nat j /\ 0 <= b < piece_size i idx /\
              zlen d = block_size (piece_size i idx) (Z.of_nat j) /\
              nth_error (blocks_of p) j = Some None /\
              w' = with_mem w (with_pieces (w_mem w) (list_set k (put_piece p j d) (t_pieces (w_mem w)))) /\
              PI (take busy idx) f0 w' /\ later (w_mem w) (w_mem w')
  | Err e => w' = w /\ e = EBlockExists /\ exists k p, idx = Z.of_nat k /\ nth_error (t_pieces (w_mem w)) k = Some p /\
              (pc_coalesced p = true \/ exists d', nth_error (blocks_of p) (Z.to_nat (b / BL)) = Some (Some d'))
  | Panic => w' = w /\ (~ 0 <= idx < n \/ b < 0 \/ piece_size i idx <= b)
  end.
Proof.
  intros P Hb Hch E. pose proof P as ([F X] & F2 & M). pose proof M as (MI & MA & MC).
  unfold put_in_piece, bind at 1 in E.
  assert (Hr : ~ 0 <= idx < n \/ 0 <= idx < n) by lia. destruct Hr as [Hr|Hr].
  { rewrite (piece_at_out idx busy) in E by auto. injection E as <- <-. auto. }
  destruct (piece_exists _ _ _ MI Hr) as [p Hk]. set (k := Z.to_nat idx) in *. assert (Ek : idx = Z.of_nat k) by lia. clearbody k. subst idx.
  rewrite (piece_at_in k p) in E by exact Hk. pose proof MI as (M1 & M2 & M3 & M4 & M5 & M6 & M7). pose proof (M2 _ _ Hk) as PO.
  destruct (pc_coalesced p) eqn:Hc. { injection E as <- <-. split; [reflexivity|]. split; [reflexivity|]. exists k, p. auto. }
  destruct (piece_blocks _ _ _ _ Hr PO Hc) as (B1 & B2 & B3 & B4).
  pose proof PO as (P1 & P2 & P3 & P4 & P5 & P6 & P7 & P8 & P9). rewrite Hb in P8.
  destruct (check_ok _ _ _ Hr Hch) as (j & Ej & Hj). destruct (piece_size_eq cfg ok _ Hr) as [_ Hs]. destruct (num_blocks_spec (piece_size i (Z.of_nat k))) as [N1 N2]; [lia|].
  assert (EB : match pc_blocks p with Some l => Some l | None => if pc_num p <? 0 then None else Some (repeat None (Z.to_nat (pc_num p))) end = Some (blocks_of p)).
  { unfold blocks_of. destruct (pc_blocks p); [reflexivity|]. rewrite (proj2 (Z.ltb_ge _ _)) by lia. reflexivity. }
  rewrite EB in E. assert (Eq : Z.quot b BL = j) by (rewrite Ej, Z.mul_comm; apply Z.quot_mul; easy). rewrite Eq in E.
  assert (Ed : b / BL = j) by (rewrite Ej, Z.mul_comm; apply Z.div_mul; easy).
  destruct (j <? 0) eqn:Hj0. { injection E as <- <-. split; [reflexivity|]. right; left. unfold BL in Ej. lia. }
  destruct (nth_error (blocks_of p) (Z.to_nat j)) as [[d'|]|] eqn:En; injection E as <- <-.
  - split; [reflexivity|]. split; [reflexivity|]. exists k, p. split; [reflexivity|]. split; [exact Hk|]. right. exists d'. now rewrite Ed.
  - assert (Hlt : (Z.to_nat j < List.length (blocks_of p))%nat) by (apply nth_error_Some; congruence).
    assert (Hbr : 0 <= b < piece_size i (Z.of_nat k)) by (unfold zlen, BL in *; lia). destruct (Hj Hbr) as [_ Hlen].
    exists k, p, (Z.to_nat j). rewrite Z2Nat.id by lia. split; [reflexivity|]. split; [exact Hk|]. split; [exact Hc|]. split; [exact Ej|].
    split; [exact Hbr|]. split; [exact Hlen|]. split; [exact En|].
    assert (Ew : {| w_fs := w_fs w; w_past := w_past w; w_tick := w_tick w; w_mem := {| t_bitfield := t_bitfield (w_mem w); t_coalesced := t_coalesced (w_mem w); t_complete := t_complete (w_mem w);
       t_pieces := list_set (Z.to_nat (Z.of_nat k)) {| pc_sha1 := pc_sha1 p; pc_index := pc_index p; pc_length := pc_length p; pc_num := pc_num p; pc_coalesced := false;
       pc_complete := pc_complete p + 1; pc_blocks := Some (list_set (Z.to_nat j) (Some d) (blocks_of p)); pc_err := pc_err p |} (t_pieces (w_mem w));
       t_err := t_err (w_mem w); t_downloaded := t_downloaded (w_mem w); t_futures := t_futures (w_mem w) |} |}
       = with_mem w (with_pieces (w_mem w) (list_set k (put_piece p (Z.to_nat j) d) (t_pieces (w_mem w))))) by (rewrite Nat2Z.id; reflexivity).
    rewrite Ew. clear Ew. split; [reflexivity|]. set (m' := with_pieces _ _).
    assert (Hnf : ~ full p) by (intros H; apply B4 in H; pose proof (num_some_hole _ _ En); lia).
    split.
    + split; [split; [exact F|exact X]|]. split; [exact F2|]. cbn [w_mem w_fs with_mem]. split; [|split].
      * split; [cbn; now rewrite list_set_length|]. split; [|split; [|split; [exact M4|split; [exact M5|split]]]].
        -- cbn. intros j' q Hq. unfold take. apply nth_error_list_set in Hq as [(-> & -> & _)|[Hne Hq]].
           ++ rewrite Z.eqb_refl. unfold piece_ok. cbn. split; [exact P1|]. split; [exact P2|]. split; [exact P3|]. split; [exact P4|]. split; [|split; [easy|split; [easy|split; [|easy]]]].
              ** split; [reflexivity|]. split; [unfold zlen in *; rewrite list_set_length; lia|]. split; [rewrite num_some_set by exact En; lia|].
                 intros j' b' Hj'. apply nth_error_list_set in Hj' as [(-> & E & _)|[_ Hj']]; [|rewrite P3; now apply B3]. injection E as <-. rewrite P3, Z2Nat.id by lia. exact Hlen.
              ** intros _ _. apply P8; [exact Hc|]. intros Hfu. contradiction.
           ++ rewrite (proj2 (Z.eqb_neq _ _)) by lia. now apply M2.
        -- cbn. rewrite map_list_set. cbn. rewrite list_set_same; [exact M3|]. now apply map_nth_error.
        -- cbn. intros jj. rewrite M6. split; intros (H0 & q & Hq & Hqc); split; try exact H0.
           ++ exists q. split; [|exact Hqc]. rewrite list_set_nth_neq; [exact Hq|]. intros Ee. rewrite Ee in Hk. congruence.
           ++ apply nth_error_list_set in Hq as [(_ & -> & _)|[_ Hq]]; [discriminate|eauto].
        -- cbn. rewrite M7. unfold num_coalesced. symmetry. now apply (filter_list_set_same _ _ _ _ _ Hk).
      * cbn. intros jj q Hq. apply nth_error_list_set in Hq as [(-> & -> & _)|[_ Hq]]; [|now apply MA]. cbn. rewrite <- Hc. now apply MA.
      * exact MC.
    + split; [reflexivity|]. split; [easy|]. split; [easy|]. cbn. intros j' q Hq. destruct (Nat.eq_dec j' k) as [->|Hne].
      * exists (put_piece p (Z.to_nat j) d). split; [eapply list_set_same_len; eauto|]. cbn. rewrite Hk in Hq. injection Hq as <-. split; [congruence|auto].
      * exists q. rewrite list_set_nth_neq by congruence. auto.
  - split; [reflexivity|]. right; right. apply nth_error_None in En. unfold zlen, BL in *. lia.
Qed.

(** ResetPiece *)
Lemma full_dec p : {full p} + {~ full p}.
Proof.
  unfold full. destruct (pc_blocks p) as [l|]; [|right; intros (l & ? & _); discriminate].
  destruct (Z.eq_dec (pc_complete p) (zlen l)) as [E|E]; [left; eauto|right; intros (l' & [= <-] & H); contradiction].
Qed.
Lemma future_defined fu b k p : piece_ok cfg fu b k p -> nth_error fu (pc_err p) <> None.
Proof.
  intros (_ & _ & _ & _ & _ & _ & P7 & P8 & P9). destruct (pc_coalesced p); [rewrite P7; easy|].
  destruct b; [rewrite P8; easy|]. destruct (full_dec p) as [H|H]; [destruct P9 as [e ->]; easy|rewrite P8; easy].
Qed.
Lemma future_pending fu b k p : piece_ok cfg fu b k p -> (nth_error fu (pc_err p) = Some None <-> pc_coalesced p = false /\ (full p -> b = true)).
Proof.
  intros (_ & _ & _ & _ & _ & _ & P7 & P8 & P9). split; [|intros [H1 H2]; auto]. intros H.
  destruct (pc_coalesced p); [rewrite P7 in H by easy; discriminate|]. split; [reflexivity|]. intros Hf. destruct b; [reflexivity|].
  destruct P9 as [e E]; auto. congruence.
Qed.
Definition reset_of (p : piece) (id : nat) : piece :=
  {| pc_sha1 := pc_sha1 p; pc_index := pc_index p; pc_length := pc_length p; pc_num := pc_num p; pc_coalesced := pc_coalesced p;
     pc_complete := 0; pc_blocks := None; pc_err := id |}.
Lemma reset_piece_spec busy f0 idx w w' r : PI busy f0 w -> busy idx = false -> reset_piece idx w = (w', r) ->
  match r with
  | Ok _ => exists k p, idx = Z.of_nat k /\ nth_error (t_pieces (w_mem w)) k = Some p /\ pc_coalesced p = false /\ ~ full p /\
              nth_error (t_pieces (w_mem w')) k = Some (reset_of p (List.length (t_futures (w_mem w)))) /\
              (forall j, j <> k -> nth_error (t_pieces (w_mem w')) j = nth_error (t_pieces (w_mem w)) j) /\
              w_fs w' = w_fs w /\ PI busy f0 w' /\ later (w_mem w) (w_mem w')
  | Err _ => False
  | Panic => w' = w /\ (~ 0 <= idx < n \/ exists k p, idx = Z.of_nat k /\ nth_error (t_pieces (w_mem w)) k = Some p /\ (pc_coalesced p = true \/ full p))
  end.
Proof.
  intros P Hb E. pose proof P as ([F X] & F2 & M). pose proof M as (MI & MA & MC).
  unfold reset_piece, bind at 1 in E.
  assert (Hr : ~ 0 <= idx < n \/ 0 <= idx < n) by lia. destruct Hr as [Hr|Hr].
  { rewrite (piece_at_out idx busy) in E by auto. injection E as <- <-. auto. }
  destruct (piece_exists _ _ _ MI Hr) as [p Hk]. set (k := Z.to_nat idx) in *. assert (Ek : idx = Z.of_nat k) by lia. clearbody k. subst idx.
  rewrite (piece_at_in k p) in E by exact Hk. pose proof MI as (M1 & M2 & M3 & M4 & M5 & M6 & M7). pose proof (M2 _ _ Hk) as PO.
  pose proof (future_pending _ _ _ _ PO) as FP. rewrite Hb in FP. pose proof (future_defined _ _ _ _ PO) as FD.
  unfold bind at 1 in E. unfold deliver, bind at 1, get_mem in E.
  destruct (nth_error (t_futures (w_mem w)) (pc_err p)) as [[v|]|] eqn:Ef; [| |congruence].
  { injection E as <- <-. split; [reflexivity|]. right. exists k, p. split; [reflexivity|]. split; [exact Hk|].
    destruct (pc_coalesced p) eqn:Hc; [now left|]. right. destruct (full_dec p) as [H|H]; [exact H|].
    assert (Some (Some v) = Some None) by (apply FP; split; [reflexivity|contradiction]). discriminate. }
  destruct FP as [FP _]. destruct (FP eq_refl) as [Hc Hnf].
  unfold set_piece, bind, get_mem, set_mem in E. cbn in E. rewrite Nat2Z.id, list_set_length in E. injection E as <- <-.
  exists k, p. split; [reflexivity|]. split; [exact Hk|]. split; [exact Hc|]. split; [intros H; now specialize (Hnf H)|]. cbn [w_mem t_pieces w_fs].
  split; [eapply list_set_same_len; eauto|]. split; [intros j Hj; now rewrite list_set_nth_neq by congruence|]. split; [reflexivity|].
  pose proof PO as (P1 & P2 & P3 & P4 & P5 & P6 & P7 & P8 & P9).
  set (N := List.length (t_futures (w_mem w))) in *.
  assert (Hkeep : forall id (v : fut), id <> pc_err p -> nth_error (t_futures (w_mem w)) id = Some v -> nth_error (list_set (pc_err p) (Some (Some EReset)) (t_futures (w_mem w)) ++ [None]) id = Some v).
  { intros id v Hne Hid. rewrite nth_error_app1; [rewrite list_set_nth_neq; [exact Hid|intros Ee; now apply Hne]|]. rewrite list_set_length. apply nth_error_Some. intros Hx. rewrite Hid in Hx. discriminate. }
  assert (HN : nth_error (list_set (pc_err p) (Some (Some EReset)) (t_futures (w_mem w)) ++ [None]) N = Some None).
  { rewrite nth_error_app2; rewrite list_set_length; [|apply Nat.le_refl]. fold N. now rewrite Nat.sub_diag. }
  assert (Hnew : forall id, nth_error (t_futures (w_mem w)) id <> None -> id <> N) by (intros id H ->; apply nth_error_Some in H; unfold N in H; lia).
  split.
  - split; [split; [exact F|exact X]|]. split; [exact F2|]. cbn. split; [|split].
    + split; [cbn; now rewrite list_set_length|]. split; [|split; [|split; [|split; [exact M5|split]]]].
      * cbn. intros j q Hq. apply nth_error_list_set in Hq as [(-> & -> & _)|[Hne Hq]].
        -- rewrite Hb. unfold piece_ok. cbn. rewrite HN. split; [exact P1|]. split; [exact P2|]. split; [exact P3|]. split; [exact P4|]. split; [now right|].
           split; [easy|]. split; [rewrite Hc; easy|]. split; [easy|]. intros _ (l & Hl & _) _. discriminate.
        -- eapply piece_ok_ext; [|apply M2; exact Hq]. destruct (nth_error (t_futures (w_mem w)) (pc_err q)) as [v|] eqn:Ev.
           ++ apply Hkeep; [|exact Ev]. intros Ee. apply Hne. eapply err_inj; eauto.
           ++ now apply (future_defined _ _ _ _ (M2 _ _ Hq)) in Ev.
      * cbn. rewrite map_list_set. cbn. apply NoDup_cons_iff in M3 as [M3 M3']. constructor.
        -- intros Hin. apply In_nth_error in Hin as [j Hj]. apply nth_error_list_set in Hj as [(_ & Ee & _)|[_ Hj]].
           ++ apply (Hnew (t_err (w_mem w))); [rewrite M4; easy|exact Ee].
           ++ apply M3. eapply nth_error_In; eauto.
        -- apply NoDup_nth_error. intros a b Ha Hab. rewrite list_set_length in Ha.
           rewrite NoDup_nth_error in M3'. destruct (Nat.eq_dec a k) as [->|Na]; destruct (Nat.eq_dec b k) as [->|Nb]; [reflexivity| | |].
           ++ rewrite list_set_nth_eq in Hab by easy. rewrite list_set_nth_neq in Hab by congruence. symmetry in Hab.
              rewrite nth_error_map in Hab. destruct (nth_error (t_pieces (w_mem w)) b) as [q|] eqn:Eq; [|discriminate]. injection Hab as Hab.
              now apply (Hnew _ (future_defined _ _ _ _ (M2 _ _ Eq))) in Hab.
           ++ rewrite (list_set_nth_eq k) in Hab by (rewrite map_length; apply nth_error_Some; congruence). rewrite list_set_nth_neq in Hab by congruence.
              rewrite nth_error_map in Hab. destruct (nth_error (t_pieces (w_mem w)) a) as [q|] eqn:Eq; [|discriminate]. injection Hab as Hab.
              now apply (Hnew _ (future_defined _ _ _ _ (M2 _ _ Eq))) in Hab.
           ++ rewrite !list_set_nth_neq in Hab by congruence. now apply M3'.
      * cbn. apply Hkeep; [|exact M4]. intros Ee. symmetry in Ee. eapply err_not_top in Ee; eauto.
      * cbn. intros jj. rewrite M6. split; intros (H0 & q & Hq & Hqc); split; try exact H0.
        -- exists q. split; [|exact Hqc]. rewrite list_set_nth_neq; [exact Hq|]. intros Ee. rewrite Ee in Hk. congruence.
        -- apply nth_error_list_set in Hq as [(_ & -> & _)|[_ Hq]]; [cbn in Hqc; congruence|eauto].
      * cbn. rewrite M7. unfold num_coalesced. symmetry. now apply (filter_list_set_same _ _ _ _ _ Hk).
    + cbn. intros j q Hq. apply nth_error_list_set in Hq as [(-> & -> & _)|[_ Hq]]; [|now apply MA]. cbn. now apply MA.
    + exact MC.
  - split; [reflexivity|]. split; [easy|]. split; cbn.
    + intros id v Hid. apply Hkeep; [|exact Hid]. intros ->. congruence.
    + intros j q Hq. destruct (Nat.eq_dec j k) as [->|Hne].
      * exists (reset_of p N). split; [eapply list_set_same_len; eauto|]. rewrite Hk in Hq. injection Hq as <-. split; [easy|]. right. exists EReset.
        rewrite nth_error_app1; [eapply list_set_same_len; eauto|]. rewrite list_set_length. apply nth_error_Some. congruence.
      * exists q. rewrite list_set_nth_neq by congruence. auto.
Qed.
End Calls.
