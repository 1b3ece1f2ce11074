From Verif Require Import GoBase GoBaseProofs BencDecode Bitfield BitfieldSpec BitfieldProofs Metainfo MetainfoSpec MetainfoProofs
  Fs FsProofs Storage StorageSys StorageSpec StorageSysSpec StorageMemSpec StorageFsProofs StorageIoProofs StorageCoalesceProofs StorageProofs StorageGetProofs StorageLoadProofs StorageSysProofs StorageClaimProofs StorageShare StorageShareSpec.

Lemma hex_digit_inj a b : 0 <= a < 16 -> 0 <= b < 16 -> hex_digit a = hex_digit b -> a = b.
Proof.
  intros A B E. unfold hex_digit in E. apply (f_equal b2z) in E.
  rewrite !b2z_z2b in E by (destruct (_ <? _); lia). destruct (a <? 10) eqn:X, (b <? 10) eqn:Y; try apply Z.ltb_lt in X; try apply Z.ltb_ge in X; try apply Z.ltb_lt in Y; try apply Z.ltb_ge in Y; lia.
Qed.
Lemma hex_inj a : forall b, hex a = hex b -> a = b.
Proof.
  induction a as [|x a IH]; intros [|y b] E; cbn in E; try discriminate; [reflexivity|]. injection E as E1 E2 E3. apply IH in E3. subst b. f_equal.
  destruct (hex_nibbles x) as [X1 X2], (hex_nibbles y) as [Y1 Y2]. apply hex_digit_inj in E1; [|lia|lia]. apply hex_digit_inj in E2; [|lia|lia].
  apply b2z_inj. rewrite (Z.div_mod (b2z x) 16), (Z.div_mod (b2z y) 16) by lia. congruence.
Qed.
Lemma under_snoc (w : path) a b r : a <> b -> under_path (w ++ [a]) (w ++ b :: r) = false.
Proof.
  intros N. induction w as [|c w IH]; cbn; [|now rewrite (proj2 (bytes_eqb_eq c c) eq_refl)]. now rewrite (proj2 (bytes_eqb_neq a b) N).
Qed.
Lemma under_longer (w : path) b r : under_path (w ++ b :: r) w = false.
Proof. destruct (under_path (w ++ b :: r) w) eqn:E; [|reflexivity]. apply under_path_iff in E as [x E]. apply (f_equal (@List.length _)) in E. rewrite !app_length in E. cbn in E. lia. Qed.

(** What belongs to one torrent is outside the other. *)
Section Apart.
Variable c d : config.
Hypothesis okc : config_ok c.
Hypothesis okd : config_ok d.
Hypothesis nb : neighbours c d.
Lemma mine_target q : under_path (target c) q = true -> outside d q.
Proof using okc nb.
  destruct nb as (T & W & N & H). intros U. split; [|split; [|split]].
  - apply under_path_iff in U as [r ->]. unfold target. rewrite T, <- app_assoc. cbn [app]. apply under_snoc. congruence.
  - destruct (under_path (c_work d ++ _) q) eqn:E; [|reflexivity]. exfalso. apply under_path_iff in E as [r E]. rewrite <- W, <- app_assoc in E. exact (target_not_under_work c okc _ _ U E).
  - destruct (under_path (pieces_dir d) q) eqn:E; [|reflexivity]. exfalso. apply under_path_iff in E as [r E]. unfold pieces_dir in E. rewrite <- W, <- app_assoc in E. exact (target_not_under_work c okc _ _ U E).
  - rewrite <- W. destruct (under_path q (c_work c)) eqn:E; [|reflexivity]. pose proof (under_path_trans _ _ _ U E) as X. pose proof (sep1 c okc). congruence.
Qed.
Lemma mine_pieces r : outside d (pieces_dir c ++ r).
Proof using okc okd nb.
  destruct nb as (T & W & N & H). unfold pieces_dir. rewrite <- app_assoc, W. cbn [app]. split; [apply (work_not_under_target d okd)|]. split; [|split; [|apply under_longer]].
  - apply under_snoc. intros E. symmetry in E. revert E. apply hex_not_temp. exact (sha_nonnil c okc).
  - unfold pieces_dir. apply under_snoc. intros E. apply hex_inj in E. congruence.
Qed.
End Apart.

(** A change elsewhere. *)
Section Elsewhere.
Variable sha1 : bytes -> bytes.
Variable c : config.
Hypothesis ok : config_ok c.
Definition spared (f f' : fs) : Prop :=
  NoDup (keys f') /\ (forall q, under_path (target c) q = true -> lookup q f' = lookup q f) /\ (forall r, lookup (pieces_dir c ++ r) f' = lookup (pieces_dir c ++ r) f).
Lemma spared_content f f' : spared f f' -> content c f' = content c f.
Proof. intros (_ & H & _). now apply content_ext. Qed.
Lemma spared_on_disk f f' k : spared f f' -> on_disk c f' k = on_disk c f k.
Proof. intros S. unfold on_disk. rewrite (spared_content _ _ S). destruct S as (_ & _ & H). unfold piece_file. now rewrite H. Qed.
Lemma spared_ok f f' : spared f f' -> fs_ok sha1 c f -> fs_ok sha1 c f'.
Proof using ok.
  intros S ((D1 & D2) & N & P & T & A). pose proof (spared_content _ _ S) as C. destruct S as (Q1 & Q2 & Q3). pose proof (Q2 _ (under_path_refl _)) as Qt.
  pose proof (Q3 []) as Q4. rewrite !app_nil_r in Q4. split; [split|split; [|split; [|split]]].
  - rewrite Qt, C. exact D1.
  - intros nm nd H. rewrite Q3 in H. now apply D2.
  - exact Q1.
  - rewrite Q4. exact P.
  - intros Ht nm nd H. rewrite Q3 in H. rewrite Q4. rewrite Qt in Ht. exact (T Ht _ _ H).
  - intros k b x Hk Hc Hb. rewrite C in Hc. unfold piece_file in Hb. rewrite Q3 in Hb. now apply (A k b x).
Qed.
Lemma disk_on f p : disk_of (on_this_disk f p) = f.
Proof. destruct p; reflexivity. Qed.
Lemma spared_inv base f f' p : spared f f' -> inv sha1 c base (on_this_disk f p) -> inv sha1 c f' (on_this_disk f' p).
Proof using ok.
  intros S [[F _] I]. rewrite disk_on in F. split.
  - rewrite disk_on. split; [now apply (spared_ok f)|]. split; [auto|]. split; auto.
  - destruct p as [w ts|]; [|exact I]. cbn [on_this_disk w_fs w_mem] in *. destruct I as ((M & D & C) & I). split; [|exact I]. split; [exact M|]. split.
    + intros k q H. rewrite (spared_on_disk _ _ _ S). now apply D.
    + rewrite (spared_content _ _ S). exact C.
Qed.
End Elsewhere.
Lemma spared_by c d f f' : config_ok c -> config_ok d -> neighbours c d -> NoDup (keys f') -> (forall q, outside d q -> lookup q f' = lookup q f) -> spared c f f'.
Proof. intros A B N K O. split; [exact K|]. split; [intros q Hq; apply O; now apply (mine_target c d)|intros r; apply O; now apply mine_pieces]. Qed.

Section Share.
Variable sha1 : bytes -> bytes.
Variable cfg : which -> config.
Variable env : which -> nat -> choice.
Hypothesis ok : forall x, config_ok (cfg x).
Hypothesis nb : neighbours (cfg One) (cfg Two).
Notation share_step := (share_step sha1 cfg env).
Notation share_run := (share_run sha1 cfg env).
Lemma nb_other x : neighbours (cfg (other x)) (cfg x).
Proof. destruct x; [|exact nb]. destruct nb as (A & B & C & D). cbn [other]. split; [auto|]. split; [auto|]. split; intros E; symmetry in E; contradiction. Qed.
Definition sinv (s : shared) : Prop := forall x, inv sha1 (cfg x) (sh_disk s) (proc_at x s).
Lemma disk_left_eq p : disk_left p = disk_of p.
Proof. destruct p; reflexivity. Qed.
Lemma on_own p : on_this_disk (disk_left p) p = p.
Proof. destruct p as [[] ?|]; reflexivity. Qed.
Definition kept (c : config) (f f' : fs) : Prop :=
  (forall k b, 0 <= k < num_pieces (c_info c) -> on_disk c f k = Some b -> on_disk c f' k = Some b) /\ (forall b, content c f = Some b -> content c f' = Some b).
Lemma kept_trans c f g h : kept c f g -> kept c g h -> kept c f h.
Proof. intros [A B] [A' B']. split; auto. Qed.
Lemma said_kept c f f' e : kept c f f' -> event_said c f e -> event_said c f' e.
Proof.
  clear. intros [X Y]. destruct e as [[k b d|k b len|k|k|] [|d'|e]]; cbn; try tauto.
  - intros (A & B & C). split; [exact A|]. split.
    + destruct B as [B|[(x & s & B & B')|(x & B1 & B2 & B3)]]; [now left|right; left; eauto|right; right; eauto 10].
    + intros P. destruct (C P) as (x & Q & R). exists x. split; [|exact R]. apply X; [apply P|exact Q].
  - intros (A & b & B). eauto.
  - intros (A & x & B). eauto.
  - intros (A & x & B). eauto.
  - intros (A & x & B). eauto.
Qed.
Lemma share_step_ok s x l s' es : sinv s -> share_step s x l = Some (s', es) ->
  sinv s' /\ (forall y, kept (cfg y) (sh_disk s) (sh_disk s')) /\ Forall (event_said (cfg x) (sh_disk s')) es.
Proof using ok nb.
  intros I E. unfold StorageShare.share_step in E. destruct (exec sha1 (cfg x) (env x) (proc_at x s) l) as [[p es']|] eqn:X; [|discriminate]. injection E as E <-.
  destruct (exec_ok sha1 (cfg x) (env x) (ok x) _ _ _ _ _ (I x) X) as (I' & Ex & Ev & _). unfold proc_at in Ex. rewrite disk_on in Ex.
  assert (Hd : sh_disk s' = disk_of p) by (rewrite <- disk_left_eq; destruct x; now subst s').
  assert (Hp : proc_at x s' = p) by (unfold proc_at; destruct x; subst s'; apply on_own).
  assert (Ho : match other x with One => sh_one s' | Two => sh_two s' end = match other x with One => sh_one s | Two => sh_two s end) by (destruct x; now subst s').
  assert (S : spared (cfg (other x)) (sh_disk s) (sh_disk s')).
  { rewrite Hd. apply (spared_by _ (cfg x)); [apply ok|apply ok|apply nb_other|apply I'|]. intros q Hq. now apply Ex. }
  split; [|split].
  - intros y. assert (y = x \/ y = other x) as [->| ->] by (destruct x, y; auto).
    + rewrite Hp, Hd. exact (inv_rebase sha1 (cfg x) (env x) (ok x) _ _ I').
    + unfold proc_at. rewrite Ho. eapply spared_inv; [apply ok|exact S|]. apply (I (other x)).
  - intros y. assert (y = x \/ y = other x) as [->| ->] by (destruct x, y; auto); [rewrite Hd; split; apply Ex|].
    split; [intros k b _; now rewrite (spared_on_disk _ _ _ _ S)|intros b; now rewrite (spared_content _ _ _ S)].
  - rewrite Hd. eapply Forall_impl; [|exact Ev]. intros e. exact (event_ok_said sha1 (cfg x) (env x) (ok x) p e).
Qed.
Lemma share_run_ok ls : forall s s' es, sinv s -> share_run s ls = Some (s', es) ->
  sinv s' /\ (forall y, kept (cfg y) (sh_disk s) (sh_disk s')) /\ forall x e, In (x, e) es -> event_said (cfg x) (sh_disk s') e.
Proof using ok nb.
  induction ls as [|[x l] ls IH]; intros s s' es I E; cbn [StorageShare.share_run] in E; [injection E as <- <-; split; [exact I|]; split; [intros y; split; auto|intros x e []]|].
  destruct (share_step s x l) as [[s1 es1]|] eqn:X; [|discriminate]. destruct (share_run s1 ls) as [[s2 es2]|] eqn:Y; [|discriminate]. injection E as <- <-.
  destruct (share_step_ok _ _ _ _ _ I X) as (I1 & K1 & V1). destruct (IH _ _ _ I1 Y) as (I2 & K2 & V2). split; [exact I2|]. split; [intros y; eapply kept_trans; eauto|].
  intros z e H. apply in_app_or in H as [H|H]; [|now apply V2]. apply in_map_iff in H as (e' & [= <- <-] & H). rewrite Forall_forall in V1. eapply said_kept; [apply K2|now apply V1].
Qed.
Lemma start_inv f : (forall x, untouched (cfg x) f) -> sinv (share_start f).
Proof using ok env. intros U x. unfold proc_at. destruct x; cbn; [exact (inv_start sha1 _ (env One) (ok One) _ _ (U One))|exact (inv_start sha1 _ (env Two) (ok Two) _ _ (U Two))]. Qed.
Variable f : fs.
Hypothesis clean : forall x, untouched (cfg x) f.
Lemma run_sinv ls s es : share_run (share_start f) ls = Some (s, es) -> sinv s /\ forall x e, In (x, e) es -> event_said (cfg x) (sh_disk s) e.
Proof using ok nb clean env. intros E. destruct (share_run_ok _ _ _ _ (start_inv _ clean) E) as (A & _ & B). auto. Qed.
Lemma sinv_fs s x : sinv s -> fs_ok sha1 (cfg x) (sh_disk s).
Proof. intros I. destruct (I x) as [[F _] _]. unfold proc_at in F. now rewrite disk_on in F. Qed.
Theorem shared_stored ls s es x : share_run (share_start f) ls = Some (s, es) ->
  (lookup (target (cfg x)) (sh_disk s) = None \/ exists c, content (cfg x) (sh_disk s) = Some c /\ whole sha1 (cfg x) c) /\
  forall k b, 0 <= k < num_pieces (c_info (cfg x)) -> on_disk (cfg x) (sh_disk s) k = Some b -> verified sha1 (cfg x) k b.
Proof using ok nb clean env.
  intros E. destruct (run_sinv _ _ _ E) as [I _]. pose proof (sinv_fs _ x I) as F. split; [apply F|]. intros k b Hk H. exact (fs_ok_verified sha1 (cfg x) (env x) (ok x) _ _ _ F Hk H).
Qed.
Theorem shared_served ls s es x k b len d : share_run (share_start f) ls = Some (s, es) -> In (x, Ret (CGet k b len) (RBlock d)) es ->
  zlen d = len /\
  (d = [] \/ (exists c s, whole sha1 (cfg x) c /\ 0 <= s /\ s + len <= zlen c /\ d = slice c s len) \/
   (exists c, 0 <= k < num_pieces (c_info (cfg x)) /\ verified sha1 (cfg x) k c /\ 0 <= b /\ b + len <= zlen c /\ d = slice c b len)) /\
  (in_piece (cfg x) k b len -> exists c, verified sha1 (cfg x) k c /\ d = slice c b len).
Proof using ok nb clean env.
  intros E H. destruct (run_sinv _ _ _ E) as [I V]. pose proof (sinv_fs _ x I) as F. destruct (V _ _ H) as (A & B & C). split; [exact A|]. split.
  - destruct B as [B|[(c & o & B & B')|(c & B1 & B2 & B3)]]; [now left| |].
    + right; left. exists c, o. split; [|exact B']. exact (content_whole sha1 (cfg x) (env x) (ok x) _ _ F B).
    + right; right. exists c. split; [exact B1|]. split; [|exact B3]. exact (fs_ok_verified sha1 (cfg x) (env x) (ok x) _ _ _ F B1 B2).
  - intros P. destruct (C P) as (c & Q & R). exists c. split; [|exact R]. exact (fs_ok_verified sha1 (cfg x) (env x) (ok x) _ _ _ F (proj1 P) Q).
Qed.
Theorem shared_wait ls s es x : share_run (share_start f) ls = Some (s, es) ->
  (forall r, In (x, Ret CWaitAll r) es -> r = RNil /\ exists c, content (cfg x) (sh_disk s) = Some c /\ whole sha1 (cfg x) c) /\
  (forall k, In (x, Ret (CWait k) RNil) es -> exists b, on_disk (cfg x) (sh_disk s) k = Some b /\ verified sha1 (cfg x) k b).
Proof using ok nb clean env.
  intros E. destruct (run_sinv _ _ _ E) as [I V]. pose proof (sinv_fs _ x I) as F. split.
  - intros r H. destruct (V _ _ H) as (-> & c & C). split; [reflexivity|]. exists c. split; [exact C|]. exact (content_whole sha1 (cfg x) (env x) (ok x) _ _ F C).
  - intros k H. destruct (V _ _ H) as (Hk & b & B). exists b. split; [exact B|]. exact (fs_ok_verified sha1 (cfg x) (env x) (ok x) _ _ _ F Hk B).
Qed.
Theorem shared_kept ls s es ls' s' es' x : share_run (share_start f) ls = Some (s, es) -> share_run s ls' = Some (s', es') ->
  (forall k b, 0 <= k < num_pieces (c_info (cfg x)) -> on_disk (cfg x) (sh_disk s) k = Some b -> on_disk (cfg x) (sh_disk s') k = Some b) /\
  (forall b, content (cfg x) (sh_disk s) = Some b -> content (cfg x) (sh_disk s') = Some b).
Proof using ok nb clean env.
  intros E E'. destruct (run_sinv _ _ _ E) as [I V]. destruct (share_run_ok _ _ _ _ I E') as (_ & K & _). apply K.
Qed.
End Share.
