(** A working disk: no storage call fails by itself. *)
From Verif Require Import GoBase GoBaseProofs Metainfo MetainfoSpec MetainfoProofs Fs FsProofs Storage StorageSys StorageSpec StorageMemSpec StorageFsProofs StorageIoProofs StorageCoalesceProofs StorageProofs StorageGetProofs StorageLoadProofs StorageSysSpec StorageSysProofs StorageHealthSpec.

Section Health.
Variable sha1 : bytes -> bytes.
Variable cfg : config.
Variable env : nat -> choice.
Hypothesis ok : config_ok cfg.
Hypothesis W : works env.
Hypothesis FF : files_fit cfg.
Notation i := (c_info cfg).
Notation n := (num_pieces i).
Notation temps := (temps cfg).
Notation pdir := (pieces_dir cfg).
Notation name t := (ch_name (env t)).

(** The disk has room for what happens from call number T on. *)
Definition ready (T : nat) (f : fs) : Prop :=
  lookup (c_target cfg) f = Some NDir /\
  (forall q b, under_path q temps = true \/ under_path q pdir = true -> lookup q f <> Some (NFile b)) /\
  (forall t q, (T <= t)%nat -> under_path (temps ++ [name t]) q = true -> lookup q f = None).
Lemma ready_later T T' f : (T <= T')%nat -> ready T f -> ready T' f.
Proof. intros H (A & B & C). split; [exact A|]. split; [exact B|]. intros t q Ht. apply C. lia. Qed.
Definition old (T : nat) (x : bytes) : Prop := forall t, (T <= t)%nat -> name t <> x.
Lemma old_name t : old (S t) (name t).
Proof. intros t' H E. apply W in E. lia. Qed.
Lemma old_later T T' x : (T <= T')%nat -> old T x -> old T' x.
Proof. intros H O t Ht. apply O. lia. Qed.

(** A change that takes nothing away from the target directory and puts nothing in the way. *)
Definition harmless (T : nat) (q : path) (nd : node) : Prop :=
  (forall t, (T <= t)%nat -> under_path (temps ++ [name t]) q = false) /\
  (nd = NDir \/ under_path q temps = false /\ under_path q pdir = false).
Lemma ready_step T f f' : ready T f -> lookup (c_target cfg) f' = Some NDir ->
  (forall q, lookup q f' = lookup q f \/ lookup q f' = None \/ exists nd, lookup q f' = Some nd /\ harmless T q nd) -> ready T f'.
Proof.
  intros (A & B & C) D E. split; [exact D|]. split.
  - intros q b U Hq. destruct (E q) as [Eq|[Eq|(nd & Eq & _ & [->|[N1 N2]])]]; rewrite Eq in Hq; try discriminate.
    + now apply (B q b U).
    + injection Hq as ->. destruct U; congruence.
  - intros t q Ht U. destruct (E q) as [Eq|[Eq|(nd & Eq & N & _)]]; [rewrite Eq; eapply C; eauto|exact Eq|]. rewrite N in U by exact Ht. discriminate.
Qed.

Lemma target_dir_work r : c_target cfg <> c_work cfg ++ r.
Proof.
  intros E. pose proof (sep2 cfg ok) as H. unfold target in H. rewrite E, <- app_assoc in H. now rewrite under_path_app in H.
Qed.
Lemma target_dir_apart r : under_path (c_work cfg ++ r) (c_target cfg) = false.
Proof. destruct (under_path _ _) eqn:E; [|reflexivity]. apply under_path_iff in E as [q E]. rewrite <- app_assoc in E. now apply target_dir_work in E. Qed.
Lemma longer_not_under (p q r : path) : under_path (p ++ q) (p ++ r) = under_path q r.
Proof. induction p; cbn; [reflexivity|]. now rewrite bytes_eqb_refl. Qed.
Lemma temps_x x r : temps ++ x :: r = c_work cfg ++ bs "temp" :: x :: r.
Proof. unfold StorageFsProofs.temps. now rewrite <- app_assoc. Qed.
Lemma pdir_x x r : pdir ++ x :: r = c_work cfg ++ hex (i_sha1 i) :: x :: r.
Proof. unfold pieces_dir. now rewrite <- app_assoc. Qed.
Lemma hex_temp : bytes_eqb (hex (i_sha1 i)) (bs "temp") = false.
Proof. apply bytes_eqb_neq. apply hex_not_temp. now apply sha_nonnil. Qed.
Lemma temp_hex : bytes_eqb (bs "temp") (hex (i_sha1 i)) = false.
Proof. apply bytes_eqb_neq. intros E. symmetry in E. revert E. apply hex_not_temp. now apply sha_nonnil. Qed.
(** Below a used temporary name nothing is in the way. *)
Lemma temp_harmless T x r nd : old T x -> harmless T (temps ++ x :: r) nd.
Proof.
  intros O. split.
  - intros t Ht. change (temps ++ x :: r) with (temps ++ ([x] ++ r)). rewrite longer_not_under. cbn.
    apply andb_false_iff. left. apply bytes_eqb_neq. now apply O.
  - right. rewrite temps_x. split; unfold StorageFsProofs.temps, pieces_dir; rewrite longer_not_under; cbn [under_path].
    + now rewrite andb_false_r.
    + now rewrite andb_false_r.
Qed.
(** Directories above temp, the piece directory, or a file below a used name. *)
Lemma above_harmless T p q : under_path q p = true -> (forall t, (T <= t)%nat -> under_path (temps ++ [name t]) p = false) -> harmless T q NDir.
Proof.
  intros U H. split; [|now left]. intros t Ht. destruct (under_path _ q) eqn:E; [|reflexivity].
  rewrite <- (H t Ht). symmetry. eapply under_path_trans; eauto.
Qed.
Lemma ready_adds T p f f' : adds_dirs p f f' -> (forall t, (T <= t)%nat -> under_path (temps ++ [name t]) p = false) -> ready T f -> ready T f'.
Proof.
  intros [_ A] H R. eapply ready_step; [exact R| |].
  - destruct R as (R & _). destruct (A (c_target cfg)) as [->|(E & _)]; [exact R|congruence].
  - intros q. destruct (A q) as [E|(E1 & E2 & U)]; [now left|]. right. right. exists NDir. split; [exact E2|]. eapply above_harmless; eauto.
Qed.
Lemma ready_put T x r nd f : old T x -> ready T f -> ready T (put (temps ++ x :: r) nd f).
Proof.
  intros O R. eapply ready_step; [exact R| |].
  - rewrite lookup_put_other; [apply R|]. rewrite temps_x. apply target_dir_work.
  - intros q. destruct (path_eq_dec q (temps ++ x :: r)) as [->|N]; [|left; now apply lookup_put_other].
    right. right. exists nd. split; [|now apply temp_harmless]. apply lookup_put_same. now destruct temps.
Qed.
Lemma ready_filter T (keep : path -> bool) f : keep (c_target cfg) = true -> ready T f -> ready T (filter (fun e => keep (fst e)) f).
Proof.
  intros K R. destruct (c_target cfg) as [|a ct] eqn:Ec.
  - eapply ready_step; [exact R|now rewrite Ec|]. intros q. destruct q as [|b q]; [now left|]. rewrite (lookup_filter (b :: q) f keep) by easy. destruct (keep (b :: q)); auto.
  - eapply ready_step; [exact R| |].
    + rewrite Ec, (lookup_filter _ f keep) by easy. rewrite K. rewrite <- Ec. apply R.
    + intros q. destruct q as [|b q]; [now left|]. rewrite (lookup_filter (b :: q) f keep) by easy. destruct (keep (b :: q)); auto.
Qed.
Lemma ready_del T x f : ready T f -> ready T (del (temps ++ [x]) f).
Proof.
  intros R. unfold del. apply (ready_filter T (fun p => negb (path_eqb (temps ++ [x]) p))); [|exact R].
  apply negb_true_iff, path_eqb_neq. rewrite temps_x. intros E. symmetry in E. now apply target_dir_work in E.
Qed.
Lemma ready_remove T c r f : ready T f ->
  ready T (ef_mid (remove_all c (c_work cfg ++ r) f)) /\ ready T (filter (fun e => negb (under_path (c_work cfg ++ r) (fst e))) f).
Proof.
  intros R. pose proof (target_dir_apart r) as H. split.
  - cbn. apply (ready_filter T (fun p => negb (under_path (c_work cfg ++ r) p) || ch_keep c p)); [now rewrite H|exact R].
  - apply (ready_filter T (fun p => negb (under_path (c_work cfg ++ r) p))); [now rewrite H|exact R].
Qed.
Lemma ready_move T x dst f : under_path (temps ++ [x]) dst = false -> under_path dst (temps ++ [x]) = false ->
  under_path dst (c_target cfg) = false -> under_path dst pdir = false ->
  (forall t q, under_path dst q = true -> under_path (temps ++ [name t]) q = false) ->
  ready T f -> ready T (move (temps ++ [x]) dst f).
Proof.
  intros S1 S2 S3 S4 S5 R.
  assert (S6 : under_path dst temps = false).
  { destruct (under_path dst temps) eqn:E; [|reflexivity]. rewrite <- S2. symmetry. eapply under_path_trans; [exact E|apply under_path_app]. }
  eapply ready_step; [exact R| |].
  - rewrite lookup_move, S3 by easy. replace (under_path (temps ++ [x]) (c_target cfg)) with false; [apply R|].
    rewrite temps_x. symmetry. apply target_dir_apart.
  - intros q. rewrite lookup_move by easy. destruct (under_path dst q) eqn:U.
    + destruct (lookup _ f) as [nd|] eqn:El; [|now right; left]. right. right. exists nd. split; [reflexivity|]. split; [auto|].
      right. split.
      * destruct (under_path q temps) eqn:E; [|reflexivity]. rewrite <- S6. symmetry. eapply under_path_trans; eauto.
      * destruct (under_path q pdir) eqn:E; [|reflexivity]. rewrite <- S4. symmetry. eapply under_path_trans; eauto.
    + destruct (under_path (temps ++ [x]) q); auto.
Qed.
Lemma ready_place T x k f : ready T f -> ready T (move (temps ++ [x]) (piece_file cfg k) f).
Proof.
  destruct (temp_piece_apart cfg ok x k) as [S1 S2]. apply ready_move; auto.
  - unfold piece_file. rewrite pdir_x. apply target_dir_apart.
  - unfold piece_file. rewrite <- (app_nil_r pdir) at 2. now rewrite longer_not_under.
  - intros t q U. apply under_path_iff in U as [r ->]. unfold piece_file. rewrite <- app_assoc. cbn [app]. rewrite pdir_x, temps_x, longer_not_under.
    cbn [under_path]. now rewrite temp_hex.
Qed.
Lemma ready_target T x f : ready T f -> ready T (move (temps ++ [x]) (target cfg) f).
Proof.
  destruct (temp_target_apart cfg ok x) as [S1 S2]. apply ready_move; auto.
  - unfold target. rewrite <- (app_nil_r (c_target cfg)) at 2. now rewrite longer_not_under.
  - unfold pieces_dir. now apply work_not_under_target.
  - intros t q U. destruct (under_path (temps ++ [name t]) q) eqn:E; [|reflexivity]. apply under_path_iff in E as [r E]. rewrite temps_x in E. cbn in E.
    rewrite <- app_assoc in E. now apply (target_not_under_work cfg ok _ _ U) in E.
Qed.
Lemma mkdirs_succeeds l f : (forall q b, In q l -> lookup q f <> Some (NFile b)) -> exists f', mkdirs l f = Some f'.
Proof.
  revert f; induction l as [|q l IH]; cbn; intros f H; [eauto|]. destruct (lookup q f) as [[|b]|] eqn:E.
  - apply IH. eauto.
  - exfalso. eapply H; eauto.
  - apply IH. intros p b Hp. destruct (path_eq_dec p q) as [->|N].
    + destruct q; [discriminate|]. now rewrite lookup_put_same.
    + rewrite lookup_put_other by easy. eauto.
Qed.

(** *** The io monad *)
Definition Hw (T0 : nat) (m : mem) (X : fs -> Prop) (w : world) : Prop :=
  (T0 <= w_tick w)%nat /\ ready (w_tick w) (w_fs w) /\ Forall (ready (w_tick w)) (w_past w) /\ w_mem w = m /\ X (w_fs w).
Definition good {A} (w : world) (r : res serr A) : Prop :=
  ready (w_tick w) (w_fs w) /\ Forall (ready (w_tick w)) (w_past w) /\ r <> Err EIO.
Lemma past_later T T' l : (T <= T')%nat -> Forall (ready T) l -> Forall (ready T') l.
Proof. intros H. apply Forall_impl. intros f. now apply ready_later. Qed.
Lemma h_act T0 m (X Y : fs -> Prop) ef :
  (forall T f c, (T0 <= T)%nat -> ready T f -> X f -> c = env T -> exists f', ef_end (ef c f) = Some f' /\ ready (S T) f' /\ ready (S T) (ef_mid (ef c f)) /\ Y f') ->
  triple (Hw T0 m X) (act env ef) (fun w r => r = Ok tt /\ Hw T0 m Y w).
Proof.
  intros H w w' r (H1 & H2 & H3 & H4 & H5) E. unfold act in E. cbv zeta in E. rewrite (proj1 (proj1 W (w_tick w))) in E.
  destruct (H _ _ _ H1 H2 H5 eq_refl) as (f' & E1 & R1 & R2 & Y1). rewrite E1 in E. injection E as <- <-. split; [reflexivity|].
  split; [cbn; lia|]. split; [exact R1|]. split; [|now split]. cbn. constructor; [exact R1|]. constructor; [exact R2|]. eapply past_later; [|exact H3]. lia.
Qed.
Lemma h_look {A} T0 m (X : fs -> Prop) (q : choice -> fs -> option A) (Y : A -> Prop) :
  (forall c f, X f -> exists x, q c f = Some x /\ Y x) -> triple (Hw T0 m X) (look env q) (fun w r => exists x, r = Ok x /\ Y x /\ Hw T0 m X w).
Proof.
  intros H w w' r (H1 & H2 & H3 & H4 & H5) E. unfold look in E. cbv zeta in E. rewrite (proj1 (proj1 W (w_tick w))) in E. injection E as <- <-.
  destruct (H (env (w_tick w)) _ H5) as (x & -> & Hy). exists x. split; [reflexivity|]. split; [exact Hy|].
  split; [cbn; lia|]. split; [eapply ready_later; [|exact H2]; cbn; lia|]. split; [|now split]. eapply past_later; [|exact H3]. cbn. lia.
Qed.
Lemma h_bind {A B} (P : world -> Prop) (a : io A) (k : A -> io B) (R : A -> world -> Prop) (Q : world -> res serr B -> Prop) :
  triple P a (fun w r => exists x, r = Ok x /\ R x w) -> (forall x, triple (R x) (k x) Q) -> triple P (bind a k) Q.
Proof.
  intros H1 H2. eapply t_bind; [exact H1| | |].
  - intros x w w' r (y & [= ->] & Hr) E. eapply H2; eauto.
  - now intros w e (x & ? & _).
  - now intros w (x & ? & _).
Qed.
Lemma h_then {B} (P R : world -> Prop) (a : io unit) (k : io B) (Q : world -> res serr B -> Prop) :
  triple P a (fun w r => r = Ok tt /\ R w) -> triple R k Q -> triple P (bind a (fun _ => k)) Q.
Proof. intros H1 H2. apply h_bind with (R := fun _ => R); [|now intros _]. eapply t_conseq; [exact H1|auto|]. intros w r [-> H]. exists tt. auto. Qed.

Lemma h_mkdir T0 m (X Y : fs -> Prop) p :
  (forall T, (T0 <= T)%nat -> forall t, (T <= t)%nat -> under_path (temps ++ [name t]) p = false) ->
  (forall T f q b, (T0 <= T)%nat -> ready T f -> X f -> under_path q p = true -> lookup q f <> Some (NFile b)) ->
  (forall f f', X f -> adds_dirs p f f' -> lookup p f' = Some NDir -> Y f') ->
  triple (Hw T0 m X) (act env (fun c => mkdir_all c p)) (fun w r => r = Ok tt /\ Hw T0 m Y w).
Proof.
  intros N F K. apply h_act. intros T f c HT R HX _.
  destruct (mkdirs_succeeds (prefixes p) f) as [f' E].
  { intros q b Hq. apply prefixes_in in Hq as [_ Hq]. eapply F; eauto. }
  exists f'. split; [exact E|]. destruct (mkdir_all_end c p f f' E) as [A D].
  split; [|split].
  - eapply ready_later with (T := T); [lia|]. eapply ready_adds; eauto.
  - eapply ready_later with (T := T); [lia|]. eapply ready_adds; [apply mkdir_all_mid|eauto|exact R].
  - eapply K; eauto.
Qed.
Lemma temps_not_under t : under_path (temps ++ [name t]) temps = false.
Proof. rewrite <- (app_nil_r temps) at 2. now rewrite longer_not_under. Qed.
Lemma pdir_not_under t : under_path (temps ++ [name t]) pdir = false.
Proof. rewrite temps_x. unfold pieces_dir. rewrite longer_not_under. cbn [under_path]. now rewrite temp_hex. Qed.
Lemma h_mkdir_temps T0 m (X : fs -> Prop) : (forall f f', X f -> adds_dirs temps f f' -> X f') ->
  triple (Hw T0 m X) (act env (fun c => mkdir_all c temps)) (fun w r => r = Ok tt /\ Hw T0 m (fun f => X f /\ lookup temps f = Some NDir) w).
Proof.
  intros K. apply h_mkdir.
  - intros. apply temps_not_under.
  - intros T f q b _ (_ & R & _) _ U. apply R. now left.
  - intros f f' HX A D. split; eauto.
Qed.
Lemma h_temp T0 m (X : fs -> Prop) nd pat : existsb (beqb "/"%byte) pat = false -> (forall f x, X f -> X (put (temps ++ [x]) nd f)) ->
  triple (Hw T0 m (fun f => X f /\ lookup temps f = Some NDir)) (temp_file env nd temps pat)
    (fun w r => exists p, r = Ok p /\ exists x T1, p = temps ++ [x] /\ old T1 x /\
       Hw T1 m (fun f => X f /\ lookup temps f = Some NDir /\ lookup (temps ++ [x]) f = Some nd /\ forall r, r <> [] -> lookup (temps ++ [x] ++ r) f = None) w).
Proof.
  intros Hp K w w' r (H1 & H2 & H3 & H4 & H5 & H6) E. unfold temp_file, bind, act in E. cbv zeta in E.
  destruct (proj1 W (w_tick w)) as [E1 E2]. rewrite E1 in E. unfold make_temp in E. cbn [ef_end ef_mid] in E. rewrite Hp, E2 in E.
  unfold is_dir in E. rewrite H6 in E. cbn [negb orb] in E.
  destruct H2 as (R1 & R2 & R3). assert (Fr : lookup (temps ++ [name (w_tick w)]) (w_fs w) = None) by (eapply R3; [|apply under_path_refl]; lia).
  rewrite Fr in E. injection E as <- <-. eexists. split; [reflexivity|]. exists (name (w_tick w)), (S (w_tick w)). split; [reflexivity|].
  split; [apply old_name|]. assert (R : ready (w_tick w) (w_fs w)) by (split; auto).
  assert (R' : ready (S (w_tick w)) (put (temps ++ [name (w_tick w)]) nd (w_fs w))).
  { apply ready_put; [apply old_name|]. eapply ready_later; [|exact R]. lia. }
  split; [cbn; lia|]. split; [exact R'|]. split; [|split; [exact H4|]].
  - cbn. constructor; [exact R'|]. constructor; [eapply ready_later; [|exact R]; lia|]. eapply past_later; [|exact H3]. lia.
  - cbn [w_fs]. assert (Nn : temps ++ [name (w_tick w)] <> []) by now destruct temps. split; [now apply K|]. split.
    + rewrite lookup_put_other; [exact H6|]. rewrite <- (app_nil_r temps) at 1. intros E. now apply app_inv_head in E.
    + split; [now apply lookup_put_same|]. intros r Hr. rewrite lookup_put_other.
      * eapply R3; [|rewrite app_assoc; apply under_path_app]. lia.
      * intros E. apply app_inv_head in E. cbn in E. injection E as E. contradiction.
Qed.
Lemma h_write T0 m (X Y : fs -> Prop) x r data : old T0 x -> (forall f d, X f -> Y (put (temps ++ x :: r) (NFile d) f)) ->
  triple (Hw T0 m X) (act env (fun c => write c (temps ++ x :: r) data)) (fun w res => res = Ok tt /\ Hw T0 m (fun f => Y f /\ lookup (temps ++ x :: r) f = Some (NFile data)) w).
Proof.
  intros O K. apply h_act. intros T f c HT R HX _. cbn. eexists. split; [reflexivity|].
  assert (O' : old T x) by (eapply old_later; eauto).
  split; [eapply ready_later with (T := T); [lia|]; now apply ready_put|]. split; [eapply ready_later with (T := T); [lia|]; now apply ready_put|].
  split; [now apply K|]. apply lookup_put_same. now destruct temps.
Qed.
(** What follows only changes the memory. *)
Definition mem_only {A} (a : io A) : Prop := forall w w' r, a w = (w', r) -> w_fs w' = w_fs w /\ w_tick w' = w_tick w /\ w_past w' = w_past w /\ forall e, r <> Err e.
Lemma mem_only_bind {A B} (a : io A) (k : A -> io B) : mem_only a -> (forall x, mem_only (k x)) -> mem_only (bind a k).
Proof.
  intros Ha Hk w w' r E. unfold bind in E. destruct (a w) as [w1 [x|e|]] eqn:E1; destruct (Ha _ _ _ E1) as (A1 & A2 & A3 & A4).
  - destruct (Hk _ _ _ _ E) as (B1 & B2 & B3 & B4). repeat split; try congruence.
  - now destruct (A4 e).
  - injection E as <- <-. repeat split; auto. easy.
Qed.
Lemma mem_only_get : mem_only get_mem. Proof. intros w w' r [= <- <-]. repeat split; easy. Qed.
Lemma mem_only_set m : mem_only (set_mem m). Proof. intros w w' r [= <- <-]. repeat split; easy. Qed.
Lemma mem_only_panics {A} : mem_only (@panics A). Proof. intros w w' r [= <- <-]. repeat split; easy. Qed.
Lemma mem_only_ret {A} (x : A) : mem_only (ret x). Proof. intros w w' r [= <- <-]. repeat split; easy. Qed.
Hint Resolve mem_only_get mem_only_set mem_only_panics mem_only_ret : core.
Lemma mem_only_deliver id v : mem_only (deliver id v).
Proof. apply mem_only_bind; [auto|]. intros m. destruct (nth_error _ _) as [[]|]; auto. Qed.
Lemma mem_only_piece k : mem_only (piece_at k).
Proof. apply mem_only_bind; [auto|]. intros m. match goal with |- mem_only (match ?x with _ => _ end) => destruct x end; auto. Qed.
Lemma mem_only_complete k : mem_only (complete_piece k).
Proof.
  apply mem_only_bind; [apply mem_only_piece|]. intros p. apply mem_only_bind; [apply mem_only_deliver|]. intros _.
  apply mem_only_bind; [apply mem_only_bind; auto|]. intros _. apply mem_only_bind; [auto|]. intros m. destruct (Bitfield.bf_add _ _); auto.
Qed.
Lemma mem_only_torrent : mem_only complete_torrent.
Proof. apply mem_only_bind; [auto|]. intros m. apply mem_only_bind; [auto|]. intros _. apply mem_only_deliver. Qed.
Lemma mem_only_add k : mem_only (add_downloaded k).
Proof. apply mem_only_bind; auto. Qed.
Lemma h_mem_only T0 m (X : fs -> Prop) {A} (a : io A) : mem_only a -> triple (Hw T0 m X) a (fun w r => good w r /\ X (w_fs w) /\ (T0 <= w_tick w)%nat).
Proof.
  intros H w w' r (H1 & H2 & H3 & _ & H5) E. destruct (H _ _ _ E) as (E1 & E2 & E3 & E4). unfold good. rewrite E1, E2, E3. repeat split; auto; apply H2.
Qed.

Definition clear (k : Z) (f : fs) : Prop := lookup (piece_file cfg k) f = None.
Lemma clear_adds k p f f' : clear k f -> under_path (piece_file cfg k) p = false -> adds_dirs p f f' -> clear k f'.
Proof. intros C U [_ A]. unfold clear in *. destruct (A (piece_file cfg k)) as [->|(_ & _ & E)]; [exact C|congruence]. Qed.
Lemma clear_put k x r nd f : clear k f -> clear k (put (temps ++ x :: r) nd f).
Proof.
  intros C. unfold clear in *. rewrite lookup_put_other; [exact C|]. unfold piece_file. rewrite pdir_x, temps_x. intros E. apply app_inv_head in E.
  injection E as E _. revert E. apply hex_not_temp. now apply sha_nonnil.
Qed.
Lemma piece_file_temps k : under_path (piece_file cfg k) temps = false.
Proof. unfold piece_file. rewrite pdir_x. unfold StorageFsProofs.temps. rewrite longer_not_under. cbn [under_path]. now rewrite hex_temp. Qed.
Lemma piece_file_pdir k : under_path (piece_file cfg k) pdir = false.
Proof. unfold piece_file. rewrite <- (app_nil_r pdir) at 2. now rewrite longer_not_under. Qed.
Lemma no_slash s : (forall c, In c s -> c <> "/"%byte) -> existsb (beqb "/"%byte) s = false.
Proof.
  intros H. destruct (existsb _ s) eqn:E; [|reflexivity]. apply existsb_exists in E as (c & Hc & E). apply beqb_eq in E. now destruct (H c Hc).
Qed.
Lemma pattern_ok k : 0 <= k -> existsb (beqb "/"%byte) (hex (i_sha1 i) ++ bs "-" ++ piece_name k) = false.
Proof.
  intros Hk. apply no_slash. intros c Hc. apply in_app_iff in Hc as [Hc|Hc]; [now apply hex_chars in Hc|].
  apply in_app_iff in Hc as [[<-|[]]|Hc]; [discriminate|]. destruct (plain_name_no_slash _ (piece_name_plain k Hk)) as [N _]. now intros ->.
Qed.
Lemma name_pattern : existsb (beqb "/"%byte) (i_name i) = false.
Proof. apply no_slash. intros c Hc ->. now destruct (plain_name_no_slash _ (name_plain cfg ok)) as [N _]. Qed.

Lemma good_err {A} T0 m X w (r : res serr A) : Hw T0 m X w -> r <> Err EIO -> good w r.
Proof. intros (_ & H2 & H3 & _) H. now split. Qed.
Lemma h_cleanup {A} x (r : res serr A) : triple (fun w => good w r) (act env (fun _ => remove (temps ++ [x]))) (fun w _ => good w r).
Proof.
  intros w w' r' (R & P & N) E. unfold act in E. cbv zeta in E. rewrite (proj1 (proj1 W (w_tick w))) in E. cbn in E. injection E as <- <-.
  split; [|split; [|exact N]]; cbn.
  - eapply ready_later with (T := w_tick w); [lia|]. now apply ready_del.
  - constructor; [eapply ready_later with (T := w_tick w); [lia|]; now apply ready_del|]. constructor; [eapply ready_later; [|exact R]; lia|].
    eapply past_later; [|exact P]. lia.
Qed.
Lemma h_cleanup_all {A} x (r : res serr A) : triple (fun w => good w r) (act env (fun c => remove_all c (temps ++ [x]))) (fun w _ => good w r).
Proof.
  intros w w' r' (R & P & N) E. unfold act in E. cbv zeta in E. rewrite (proj1 (proj1 W (w_tick w))) in E. rewrite temps_x in E. cbn [remove_all ef_end] in E. injection E as <- <-.
  destruct (ready_remove (w_tick w) (env (w_tick w)) [bs "temp"; x] _ R) as [R1 R2].
  split; [|split; [|exact N]]; cbn [w_fs w_tick w_past].
  - eapply ready_later with (T := w_tick w); [lia|exact R2].
  - constructor; [eapply ready_later with (T := w_tick w); [lia|exact R2]|]. constructor; [eapply ready_later with (T := w_tick w); [lia|exact R1]|].
    eapply past_later; [|exact P]. lia.
Qed.
Lemma h_rename T0 m (X Y : fs -> Prop) x dst nd :
  (forall T f, ready T f -> ready T (move (temps ++ [x]) dst f)) -> under_path (temps ++ [x]) dst = false ->
  (forall f, X f -> lookup (temps ++ [x]) f = Some nd /\ lookup dst f = None /\ lookup (parent dst) f = Some NDir) ->
  (forall f, X f -> Y (move (temps ++ [x]) dst f)) ->
  triple (Hw T0 m X) (act env (fun _ => rename (temps ++ [x]) dst)) (fun w r => r = Ok tt /\ Hw T0 m Y w).
Proof.
  intros M U K1 K2. apply h_act. intros T f c _ R HX _. destruct (K1 f HX) as (E1 & E2 & E3).
  exists (move (temps ++ [x]) dst f). split.
  - cbn. unfold is_dir. rewrite E1, E2, E3, U. now destruct nd.
  - split; [eapply ready_later with (T := T); [lia|]; now apply M|]. split; [eapply ready_later; [|exact R]; lia|now apply K2].
Qed.
Lemma get_run T0 m X {B} (k : mem -> io B) Q : triple (Hw T0 m X) (k m) Q -> triple (Hw T0 m X) (bind get_mem k) Q.
Proof. intros H w w' r Hx E. unfold bind, get_mem in E. pose proof Hx as (_ & _ & _ & Em & _). rewrite Em in E. eapply H; eauto. Qed.

Lemma h_blocks m k p : nth_error (t_pieces m) k = Some p -> pc_index p = Z.of_nat k ->
  triple (Hw 0 m (clear (Z.of_nat k))) (coalesce_blocks sha1 cfg env (Z.of_nat k)) good.
Proof.
  intros Hk Pi. unfold coalesce_blocks. apply h_bind with (R := fun q w => q = p /\ Hw 0 m (clear (Z.of_nat k)) w).
  { intros w w' r Hx E. rewrite (piece_at_in sha1 cfg env ok k p) in E by (destruct Hx as (_ & _ & _ & -> & _); exact Hk). injection E as <- <-. eauto. }
  intros q w w' r [-> Hx]. revert w w' r Hx. change (triple (Hw 0 m (clear (Z.of_nat k)))
    (let l := match pc_blocks p with Some l => l | None => [] end in
     if negb (pc_complete p =? zlen l) then ret tt
     else
       act env (fun c => mkdir_all c (temp_dir cfg)) ;;
       do temp <- temp_file env (NFile []) (temp_dir cfg) (hex (i_sha1 (the_info cfg)) ++ bs "-" ++ piece_name (pc_index p));
       finally
         (match all_blocks l with
          | None => panics
          | Some data =>
              act env (fun c => write c temp data) ;;
              if negb (bytes_eqb (sha1 data) (pc_sha1 p)) then fails (EChecksum (pc_index p) (sha1 data) (pc_sha1 p))
              else
                act env (fun c => mkdir_all c (piece_dir cfg)) ;;
                act env (fun _ => rename temp (piece_path cfg (pc_index p))) ;;
                complete_piece (Z.of_nat k)
          end)
         (act env (fun _ => remove temp))) good).
  cbv zeta. destruct (negb _); [apply t_ret; intros w Hx; eapply good_err; eauto; discriminate|].
  rewrite (temp_dir_eq cfg), (piece_dir_eq cfg ok), Pi, (piece_path_eq cfg ok) by lia.
  eapply h_then; [apply h_mkdir_temps; intros f f' C A; eapply clear_adds; eauto; apply piece_file_temps|].
  eapply h_bind; [apply h_temp; [apply pattern_ok; lia|intros f x C; now apply clear_put]|].
  intros temp w w' r (x & T1 & -> & O & Hx). revert w w' r Hx.
  match goal with |- forall w w' r, ?P w -> ?a w = (w', r) -> @good ?A w' r => change (triple P a (@good A)) end.
  eapply t_finally; [|intros r; apply h_cleanup].
  destruct (all_blocks _) as [data|]; [|apply t_panics; intros w Hx; eapply good_err; eauto; discriminate].
  eapply h_then; [apply (h_write T1 m _ (clear (Z.of_nat k)) x []); [exact O|intros f d (C & _); now apply clear_put]|].
  destruct (negb _); [apply t_fails; intros w Hx; eapply good_err; eauto; discriminate|].
  eapply h_then; [apply h_mkdir with (Y := fun f => clear (Z.of_nat k) f /\ lookup (temps ++ [x]) f = Some (NFile data) /\ lookup pdir f = Some NDir)|].
  { intros. apply pdir_not_under. }
  { intros T f q b _ (_ & R & _) _ U. apply R. now right. }
  { intros f f' [C L] A D. split; [eapply clear_adds; eauto; apply piece_file_pdir|]. split; [|exact D].
    destruct A as [_ A]. destruct (A (temps ++ [x])) as [->|(E & _)]; [exact L|congruence]. }
  eapply h_then; [apply (h_rename T1 m _ (fun _ => True) x (piece_file cfg (Z.of_nat k)) (NFile data))|].
  { intros T f. apply ready_place. }
  { apply (proj1 (temp_piece_apart cfg ok x (Z.of_nat k))). }
  { intros f (C & L & D). split; [exact L|]. split; [exact C|]. now rewrite piece_file_parent. }
  { easy. }
  eapply t_conseq; [apply (h_mem_only T1 m (fun _ => True)); apply mem_only_complete|auto|now intros w r [H _]].
Qed.

(** *** The file loop *)
(** Below the temporary directory are only the files done and the directories they need. *)
Definition tree (x : bytes) (done : list file) (f : fs) : Prop :=
  lookup (target cfg) f = None /\ lookup temps f = Some NDir /\ lookup (temps ++ [x]) f = Some NDir /\
  (forall r b, r <> [] -> lookup (temps ++ x :: r) f = Some (NFile b) -> exists y, In y done /\ r = f_path y) /\
  (forall r, r <> [] -> lookup (temps ++ x :: r) f = Some NDir -> exists y, In y done /\ under_path r (f_path y) = true /\ r <> f_path y).
Lemma removelast_under (p : path) : under_path (removelast p) p = true.
Proof. destruct p as [|a p] using rev_ind; [reflexivity|]. rewrite removelast_last. apply under_path_app. Qed.
Lemma removelast_ne (p q : path) : p <> [] -> under_path q (removelast p) = true -> q <> p.
Proof.
  intros N U ->. destruct p as [|a p] using rev_ind; [congruence|]. rewrite removelast_last in U. apply under_path_iff in U as [r E].
  rewrite <- app_assoc in E. rewrite <- (app_nil_r p) in E at 1. apply app_inv_head in E. discriminate.
Qed.
Lemma tree_target_put x r nd done f : tree x done f -> lookup (target cfg) (put (temps ++ x :: r) nd f) = None.
Proof.
  intros (H & _). rewrite lookup_put_other; [exact H|]. rewrite temps_x. eapply target_not_under_work; [exact ok|apply under_path_refl].
Qed.
Lemma h_copy m x T0 : old T0 x -> forall files done data,
  (forall y, In y files -> In y (i_files i)) -> Forall (fun y => 0 <= f_length y) files -> total_of files <= zlen data ->
  (forall y z, In y files -> In z done -> under_path (f_path y) (f_path z) = false /\ under_path (f_path z) (f_path y) = false) ->
  (forall a b y z, nth_error files a = Some y -> nth_error files b = Some z -> under_path (f_path y) (f_path z) = true -> a = b) ->
  triple (Hw T0 m (tree x done)) (copy_files env (temps ++ [x]) files data)
    (fun w r => r = Ok tt /\ Hw T0 m (fun f => lookup (target cfg) f = None /\ lookup (temps ++ [x]) f = Some NDir) w).
Proof.
  intros O. induction files as [|y files IH]; intros done data Hin Hlen Htot Hd Hff; cbn [copy_files].
  { apply t_ret. intros w (H1 & H2 & H3 & H4 & H5). split; [reflexivity|]. repeat split; auto; try apply H2; apply H5. }
  inversion Hlen as [|? ? Hy Hlen']; subst.
  destruct (file_path_eq cfg ok (temps ++ [x]) y (Hin y (or_introl eq_refl))) as (Efp & Hpn & Ejn).
  eapply h_then with (R := Hw T0 m (tree x done)).
  { destruct (f_path y); [congruence|]. apply t_ret. auto. }
  rewrite Ejn, Efp, <- !app_assoc. cbn [app].
  (* the directory of y *)
  set (mid := fun f => lookup (target cfg) f = None /\ lookup temps f = Some NDir /\ lookup (temps ++ [x]) f = Some NDir /\
    (forall r b, r <> [] -> lookup (temps ++ x :: r) f = Some (NFile b) -> exists z, In z done /\ r = f_path z) /\
    (forall r, r <> [] -> lookup (temps ++ x :: r) f = Some NDir -> exists z, In z (done ++ [y]) /\ under_path r (f_path z) = true /\ r <> f_path z) /\
    lookup (temps ++ x :: removelast (f_path y)) f = Some NDir).
  eapply h_then; [apply h_mkdir with (Y := mid)|].
  { intros T HT t Ht. change (temps ++ x :: removelast (f_path y)) with (temps ++ ([x] ++ removelast (f_path y))). rewrite longer_not_under. cbn.
    apply andb_false_iff. left. apply bytes_eqb_neq. apply O. lia. }
  { intros T f q b _ R (H1 & H2 & H3 & H4 & H5) U Hq.
    destruct (under_path q temps) eqn:Ut; [now apply (proj1 (proj2 R) q b (or_introl Ut))|].
    destruct (under_path_comparable q temps (temps ++ x :: removelast (f_path y)) U (under_path_app _ _)) as [C|C]; [congruence|].
    apply under_path_iff in C as [r ->]. rewrite longer_not_under in U. destruct r as [|x' r]; [rewrite app_nil_r in *; congruence|].
    cbn in U. apply andb_true_iff in U as [Ex U]. apply bytes_eqb_eq in Ex as ->. destruct r as [|r0 r]; [congruence|].
    destruct (H4 (r0 :: r) b ltac:(easy) Hq) as (z & Hz & Er). destruct (Hd y z (or_introl eq_refl) Hz) as [_ N]. rewrite <- Er in N.
    rewrite (under_path_trans _ _ _ U (removelast_under _)) in N. discriminate. }
  { intros f f' (H1 & H2 & H3 & H4 & H5) [_ A] Dd. unfold mid.
    assert (K : forall q nd, lookup q f = Some nd -> lookup q f' = Some nd) by (intros q nd Hq; destruct (A q) as [->|(E & _)]; congruence).
    split. { destruct (A (target cfg)) as [->|(_ & _ & U)]; [exact H1|]. rewrite temps_x, (prefix_not_target cfg ok) in U by apply under_path_refl. discriminate. }
    split; [now apply K|]. split; [now apply K|]. split; [|split].
    - intros r b Hr Hl. destruct (A (temps ++ x :: r)) as [E|(_ & E & _)]; [rewrite E in Hl; eauto|congruence].
    - intros r Hr Hl. destruct (A (temps ++ x :: r)) as [E|(_ & _ & U)].
      + rewrite E in Hl. destruct (H5 r Hr Hl) as (z & Hz & Hu). exists z. split; [apply in_app_iff; now left|exact Hu].
      + change (temps ++ x :: r) with (temps ++ ([x] ++ r)) in U. change (temps ++ x :: removelast (f_path y)) with (temps ++ ([x] ++ removelast (f_path y))) in U.
        rewrite !longer_not_under in U. exists y. split; [apply in_app_iff; right; now left|]. split; [eapply under_path_trans; [exact U|apply removelast_under]|].
        now apply removelast_ne.
    - exact Dd. }
  assert (Hydir : forall f, mid f -> lookup (temps ++ x :: f_path y) f <> Some NDir).
  { intros f (_ & _ & _ & _ & H5 & _) Hl. destruct (H5 _ Hpn Hl) as (z & Hz & U & N). apply in_app_iff in Hz as [Hz|[<-|[]]]; [|congruence].
    destruct (Hd y z (or_introl eq_refl) Hz) as [N' _]. congruence. }
  assert (Hput : forall f b, mid f -> tree x (done ++ [y]) (put (temps ++ x :: f_path y) (NFile b) f)).
  { intros f b M. pose proof M as (H1 & H2 & H3 & H4 & H5 & H6). split; [|split; [|split; [|split]]].
    - rewrite lookup_put_other; [exact H1|]. rewrite temps_x. eapply target_not_under_work; [exact ok|apply under_path_refl].
    - rewrite lookup_put_other; [exact H2|]. rewrite <- (app_nil_r temps) at 1. intros E. now apply app_inv_head in E.
    - rewrite lookup_put_other; [exact H3|]. intros E. apply app_inv_head in E. injection E as E. congruence.
    - intros r c Hr Hl. destruct (path_eq_dec r (f_path y)) as [->|N]; [exists y; split; [apply in_app_iff; right; now left|reflexivity]|].
      rewrite lookup_put_other in Hl by (intros E; apply app_inv_head in E; congruence). destruct (H4 r c Hr Hl) as (z & Hz & E).
      exists z. split; [apply in_app_iff; now left|exact E].
    - intros r Hr Hl. destruct (path_eq_dec r (f_path y)) as [->|N]; [rewrite lookup_put_same in Hl by (now destruct temps); discriminate Hl|].
      rewrite lookup_put_other in Hl by (intros E; apply app_inv_head in E; injection E as E; congruence). eauto. }
  assert (Hpar : parent (temps ++ x :: f_path y) = temps ++ x :: removelast (f_path y)).
  { unfold parent. change (temps ++ x :: f_path y) with (temps ++ ([x] ++ f_path y)). rewrite app_assoc, removelast_app by exact Hpn. now rewrite <- app_assoc. }
  eapply h_then with (R := Hw T0 m (tree x (done ++ [y]))).
  { apply h_act. intros T f c HT R M _. exists (put (temps ++ x :: f_path y) (NFile []) f). split.
    - cbn. pose proof (Hydir f M) as N. destruct (lookup (temps ++ x :: f_path y) f) as [[|b]|]; [congruence|reflexivity|].
      rewrite Hpar. unfold is_dir. destruct M as (_ & _ & _ & _ & _ & ->). reflexivity.
    - assert (O' : old T x) by (eapply old_later; eauto).
      split; [eapply ready_later with (T := T); [lia|]; now apply ready_put|]. split; [eapply ready_later; [|exact R]; lia|now apply Hput]. }
  eapply h_then; [apply h_write with (Y := tree x (done ++ [y])); [exact O|]|].
  { intros f d (H1 & H2 & H3 & H4 & H5). split; [|split; [|split; [|split]]].
    - rewrite lookup_put_other; [exact H1|]. rewrite temps_x. eapply target_not_under_work; [exact ok|apply under_path_refl].
    - rewrite lookup_put_other; [exact H2|]. rewrite <- (app_nil_r temps) at 1. intros E. now apply app_inv_head in E.
    - rewrite lookup_put_other; [exact H3|]. intros E. apply app_inv_head in E. injection E as E. congruence.
    - intros r c Hr Hl. destruct (path_eq_dec r (f_path y)) as [->|N]; [exists y; split; [apply in_app_iff; right; now left|reflexivity]|].
      rewrite lookup_put_other in Hl by (intros E; apply app_inv_head in E; congruence). eauto.
    - intros r Hr Hl. destruct (path_eq_dec r (f_path y)) as [->|N]; [rewrite lookup_put_same in Hl by (now destruct temps); discriminate Hl|].
      rewrite lookup_put_other in Hl by (intros E; apply app_inv_head in E; congruence). eauto. }
  assert (Hrest : 0 <= total_of files) by (apply sum_nonneg; exact Hlen').
  change (total_of (y :: files)) with (f_length y + total_of files) in Htot.
  rewrite (proj2 (Nat.ltb_ge _ _)) by (unfold zlen in Htot; lia).
  eapply h_then with (R := Hw T0 m (tree x (done ++ [y]))).
  { apply t_ret. intros w (H1 & H2 & H3 & H4 & H5 & _). split; [reflexivity|]. split; [exact H1|]. split; [exact H2|]. split; [exact H3|]. now split. }
  apply IH.
  - intros z Hz. apply Hin. now right.
  - exact Hlen'.
  - unfold zlen in *. rewrite skipn_length. lia.
  - intros z u Hz Hu. apply in_app_iff in Hu as [Hu|[<-|[]]]; [apply Hd; auto; now right|].
    apply In_nth_error in Hz as [b Hb]. split.
    + destruct (under_path (f_path z) (f_path y)) eqn:E; [|reflexivity]. pose proof (Hff (S b) 0%nat z y Hb eq_refl E). discriminate.
    + destruct (under_path (f_path y) (f_path z)) eqn:E; [|reflexivity]. pose proof (Hff 0%nat (S b) y z eq_refl Hb E). discriminate.
  - intros a b z u Ha Hb U. pose proof (Hff (S a) (S b) z u Ha Hb U). lia.
Qed.

(** *** The torrent *)
Lemma target_parent : parent (target cfg) = c_target cfg.
Proof. unfold parent, target. apply removelast_last. Qed.
Lemma h_finish T0 m x nd (X : fs -> Prop) : (forall f, X f -> lookup (target cfg) f = None /\ lookup (temps ++ [x]) f = Some nd) ->
  triple (Hw T0 m X) (act env (fun _ => rename (temps ++ [x]) (target cfg)) ;; act env (fun c => remove_all c pdir) ;; complete_torrent) good.
Proof.
  intros K. eapply h_then with (R := Hw T0 m (fun _ => True)).
  { apply h_act. intros T f c HT R HX _. destruct (K f HX) as [E1 E2]. destruct (temp_target_apart cfg ok x) as [S1 S2].
    exists (move (temps ++ [x]) (target cfg) f). split.
    - cbn. unfold is_dir. rewrite E1, E2, S1, target_parent. destruct R as (-> & _). now destruct nd.
    - split; [eapply ready_later with (T := T); [lia|]; now apply ready_target|]. split; [eapply ready_later; [|exact R]; lia|easy]. }
  eapply h_then with (R := Hw T0 m (fun _ => True)).
  { apply h_act. intros T f c HT R _ _. destruct (ready_remove T c [hex (i_sha1 i)] f R) as [R1 R2]. eexists. split; [reflexivity|].
    split; [eapply ready_later with (T := T); [lia|exact R2]|]. split; [eapply ready_later with (T := T); [lia|exact R1]|easy]. }
  eapply t_conseq; [apply (h_mem_only T0 m (fun _ => True)); apply mem_only_torrent|auto|now intros w r [H _]].
Qed.
(** Every piece is in place. *)
Definition stocked (m : mem) (ds : list bytes) (f : fs) : Prop :=
  lookup (target cfg) f = None /\ Forall2 (fun p d => 0 <= pc_index p /\ lookup (piece_file cfg (pc_index p)) f = Some (NFile d)) (t_pieces m) ds.
Lemma stocked_keep m ds f f' : stocked m ds f -> lookup (target cfg) f' = None -> (forall q nd, lookup q f = Some nd -> lookup q f' = Some nd) -> stocked m ds f'.
Proof. intros [H1 H2] E K. split; [exact E|]. eapply Forall2_weaken; [exact H2|]. cbn. intros p d [A B]. auto. Qed.
Lemma stocked_adds m ds f f' : stocked m ds f -> adds_dirs temps f f' -> stocked m ds f'.
Proof.
  intros S [_ A]. eapply stocked_keep; [exact S| |].
  - destruct S as [S _]. destruct (A (target cfg)) as [->|(_ & _ & U)]; [exact S|]. unfold StorageFsProofs.temps in U.
    rewrite (prefix_not_target cfg ok) in U by apply under_path_refl. discriminate.
  - intros q nd Hq. destruct (A q) as [->|(E & _)]; congruence.
Qed.
Lemma stocked_put m ds x nd f : stocked m ds f -> stocked m ds (put (temps ++ [x]) nd f).
Proof.
  intros [S1 S2]. split.
  - rewrite lookup_put_other; [exact S1|]. rewrite temps_x. eapply target_not_under_work; [exact ok|apply under_path_refl].
  - eapply Forall2_weaken; [exact S2|]. cbn. intros p d [A B]. split; [exact A|]. rewrite lookup_put_other; [exact B|].
    unfold piece_file. rewrite pdir_x, temps_x. intros E. apply app_inv_head in E. injection E as E _. revert E. apply hex_not_temp. now apply sha_nonnil.
Qed.
Lemma h_single m ds : triple (Hw 0 m (stocked m ds)) (coalesce_single cfg env) good.
Proof.
  unfold coalesce_single. rewrite (temp_dir_eq cfg), (target_path_eq cfg ok), (piece_dir_eq cfg ok).
  eapply h_then; [apply h_mkdir_temps; intros f f'; apply stocked_adds|].
  eapply h_bind; [apply h_temp; [apply name_pattern|intros f x; apply stocked_put]|].
  intros temp w w' r (x & T1 & -> & O & Hx). revert w w' r Hx.
  match goal with |- forall w w' r, ?P w -> ?a w = (w', r) -> @good ?A w' r => change (triple P a (@good A)) end.
  eapply t_finally; [|intros r; apply h_cleanup].
  apply get_run. eapply h_bind; [apply h_look with (Y := fun r => r = (concat ds, true))|].
  { intros c f ([_ S] & _). eexists. split; [reflexivity|]. now apply read_pieces_ok. }
  intros rr w w' r [-> Hx]. revert w w' r Hx. cbn [fst snd].
  match goal with |- forall w w' r, ?P w -> ?a w = (w', r) -> @good ?A w' r => change (triple P a (@good A)) end.
  eapply h_then; [apply (h_write T1 m _ (fun f => lookup (target cfg) f = None) x []); [exact O|]|].
  { intros f d ([S _] & _). rewrite lookup_put_other; [exact S|]. rewrite temps_x. eapply target_not_under_work; [exact ok|apply under_path_refl]. }
  eapply h_then; [apply t_ret; intros w Hx; split; [reflexivity|exact Hx]|].
  apply (h_finish T1 m x (NFile (concat ds))). auto.
Qed.
Lemma h_multi m ds : zlen (concat ds) = total_size i -> i_files i <> [] -> triple (Hw 0 m (stocked m ds)) (coalesce_multi cfg env) good.
Proof.
  intros Hs Hf. unfold coalesce_multi. rewrite (temp_dir_eq cfg), (target_path_eq cfg ok), (piece_dir_eq cfg ok). change (the_info cfg) with i.
  eapply h_then; [apply h_mkdir_temps; intros f f'; apply stocked_adds|].
  eapply h_bind; [apply h_temp; [apply name_pattern|intros f x; apply stocked_put]|].
  intros temp w w' r (x & T1 & -> & O & Hx). revert w w' r Hx.
  match goal with |- forall w w' r, ?P w -> ?a w = (w', r) -> @good ?A w' r => change (triple P a (@good A)) end.
  eapply t_finally; [|intros r; apply h_cleanup_all].
  apply get_run. eapply h_bind; [apply h_look with (Y := fun r => r = (concat ds, true))|].
  { intros c f ([_ S] & _). eexists. split; [reflexivity|]. now apply read_pieces_ok. }
  intros rr w w' r [-> Hx]. revert w w' r Hx. cbn [fst snd].
  match goal with |- forall w w' r, ?P w -> ?a w = (w', r) -> @good ?A w' r => change (triple P a (@good A)) end.
  eapply h_then.
  - eapply t_conseq; [apply (h_copy m x T1 O (i_files i) [] (concat ds))| |intros w r H; exact H].
    + auto.
    + apply (proj1 ok).
    + rewrite Hs. unfold total_size. destruct (i_files i); [congruence|]. unfold total_of. lia.
    + easy.
    + exact FF.
    + intros w (H1 & H2 & H3 & H4 & (S & _) & D1 & D2 & D3). split; [exact H1|]. split; [exact H2|]. split; [exact H3|]. split; [exact H4|].
      split; [exact S|]. split; [exact D1|]. split; [exact D2|]. split; intros r; intros; change (temps ++ x :: r) with (temps ++ [x] ++ r) in *; rewrite D3 in *; congruence.
  - apply (h_finish T1 m x NDir). auto.
Qed.
Lemma h_pieces m ds : zlen (concat ds) = total_size i -> triple (Hw 0 m (fun f => t_complete m = zlen (t_pieces m) -> stocked m ds f)) (coalesce_pieces cfg env) good.
Proof.
  intros Hs. unfold coalesce_pieces. apply get_run. destruct (negb _) eqn:E; [apply t_ret; intros w Hx; eapply good_err; eauto; discriminate|].
  apply negb_false_iff, Z.eqb_eq in E. change (the_info cfg) with i.
  assert (G : forall w, Hw 0 m (fun f => t_complete m = zlen (t_pieces m) -> stocked m ds f) w -> Hw 0 m (stocked m ds) w).
  { intros w (H1 & H2 & H3 & H4 & H5). repeat split; auto; try apply H2; now apply H5. }
  destruct (i_files i) eqn:Ef; (eapply t_conseq; [|exact G|intros w r H; exact H]); [apply h_single|]. apply h_multi; [exact Hs|congruence].
Qed.

(** *** No future holds an I/O error *)
Definition noeio (m : mem) : Prop := forall id e, nth_error (t_futures m) id = Some (Some (Some e)) -> ~ disk_error e.
Definition keeps {A} (a : io A) : Prop := forall w w' r, noeio (w_mem w) -> a w = (w', r) -> noeio (w_mem w').
Lemma keeps_bind {A B} (a : io A) (k : A -> io B) : keeps a -> (forall x, keeps (k x)) -> keeps (bind a k).
Proof. intros Ha Hk w w' r N E. unfold bind in E. destruct (a w) as [w1 [x|e|]] eqn:E1; pose proof (Ha _ _ _ N E1); [eapply Hk; eauto|injection E as <- <-; assumption|injection E as <- <-; assumption]. Qed.
Lemma keeps_same {A} (a : io A) : (forall w w' r, a w = (w', r) -> w_mem w' = w_mem w) -> keeps a.
Proof. intros H w w' r N E. now rewrite (H _ _ _ E). Qed.
Lemma keeps_ret {A} (x : A) : keeps (ret x). Proof. apply keeps_same. intros w w' r E. now injection E as <- <-. Qed.
Lemma keeps_fails {A} e : keeps (@fails A e). Proof. apply keeps_same. intros w w' r E. now injection E as <- <-. Qed.
Lemma keeps_panics {A} : keeps (@panics A). Proof. apply keeps_same. intros w w' r E. now injection E as <- <-. Qed.
Lemma keeps_act ef : keeps (act env ef).
Proof. apply keeps_same. intros w w' r E. unfold act in E. cbv zeta in E. destruct (if ch_fail _ then None else ef_end _); now injection E as <- <-. Qed.
Lemma keeps_look {A} (q : choice -> fs -> option A) : keeps (look env q).
Proof. apply keeps_same. intros w w' r E. unfold look in E. now injection E as <- <-. Qed.
Lemma keeps_temp nd d pat : keeps (temp_file env nd d pat).
Proof. intros w w' r N E. unfold temp_file in E. eapply (keeps_bind _ (fun _ => ret _)); [apply keeps_act|intros; apply keeps_ret|exact N|exact E]. Qed.
Lemma keeps_finally {A} (a : io A) c : keeps a -> keeps c -> keeps (finally a c).
Proof. intros Ha Hc w w' r N E. unfold finally in E. destruct (a w) as [w1 r1] eqn:E1. destruct (c w1) as [w2 r2] eqn:E2. injection E as <- <-. eapply Hc; [|exact E2]. eapply Ha; eauto. Qed.
Lemma keeps_get {B} (k : mem -> io B) : (forall m w w' r, noeio m -> w_mem w = m -> k m w = (w', r) -> noeio (w_mem w')) -> keeps (bind get_mem k).
Proof. intros H w w' r N E. unfold bind, get_mem in E. eapply H; eauto. Qed.
Lemma keeps_get_any {B} (k : mem -> io B) : (forall m, keeps (k m)) -> keeps (bind get_mem k).
Proof. intros H. apply keeps_get. intros m w w' r N <- E. eapply H; eauto. Qed.
Lemma keeps_set (m m' : mem) w w' r : noeio m -> t_futures m' = t_futures m -> set_mem m' w = (w', r) -> noeio (w_mem w').
Proof. intros N E [= <- <-] id e. cbn. rewrite E. apply N. Qed.
Lemma keeps_deliver id v : (forall e, v = Some e -> ~ disk_error e) -> keeps (deliver id v).
Proof.
  intros Hv. apply keeps_get. intros m w w' r N Em E. destruct (nth_error (t_futures m) id) as [[x|]|] eqn:Ef; injection E as <- <-; try (rewrite Em; exact N).
  intros j e. cbn. intros Hj. apply nth_error_list_set in Hj as [(-> & Hv' & _)|[_ Hj]]; [apply Hv; congruence|]. now apply N in Hj.
Qed.
Lemma keeps_piece k : keeps (piece_at k).
Proof. apply keeps_get_any. intros m. match goal with |- keeps (match ?x with _ => _ end) => destruct x end; [apply keeps_ret|apply keeps_panics]. Qed.
Lemma keeps_set_piece k p : keeps (set_piece k p).
Proof. apply keeps_get. intros m w w' r N Em E. eapply keeps_set; [exact N| |exact E]. reflexivity. Qed.
Lemma keeps_add d : keeps (add_downloaded d).
Proof. apply keeps_get. intros m w w' r N Em E. eapply keeps_set; [exact N| |exact E]. reflexivity. Qed.
Lemma keeps_complete k : keeps (complete_piece k).
Proof.
  apply keeps_bind; [apply keeps_piece|intros p]. apply keeps_bind; [apply keeps_deliver; discriminate|intros _].
  apply keeps_bind; [apply keeps_set_piece|intros _]. apply keeps_get. intros m w w' r N Em E.
  destruct (Bitfield.bf_add _ _); [eapply keeps_set; [exact N| |exact E]; reflexivity|]. injection E as <- <-. now rewrite Em.
Qed.
Lemma keeps_torrent : keeps complete_torrent.
Proof.
  apply keeps_get. intros m w w' r N Em E. eapply (keeps_bind (set_mem _) (fun _ => deliver (t_err m) None)); [|intros; apply keeps_deliver; discriminate| |exact E].
  - intros w1 w2 r1 _ E1. eapply keeps_set; [exact N| |exact E1]. reflexivity.
  - now rewrite Em.
Qed.
Lemma keeps_blocks k : keeps (coalesce_blocks sha1 cfg env k).
Proof.
  apply keeps_bind; [apply keeps_piece|intros p]. cbv zeta. destruct (negb _); [apply keeps_ret|].
  apply keeps_bind; [apply keeps_act|intros _]. apply keeps_bind; [apply keeps_temp|intros x]. apply keeps_finally; [|apply keeps_act].
  destruct (all_blocks _); [|apply keeps_panics]. apply keeps_bind; [apply keeps_act|intros _]. destruct (negb _); [apply keeps_fails|].
  apply keeps_bind; [apply keeps_act|intros _]. apply keeps_bind; [apply keeps_act|intros _]. apply keeps_complete.
Qed.
Lemma keeps_copy temp files : forall data, keeps (copy_files env temp files data).
Proof.
  induction files as [|f files IH]; intros data; cbn [copy_files]; [apply keeps_ret|].
  apply keeps_bind; [destruct (f_path f); [apply keeps_fails|apply keeps_ret]|intros _]. apply keeps_bind; [apply keeps_act|intros _].
  apply keeps_bind; [apply keeps_act|intros _]. apply keeps_bind; [apply keeps_act|intros _].
  apply keeps_bind; [destruct (_ <? _)%nat; [apply keeps_fails|apply keeps_ret]|intros _]. apply IH.
Qed.
Lemma keeps_pieces : keeps (coalesce_pieces cfg env).
Proof.
  apply keeps_get_any. intros m. destruct (negb _); [apply keeps_ret|]. destruct (i_files _).
  - apply keeps_bind; [apply keeps_act|intros _]. apply keeps_bind; [apply keeps_temp|intros x]. apply keeps_finally; [|apply keeps_act].
    apply keeps_get_any. intros m1. apply keeps_bind; [apply keeps_look|intros y]. apply keeps_bind; [apply keeps_act|intros _].
    apply keeps_bind; [destruct (snd y); [apply keeps_ret|apply keeps_fails]|intros _]. apply keeps_bind; [apply keeps_act|intros _].
    apply keeps_bind; [apply keeps_act|intros _]. apply keeps_torrent.
  - apply keeps_bind; [apply keeps_act|intros _]. apply keeps_bind; [apply keeps_temp|intros x]. apply keeps_finally; [|apply keeps_act].
    apply keeps_get_any. intros m1. apply keeps_bind; [apply keeps_look|intros y]. apply keeps_bind; [apply keeps_copy|intros _].
    apply keeps_bind; [apply keeps_act|intros _]. apply keeps_bind; [apply keeps_act|intros _]. apply keeps_torrent.
Qed.
Lemma keeps_entries names : keeps (load_entries cfg env names).
Proof.
  induction names as [|x names IH]; cbn [load_entries]; [apply keeps_ret|]. destruct (scan_piece_name x); [|exact IH].
  apply keeps_bind; [apply keeps_look|intros y]. apply keeps_bind; [apply keeps_add|intros _]. apply keeps_bind; [apply keeps_complete|intros _]. exact IH.
Qed.
Lemma keeps_all c : forall k, keeps (complete_all c k).
Proof. induction c as [|c IH]; intros k; cbn [complete_all]; [apply keeps_ret|]. apply keeps_bind; [apply keeps_complete|intros _]. apply IH. Qed.
Lemma keeps_load : keeps (load cfg env).
Proof.
  apply keeps_bind; [apply keeps_look|intros [s|]].
  - apply keeps_bind; [apply keeps_all|intros _]. apply keeps_bind; [apply keeps_torrent|intros _]. apply keeps_add.
  - apply keeps_bind; [apply keeps_look|intros [l|]]; [|apply keeps_ret]. apply keeps_bind; [apply keeps_entries|intros _]. apply keeps_pieces.
Qed.
Lemma keeps_put k b d : keeps (put_in_piece k b d).
Proof.
  apply keeps_bind; [apply keeps_piece|intros p]. destruct (pc_coalesced p); [apply keeps_fails|].
  match goal with |- keeps (match ?x with _ => _ end) => destruct x end; [|apply keeps_panics]. cbv zeta.
  match goal with |- keeps (match ?x with _ => _ end) => destruct x as [[|]|] end; [apply keeps_fails|apply keeps_set_piece|apply keeps_panics].
Qed.
Lemma keeps_reset k : keeps (reset_piece k).
Proof.
  apply keeps_bind; [apply keeps_piece|intros p]. apply keeps_bind; [apply keeps_deliver; intros e [= <-] [|]; discriminate|intros _]. apply keeps_get. intros m w w' r N Em E.
  eapply (keeps_bind (set_mem _) (fun _ => set_piece _ _)); [|intros; apply keeps_set_piece| |exact E].
  - intros w1 w2 r1 _ [= <- <-] j e Hj. cbn in Hj. destruct (Nat.lt_ge_cases j (List.length (t_futures m))) as [L|L].
    + rewrite nth_error_app1 in Hj by exact L. now apply N in Hj.
    + rewrite nth_error_app2 in Hj by exact L. destruct (j - List.length (t_futures m))%nat as [|[|]]; discriminate.
  - now rewrite Em.
Qed.

(** *** The second half of PutBlock, and Load *)
Definition agree (w : world) : Prop := t_coalesced (w_mem w) = false -> content cfg (w_fs w) = None.
Lemma pieces_good busy f0 f1 m w w' r : St sha1 cfg f0 f1 m w -> mem_ok cfg busy f1 m -> lookup (target cfg) f1 = None ->
  ready (w_tick w) (w_fs w) -> Forall (ready (w_tick w)) (w_past w) -> coalesce_pieces cfg env w = (w', r) -> good w' r /\ agree w' /\ exists u, r = Ok u.
Proof.
  intros S M Ht R P E. pose proof S as (S1 & S2 & S3 & Q). pose proof M as (MI & MA & MC).
  assert (Hc : t_coalesced m = false). { destruct (t_coalesced m); [|easy]. destruct (MC eq_refl). now apply content_target_none. }
  assert (Hf : nth_error (t_futures m) (t_err m) = Some None). { destruct MI as (_ & _ & _ & H & _). now rewrite Hc in H. }
  assert (Ht' : lookup (target cfg) (w_fs w) = None) by (rewrite (proj1 (proj2 Q)); [exact Ht|apply under_path_refl]).
  destruct (Z.eq_dec (t_complete m) (zlen (t_pieces m))) as [Ha|Ha].
  - destruct (mem_all_there sha1 cfg env ok busy f1 m) as [ds A]; auto; [apply S1|].
    assert (G : good w' r).
    { destruct A as (_ & An & Av & Al). destruct (concat_whole sha1 cfg ok ds An (fun k d H => proj1 (Av k d H))) as [[Wz _] _].
      eapply (h_pieces m ds Wz); [|exact E]. split; [lia|]. split; [exact R|]. split; [exact P|]. split; [exact S3|]. intros _. split; [exact Ht'|].
      eapply Forall2_weaken; [exact Al|]. cbn. intros p d [B1 B2]. split; [exact B1|]. unfold piece_file in *. now rewrite (proj1 (proj2 (proj2 Q))). }
    split; [exact G|]. eapply (t_coalesce_pieces sha1 cfg env ok) in E; eauto. destruct r as [u|e|]; cbn in E; [|destruct E as [-> _]; now destruct G as (_ & _ & G)|easy].
    destruct E as (f2 & c & T & _). destruct T as (_ & _ & T3 & _). split; [|eauto]. intros X. rewrite T3 in X. discriminate.
  - unfold coalesce_pieces, bind, get_mem in E. rewrite S3 in E. rewrite (proj2 (Z.eqb_neq _ _) Ha) in E. cbn in E. injection E as <- <-.
    split; [split; [exact R|]; split; [exact P|discriminate]|]. split; [|eauto]. intros _. now apply content_target_none.
Qed.
Lemma finish_good busy f0 k p w w' r : PI sha1 cfg busy f0 w -> nth_error (t_pieces (w_mem w)) k = Some p -> busy (Z.of_nat k) = true ->
  ready (w_tick w) (w_fs w) -> Forall (ready (w_tick w)) (w_past w) -> noeio (w_mem w) -> put_finish sha1 cfg env (Z.of_nat k) w = (w', r) ->
  good w' r /\ agree w' /\ noeio (w_mem w') /\ forall e, r = Err e -> ~ disk_error e.
Proof.
  intros PP Hk Hb R P N E. pose proof (PI_St sha1 cfg env ok busy f0 w PP) as S. pose proof PP as ([F X] & _ & M). pose proof M as (MI & MA & MC). pose proof MI as (M1 & M2 & _).
  pose proof (M2 _ _ Hk) as PO. pose proof PO as (P1 & P2 & P3 & P4 & P5 & P6 & P7 & P8 & P9). destruct (P6 Hb) as [Pc Pb].
  pose proof (piece_bound sha1 cfg env ok _ _ _ _ MI Hk) as Hkn.
  destruct (incomplete_absent sha1 cfg env ok _ _ _ _ _ F M Hk Pc) as (Ho & Hcn & Ht & Hp & Htc).
  destruct (pc_blocks p) as [l|] eqn:Hl; [|congruence]. unfold put_finish in E.
  destruct (coalesce_blocks sha1 cfg env (Z.of_nat k) w) as [w1 r1] eqn:E1.
  assert (N1 : noeio (w_mem w1)) by (eapply keeps_blocks; eauto).
  assert (G1 : good w1 r1).
  { eapply (h_blocks (w_mem w) k p Hk P1); [|exact E1]. split; [lia|]. split; [exact R|]. split; [exact P|]. split; [reflexivity|exact Hp]. }
  pose proof G1 as (R1 & Q1 & D1).
  destruct (Z.eq_dec (pc_complete p) (zlen l)) as [Hc|Hc].
  - destruct (full_data sha1 cfg env ok (t_futures (w_mem w)) (busy (Z.of_nat k)) k p l) as (data & Hd & Hs); auto.
    eapply (t_coalesce_full sha1 cfg env ok f0 (w_fs w) (w_mem w) busy k p l data) in E1; eauto. destruct r1 as [u|e|]; cbn in E1; [| |easy].
    + destruct E1 as (Eh & f2 & b & S' & MI' & _ & Lt & On & Oth & Ex).
      destruct (pieces_good (free busy (Z.of_nat k)) f0 f2 (m_piece_done k p b (w_mem w)) w1 w' r S') as (G & A & u' & ->); auto.
      { eapply (mem_ok_piece_done sha1 cfg env ok); eauto. }
      split; [exact G|]. split; [exact A|]. split; [eapply keeps_pieces; eauto|discriminate].
    + destruct E1 as (S' & He). assert (Hne : ~ disk_error e). { destruct He as [->|[_ ->]]; [congruence|]. intros [|]; discriminate. } pose proof S' as (_ & _ & Em & Q).
      assert (K : keeps (do q <- piece_at (Z.of_nat k); add_downloaded (pc_length q) ;; deliver (pc_err q) (Some e) ;; (fails e : io unit))).
      { apply keeps_bind; [apply keeps_piece|intros q]. apply keeps_bind; [apply keeps_add|intros _]. apply keeps_bind; [|intros _; apply keeps_fails]. apply keeps_deliver. congruence. }
      pose proof (K _ _ _ N1 E) as N'.
      unfold bind at 1 in E. rewrite (piece_at_in sha1 cfg env ok k p) in E by (rewrite Em; exact Hk).
      unfold add_downloaded, deliver, bind, get_mem, set_mem in E. cbn in E. rewrite Em in E.
      rewrite (P8 Pc (fun _ => Hb)) in E. cbn in E. injection E as <- <-.
      split; [split; [exact R1|]; split; [exact Q1|congruence]|]. split; [|split; [exact N'|congruence]]. intros _. cbn. rewrite (quiet_content _ _ _ Q). exact Hcn.
  - unfold coalesce_blocks, bind at 1 in E1. rewrite (piece_at_in sha1 cfg env ok k p) in E1 by exact Hk. rewrite Hl in E1. rewrite (proj2 (Z.eqb_neq _ _) Hc) in E1. cbn in E1. injection E1 as <- <-.
    destruct (pieces_good busy f0 (w_fs w) (w_mem w) w w' r S M Ht R P E) as (G & A & u' & ->). split; [exact G|]. split; [exact A|]. split; [eapply keeps_pieces; eauto|discriminate].
Qed.
End Health.
