(** What is left in the work directory: the files that appear there, and which of them are
    removed again. *)
From Verif Require Import GoBase GoBaseProofs Metainfo Fs FsProofs Storage StorageSpec StorageFsProofs StorageHealthProofs StorageMemSpec StorageSys StorageSysSpec StorageSysProofs.

(** A name keeps its entry; with [b], or loses it. *)
Definition kept (b : bool) (o o' : option node) : Prop := o' = o \/ (b = true /\ o' = None).
Lemma kept_refl b o : kept b o o. Proof. now left. Qed.
Lemma kept_trans b x y z : kept b x y -> kept b y z -> kept b x z.
Proof. unfold kept. intros [H|[B H]] [H'|[B' H']]; subst; auto. Qed.

(** Outside of [R] every name keeps its entry, now and in all states in between. *)
Definition near (b : bool) (R : path -> bool) (w w' : world) : Prop :=
  (forall q, R q = false -> kept b (lookup q (w_fs w)) (lookup q (w_fs w'))) /\
  exists l, w_past w' = l ++ w_past w /\ Forall (fun g => forall q, R q = false -> kept b (lookup q (w_fs w)) (lookup q g)) l.
Lemma near_same b R w w' : w_fs w' = w_fs w -> w_past w' = w_past w -> near b R w w'.
Proof. intros H P. split; [intros q _; rewrite H; apply kept_refl|]. exists []. split; [exact P|constructor]. Qed.
Lemma near_trans b R w w1 w2 : near b R w w1 -> near b R w1 w2 -> near b R w w2.
Proof.
  intros [H (l & P & F)] [H' (l' & P' & F')]. split; [intros q Hq; eapply kept_trans; eauto|].
  exists (l' ++ l). split; [rewrite P', P; apply app_assoc|]. apply Forall_app. split; [|exact F].
  eapply Forall_impl; [|exact F']. intros g G q Hq. eapply kept_trans; eauto.
Qed.
Lemma near_mono b (R R' : path -> bool) w w' : (forall q, R' q = false -> R q = false) -> near b R w w' -> near b R' w w'.
Proof. intros M [H (l & P & F)]. split; [auto|]. exists l. split; [exact P|]. eapply Forall_impl; [|exact F]. auto. Qed.

Definition local {A} (b : bool) (R : path -> bool) (a : io A) : Prop := forall w w' r, a w = (w', r) -> near b R w w'.
Lemma local_mono {A} b (R R' : path -> bool) (a : io A) : (forall q, R' q = false -> R q = false) -> local b R a -> local b R' a.
Proof. intros M H w w' r E. eapply near_mono; [exact M|]. eapply H; eauto. Qed.
Lemma local_bind {A B} b R (a : io A) (k : A -> io B) : local b R a -> (forall x, local b R (k x)) -> local b R (bind a k).
Proof.
  intros Ha Hk w w' r E. unfold bind in E. destruct (a w) as [w1 [x|e|]] eqn:E1; specialize (Ha _ _ _ E1).
  - eapply near_trans; [exact Ha|]. eapply Hk; eauto.
  - injection E as <- <-. exact Ha.
  - injection E as <- <-. exact Ha.
Qed.
Lemma local_finally {A} b R (a : io A) c : local b R a -> local b R c -> local b R (finally a c).
Proof.
  intros Ha Hc w w' r E. unfold finally in E. destruct (a w) as [w1 r1] eqn:E1. destruct (c w1) as [w2 r2] eqn:E2. injection E as <- <-.
  eapply near_trans; eauto.
Qed.
Lemma local_mem {A} b R (a : io A) : mem_only a -> local b R a.
Proof. intros H w w' r E. destruct (H _ _ _ E) as (F & _ & P & _). now apply near_same. Qed.
Lemma local_ret {A} b R (x : A) : local b R (ret x). Proof. intros w w' r [= <- <-]. now apply near_same. Qed.
Lemma local_fails {A} b R e : local b R (@fails A e). Proof. intros w w' r [= <- <-]. now apply near_same. Qed.
Lemma local_panics {A} b R : local b R (@panics A). Proof. intros w w' r [= <- <-]. now apply near_same. Qed.
Lemma local_get b R : local b R get_mem. Proof. intros w w' r [= <- <-]. now apply near_same. Qed.

Section Tidy.
Variable sha1 : bytes -> bytes.
Variable cfg : config.
Variable env : nat -> choice.
Hypothesis ok : config_ok cfg.
Notation i := (c_info cfg).
Notation temps := (temps cfg).
Notation pdir := (pieces_dir cfg).
Notation tgt := (target cfg).

Lemma local_look {A} b R (q : choice -> fs -> option A) : local b R (look env q).
Proof. intros w w' r E. unfold look in E. injection E as <- <-. now apply near_same. Qed.
Lemma act_cases ef w w' r : act env ef w = (w', r) ->
  let e := ef (env (w_tick w)) (w_fs w) in
  (r = Err EIO /\ w_fs w' = ef_mid e /\ w_past w' = ef_mid e :: w_past w /\ (ch_fail (env (w_tick w)) = true \/ ef_end e = None)) \/
  (r = Ok tt /\ ef_end e = Some (w_fs w') /\ w_past w' = w_fs w' :: ef_mid e :: w_past w /\ w_mem w' = w_mem w).
Proof.
  intros E e. unfold act in E. fold e in E. destruct (ch_fail (env (w_tick w))); [|destruct (ef_end e) as [f|]]; injection E as <- <-; cbn; auto 8.
Qed.
Lemma local_act b R ef :
  (forall c f q, R q = false -> kept b (lookup q f) (lookup q (ef_mid (ef c f)))) ->
  (forall c f f' q, ef_end (ef c f) = Some f' -> R q = false -> kept b (lookup q f) (lookup q f')) -> local b R (act env ef).
Proof.
  intros Hm He w w' r E. destruct (act_cases _ _ _ _ E) as [(-> & F & P & _)|(-> & F & P & _)].
  - split; [intros q Hq; rewrite F; auto|]. exists [ef_mid (ef (env (w_tick w)) (w_fs w))]. split; [exact P|]. constructor; [|constructor]. intros q Hq. auto.
  - split; [intros q Hq; eauto|]. eexists [_; _]. split; [exact P|]. constructor; [intros q Hq; eauto|]. constructor; [|constructor]. intros q Hq. auto.
Qed.
Lemma kept_adds b p f f' q : adds_dirs p f f' -> under_path q p = false -> kept b (lookup q f) (lookup q f').
Proof. intros [_ H] U. destruct (H q) as [H'|(_ & _ & U')]; [now left|congruence]. Qed.
Lemma local_mkdir b R p : (forall q, R q = false -> under_path q p = false) -> local b R (act env (fun c => mkdir_all c p)).
Proof.
  intros H. apply local_act; intros.
  - eapply kept_adds; [apply mkdir_all_mid|auto].
  - eapply kept_adds; [eapply mkdir_all_end; eauto|auto].
Qed.
Lemma local_write b R p data : R p = true -> local b R (act env (fun c => write c p data)).
Proof.
  intros H. apply local_act; intros; cbn in *.
  - rewrite lookup_put_other by congruence. apply kept_refl.
  - injection H0 as <-. rewrite lookup_put_other by congruence. apply kept_refl.
Qed.
Lemma local_create b R p : R p = true -> local b R (act env (fun _ => create p)).
Proof.
  intros H. apply local_act; intros; cbn in *; [apply kept_refl|].
  assert (f' = put p (NFile []) f) as -> by (destruct (lookup p f) as [[]|]; [discriminate|congruence|destruct (is_dir _ _); congruence]).
  rewrite lookup_put_other by congruence. apply kept_refl.
Qed.
Lemma local_remove b R p : R p = true -> local b R (act env (fun _ => remove p)).
Proof.
  intros H. apply local_act; intros; cbn in *; [apply kept_refl|]. injection H0 as <-. rewrite lookup_del_other by congruence. apply kept_refl.
Qed.
Lemma kept_filter b (f : fs) (keep : path -> bool) q : keep q = true -> kept b (lookup q f) (lookup q (filter (fun e => keep (fst e)) f)).
Proof.
  intros H. destruct q as [|c q]; [now left|]. rewrite lookup_filter, H by discriminate. now left.
Qed.
Lemma local_remove_all b R p : (forall q, R q = false -> under_path p q = false) -> local b R (act env (fun c => remove_all c p)).
Proof.
  intros H. apply local_act; intros; cbn in *.
  - apply (kept_filter b f (fun e => negb (under_path p e) || ch_keep c e)). now rewrite H.
  - injection H0 as <-. apply (kept_filter b f (fun e => negb (under_path p e))). now rewrite H.
Qed.
Lemma local_rename b R src dst : under_path src dst = false -> under_path dst src = false ->
  (forall q, R q = false -> under_path dst q = false) -> (forall q, R q = false -> under_path src q = true -> b = true) ->
  local b R (act env (fun _ => rename src dst)).
Proof.
  intros A1 A2 Hd Hs. apply local_act; intros; cbn in *; [apply kept_refl|].
  assert (f' = move src dst f) as ->.
  { destruct (lookup src f) as [[]|]; destruct (lookup dst f) as [[]|]; try discriminate; destruct (is_dir _ _ && _); congruence. }
  rewrite lookup_move, Hd by auto. destruct (under_path src q) eqn:U; [right; eauto|now left].
Qed.

(** Where temporary files are. *)
Lemma tmp_not_target r : under_path tgt (temps ++ r) = false.
Proof using ok. unfold StorageFsProofs.temps. rewrite <- app_assoc. now apply work_not_under_target. Qed.
Lemma below_not_prefix p y r : under_path (p ++ y :: r) p = false.
Proof using.
  clear. destruct (under_path (p ++ y :: r) p) eqn:E; [|reflexivity]. exfalso. apply under_path_iff in E. destruct E as (r' & E).
  rewrite <- app_assoc in E. assert (L := f_equal (@List.length _) E). rewrite app_length in L. cbn in L. lia.
Qed.
Lemma temp_name_apart : bs "temp" <> hex (i_sha1 i).
Proof using ok. intros E. eapply hex_not_temp; [now apply (sha_nonnil _ ok)|]. now symmetry. Qed.
Lemma pdir_eq : pdir = c_work cfg ++ [hex (i_sha1 i)]. Proof. reflexivity. Qed.
Lemma under_tail p a b r : under_path (p ++ [a]) (p ++ b :: r) = true -> a = b.
Proof.
  intros E. apply under_path_iff in E. destruct E as (r' & E). rewrite <- app_assoc in E. apply app_inv_head in E. cbn in E. congruence.
Qed.
Lemma tmp_not_pieces r : under_path pdir (temps ++ r) = false.
Proof using ok.
  destruct (under_path pdir (temps ++ r)) eqn:E; [|reflexivity]. exfalso. rewrite pdir_eq in E. unfold StorageFsProofs.temps in E.
  rewrite <- app_assoc in E. apply under_tail in E. now apply temp_name_apart.
Qed.
Lemma pieces_not_tmp r : under_path (temps ++ r) pdir = false.
Proof using ok.
  destruct (under_path (temps ++ r) pdir) eqn:E; [|reflexivity]. exfalso. apply (under_path_trans temps) in E; [|apply under_path_app].
  rewrite pdir_eq in E. unfold StorageFsProofs.temps in E. apply under_single in E. now apply temp_name_apart.
Qed.
Lemma tmp_other x y r : x <> y -> under_path (temps ++ [x]) (temps ++ y :: r) = false.
Proof. intros H. destruct (under_path (temps ++ [x]) _) eqn:E; [|reflexivity]. apply under_tail in E. contradiction. Qed.

(** ** The three places where temporary files are made *)
(** What they write: [T], the directories leading to their files, the pieces, the target. *)
Definition reach (T : path -> bool) (q : path) : bool :=
  T q || under_path pdir q || under_path q temps || under_path q pdir || under_path tgt q.
Ltac out := unfold reach in *; repeat match goal with H : _ || _ = false |- _ => apply orb_false_elim in H as [H ?] end; auto.

Section Body.
Variable b : bool.
Variable x : bytes.
Variable T : path -> bool.
Hypothesis Tx : T (temps ++ [x]) = true.
Hypothesis Tb : forall q, under_path (temps ++ [x]) q = true -> T q = true \/ b = true.
Lemma reach_T q : T q = true -> reach T q = true. Proof. unfold reach. now intros ->. Qed.
Lemma reach_rest q : reach T q = false -> under_path (temps ++ [x]) q = true -> b = true.
Proof using Tb. intros H U. destruct (Tb q U) as [H'|H']; [|exact H']. apply reach_T in H'. congruence. Qed.
Lemma local_tail : local b (reach T)
  (act env (fun _ => rename (temps ++ [x]) (target_path cfg)) ;; act env (fun c => remove_all c (piece_dir cfg)) ;; complete_torrent).
Proof using ok Tb.
  rewrite target_path_eq, piece_dir_eq by exact ok.
  apply local_bind; [apply local_rename; try (now apply temp_target_apart); [intros; out|apply reach_rest]|]. intros _.
  apply local_bind; [apply local_remove_all; intros; out|]. intros _. apply local_mem, mem_only_torrent.
Qed.
Lemma local_single : local b (reach T)
  (do m <- get_mem;
   do r <- look env (fun _ f => Some (read_pieces cfg f (t_pieces m)));
   act env (fun c => write c (temps ++ [x]) (fst r)) ;;
   (if snd r then ret tt else fails EIO) ;;
   act env (fun _ => rename (temps ++ [x]) (target_path cfg)) ;;
   act env (fun c => remove_all c (piece_dir cfg)) ;;
   complete_torrent).
Proof using ok Tb Tx.
  apply local_bind; [apply local_get|]. intros m. apply local_bind; [apply local_look|]. intros r.
  apply local_bind; [apply local_write, reach_T, Tx|]. intros _. apply local_bind; [destruct (snd r); [apply local_ret|apply local_fails]|]. intros _.
  apply local_tail.
Qed.
Lemma local_blocks l p index : 0 <= pc_index p -> local b (reach T)
  (match all_blocks l with
   | None => panics
   | Some data =>
       act env (fun c => write c (temps ++ [x]) data) ;;
       if negb (bytes_eqb (sha1 data) (pc_sha1 p)) then fails (EChecksum (pc_index p) (sha1 data) (pc_sha1 p))
       else
         act env (fun c => mkdir_all c (piece_dir cfg)) ;;
         act env (fun _ => rename (temps ++ [x]) (piece_path cfg (pc_index p))) ;;
         complete_piece index
   end).
Proof using ok Tb Tx.
  intros Hp. destruct (all_blocks l) as [data|]; [|apply local_panics].
  apply local_bind; [apply local_write, reach_T, Tx|]. intros _. destruct (negb _); [apply local_fails|].
  rewrite piece_dir_eq by exact ok. rewrite piece_path_eq by (exact ok || exact Hp).
  apply local_bind; [apply local_mkdir; intros; out|]. intros _.
  apply local_bind; [apply local_rename; try (now apply temp_piece_apart); [|apply reach_rest]|].
  - intros q H. destruct (under_path (piece_file cfg (pc_index p)) q) eqn:U; [|reflexivity]. exfalso.
    assert (U' : under_path pdir q = true) by (eapply under_path_trans; [apply under_path_app|exact U]). out. congruence.
  - intros _. apply local_mem, mem_only_complete.
Qed.
End Body.
Lemma local_copy b R x files : (forall f, In f files -> In f (i_files i)) -> (forall q, R q = false -> under_path (temps ++ [x]) q = false /\ under_path q temps = false) ->
  forall data, local b R (copy_files env (temps ++ [x]) files data).
Proof using ok.
  intros Hf HR. induction files as [|f files IH]; intros data; [apply local_ret|]. cbn [copy_files].
  destruct (file_path_eq cfg ok (temps ++ [x]) f) as (E1 & E2 & E3); [apply Hf; now left|]. rewrite E1, E3.
  assert (U : R ((temps ++ [x]) ++ f_path f) = true).
  { destruct (R _) eqn:E; [reflexivity|]. apply HR in E as [E _]. now rewrite under_path_app in E. }
  apply local_bind; [destruct (f_path f); [apply local_fails|apply local_ret]|]. intros _.
  apply local_bind; [apply local_mkdir|].
  { intros q Hq. destruct (under_path q _) eqn:Eq; [|reflexivity]. exfalso. destruct (HR _ Hq) as [A B].
    destruct (under_path_comparable q (temps ++ [x]) _ Eq (under_path_app _ _)) as [C|C]; [|congruence].
    destruct (under_path_comparable q temps _ C (under_path_app _ _)) as [D|D]; [congruence|].
    apply under_path_iff in D as (r & ->). destruct r as [|y r]; [now rewrite app_nil_r, under_path_refl in B|].
    apply under_path_iff in C as (r' & C). rewrite <- app_assoc in C. apply app_inv_head in C. injection C as <- C.
    symmetry in C. apply app_eq_nil in C as [-> ->]. now rewrite under_path_refl in A. }
  intros _. apply local_bind; [now apply local_create|]. intros _. apply local_bind; [now apply local_write|]. intros _.
  apply local_bind; [destruct (_ <? _)%nat; [apply local_fails|apply local_ret]|]. intros _. apply IH. intros g Hg. apply Hf. now right.
Qed.

Lemma local_multi b x : let T := under_path (temps ++ [x]) in local b (reach T)
  (do m <- get_mem;
   do r <- look env (fun _ f => Some (read_pieces cfg f (t_pieces m)));
   copy_files env (temps ++ [x]) (i_files i) (fst r) ;;
   act env (fun _ => rename (temps ++ [x]) (target_path cfg)) ;;
   act env (fun c => remove_all c (piece_dir cfg)) ;;
   complete_torrent).
Proof using ok.
  intros T. apply local_bind; [apply local_get|]. intros m. apply local_bind; [apply local_look|]. intros r.
  apply local_bind; [apply local_copy; [auto|]|].
  - intros q H. unfold T in *. out.
  - intros _. apply local_tail. unfold T. auto.
Qed.

Definition with_temp (nd : node) (pattern : bytes) (body : path -> io unit) (clean : path -> io unit) : io unit :=
  act env (fun c => mkdir_all c (temp_dir cfg)) ;;
  do temp <- temp_file env nd (temp_dir cfg) pattern;
  finally (body temp) (clean temp).
(** Either no temporary file was made, or one under a free name. *)
Lemma with_temp_run nd pattern body clean w w' r : with_temp nd pattern body clean w = (w', r) ->
  near false (fun q => under_path q temps) w w' \/
  exists x w1 w2 r2 r3, lookup (temps ++ [x]) (w_fs w) = None /\ near false (fun q => path_eqb (temps ++ [x]) q || under_path q temps) w w1 /\
    w_mem w1 = w_mem w /\ body (temps ++ [x]) w1 = (w2, r2) /\ clean (temps ++ [x]) w2 = (w', r3).
Proof using ok.
  intros E. unfold with_temp in E. rewrite temp_dir_eq in E by exact ok. unfold bind at 1 in E.
  assert (M : local false (fun q => under_path q temps) (act env (fun c => mkdir_all c temps))) by (apply local_mkdir; auto).
  destruct (act env _ w) as [w0 r0] eqn:E0. specialize (M _ _ _ E0).
  destruct (act_cases _ _ _ _ E0) as [(-> & _)|(-> & _ & _ & MM)]; [injection E as <- <-; now left|].
  unfold bind at 1, temp_file in E. unfold bind at 1 in E. set (x := ch_name (env (w_tick w0))) in *.
  destruct (act env _ w0) as [w1 r1] eqn:E1. pose proof (act_cases _ _ _ _ E1) as C. cbv zeta in C. cbn [ef_mid ef_end make_temp] in C.
  destruct C as [(-> & F & P & _)|(-> & F & P & M1)].
  - injection E as <- <-. left. eapply near_trans; [exact M|]. split; [intros q _; rewrite F; apply kept_refl|].
    exists [w_fs w0]. split; [exact P|]. constructor; [|constructor]. intros q _. apply kept_refl.
  - right. cbn [ret] in E. unfold finally in E. destruct (body (temps ++ [x]) w1) as [w2 r2] eqn:E2. destruct (clean (temps ++ [x]) w2) as [w3 r3] eqn:E3.
    injection E as <- <-. exists x, w1, w2, r2, r3.
    cbn in F. change (ch_name (env (w_tick w0))) with (id x) in F. unfold id in F. destruct (existsb _ pattern); [discriminate|]. destruct (negb _ || negb _); [discriminate|].
    destruct (lookup (temps ++ [x]) (w_fs w0)) eqn:L; [discriminate|]. injection F as F.
    split; [|split; [|split; [congruence|auto]]].
    + destruct M as [M _]. destruct (M (temps ++ [x])) as [M'|[? _]]; [apply below_not_prefix|congruence|discriminate].
    + eapply near_trans; [eapply near_mono; [|exact M]; intros q H; out|].
      assert (Kp : forall q, path_eqb (temps ++ [x]) q || under_path q temps = false -> kept false (lookup q (w_fs w0)) (lookup q (w_fs w1))).
      { intros q H. rewrite <- F. out. apply path_eqb_neq in H. rewrite lookup_put_other by congruence. apply kept_refl. }
      split; [exact Kp|]. exists [w_fs w1; w_fs w0]. split; [exact P|]. constructor; [exact Kp|]. constructor; [|constructor]. intros q _. apply kept_refl.
Qed.

(** ** What was in WorkDir/temp stays there *)
Definition not_below (y : bytes) (q : path) : bool := negb (under_path (temps ++ [y]) q).
Definition holds {A} (a : io A) (w : world) : Prop :=
  forall y w' r, lookup (temps ++ [y]) (w_fs w) <> None -> a w = (w', r) -> near false (not_below y) w w'.
Lemma not_below_reach x y q : x <> y -> not_below y q = false -> reach (under_path (temps ++ [x])) q = false.
Proof using ok.
  intros N H. unfold not_below in H. apply negb_false_iff, under_path_iff in H as (r & ->). rewrite <- app_assoc. cbn [app]. unfold reach.
  rewrite tmp_other, tmp_not_pieces, below_not_prefix, tmp_not_target by auto. cbn. rewrite orb_false_r.
  change (temps ++ y :: r) with (temps ++ (y :: r)). apply pieces_not_tmp.
Qed.
Lemma with_temp_holds nd pattern body clean w :
  (forall x, local false (reach (under_path (temps ++ [x]))) (body (temps ++ [x]))) ->
  (forall x, local false (reach (under_path (temps ++ [x]))) (clean (temps ++ [x]))) -> holds (with_temp nd pattern body clean) w.
Proof using ok.
  intros Hb Hc y w' r Y E. destruct (with_temp_run _ _ _ _ _ _ _ E) as [N|(x & w1 & w2 & r2 & r3 & L & N & _ & E1 & E2)].
  - eapply near_mono; [|exact N]. intros q H. unfold not_below in H. apply negb_false_iff, under_path_iff in H as (r0 & ->).
    rewrite <- app_assoc. cbn [app]. apply below_not_prefix.
  - assert (D : x <> y) by congruence. apply (near_mono _ (reach (under_path (temps ++ [x])))); [intros q; now apply not_below_reach|].
    eapply near_trans; [|eapply near_trans; [eapply Hb; eauto|eapply Hc; eauto]].
    eapply near_mono; [|exact N]. intros q H. out. destruct (path_eqb _ q) eqn:P; [|auto].
    apply path_eqb_eq in P as <-. now rewrite under_path_refl in H.
Qed.
Lemma holds_local {A} (a : io A) w : local false (fun _ => false) a -> holds a w.
Proof. intros H y w' r _ E. eapply near_mono; [|eapply H; eauto]. auto. Qed.
Lemma holds_bind {A B} (a : io A) (k : A -> io B) w : holds a w -> (forall x w1, a w = (w1, Ok x) -> holds (k x) w1) -> holds (bind a k) w.
Proof.
  intros Ha Hk y w' r Y E. unfold bind in E. destruct (a w) as [w1 [x|e|]] eqn:E1; pose proof (Ha y _ _ Y E1) as N.
  - eapply near_trans; [exact N|]. eapply Hk; eauto. destruct N as [N _]. destruct (N (temps ++ [y])) as [->|[? _]]; [|exact Y|discriminate].
    unfold not_below. now rewrite under_path_refl.
  - injection E as <- <-. exact N.
  - injection E as <- <-. exact N.
Qed.
Lemma holds_local_bind {A B} (a : io A) (k : A -> io B) w : local false (fun _ => false) a -> (forall x w1, a w = (w1, Ok x) -> holds (k x) w1) -> holds (bind a k) w.
Proof. intros H. apply holds_bind. now apply holds_local. Qed.
Lemma tree_x x q : under_path (temps ++ [x]) q = true -> under_path (temps ++ [x]) q = true \/ false = true. Proof. auto. Qed.
Lemma blocks_holds index w : (forall k p, nth_error (t_pieces (w_mem w)) k = Some p -> 0 <= pc_index p) -> holds (coalesce_blocks sha1 cfg env index) w.
Proof using ok.
  intros HI. unfold coalesce_blocks. apply holds_local_bind; [apply local_mem, mem_only_piece|]. intros p w1 Ep.
  assert (Hp : 0 <= pc_index p).
  { unfold piece_at, bind, get_mem in Ep. destruct (if index <? 0 then None else _) as [p'|] eqn:En; [|discriminate].
    injection Ep as <- <-. destruct (index <? 0); [discriminate|]. eapply HI; eauto. }
  destruct (negb _); [apply holds_local, local_ret|]. apply with_temp_holds.
  - intros x. apply local_blocks; auto. apply under_path_refl.
  - intros x. apply local_remove, reach_T, under_path_refl.
Qed.
Lemma pieces_holds w : holds (coalesce_pieces cfg env) w.
Proof using ok.
  unfold coalesce_pieces. apply holds_local_bind; [apply local_get|]. intros m w1 _. destruct (negb _); [apply holds_local, local_ret|].
  destruct (i_files (the_info cfg)).
  - unfold coalesce_single. apply with_temp_holds.
    + intros x. apply local_single; auto. apply under_path_refl.
    + intros x. apply local_remove, reach_T, under_path_refl.
  - unfold coalesce_multi. apply with_temp_holds.
    + intros x. apply local_multi.
    + intros x. apply local_remove_all. intros q H. out.
Qed.

Lemma load_entries_local b R names : local b R (load_entries cfg env names).
Proof.
  induction names as [|nm names IH]; [apply local_ret|]. cbn [load_entries]. destruct (scan_piece_name nm); [|exact IH].
  apply local_bind; [apply local_look|]. intros size. apply local_bind; [apply local_mem, mem_only_add|]. intros _.
  apply local_bind; [apply local_mem, mem_only_complete|]. intros _. exact IH.
Qed.
Lemma complete_all_local b R m : forall k, local b R (complete_all m k).
Proof.
  induction m as [|m IH]; intros k; [apply local_ret|]. cbn [complete_all]. apply local_bind; [apply local_mem, mem_only_complete|]. intros _. apply IH.
Qed.
(** The part of Load when the target is there. *)
Lemma load_whole_local b R size : local b R (complete_all (List.length (i_pieces i)) 0 ;; complete_torrent ;; add_downloaded size).
Proof.
  apply local_bind; [apply complete_all_local|]. intros _. apply local_bind; [apply local_mem, mem_only_torrent|]. intros _. apply local_mem, mem_only_add.
Qed.
Lemma load_holds w : holds (load cfg env) w.
Proof using ok.
  unfold load. apply holds_local_bind; [apply local_look|]. intros st w1 _. destruct st as [size|].
  - apply holds_local, load_whole_local.
  - apply holds_local_bind; [apply local_look|]. intros names w2 _. destruct names as [l|]; [|apply holds_local, local_ret].
    apply holds_local_bind; [apply load_entries_local|]. intros _ w3 _. apply pieces_holds.
Qed.
Lemma put_failed_local b R index e : local b R (do p <- piece_at index; add_downloaded (pc_length p) ;; deliver (pc_err p) (Some e) ;; @fails unit e).
Proof.
  apply local_bind; [apply local_mem, mem_only_piece|]. intros p. apply local_bind; [apply local_mem, mem_only_add|]. intros _.
  apply local_bind; [apply local_mem, mem_only_deliver|]. intros _. apply local_fails.
Qed.
Lemma put_finish_bind index w w' r : put_finish sha1 cfg env index w = (w', r) ->
  exists w1 r1, coalesce_blocks sha1 cfg env index w = (w1, r1) /\
    match r1 with
    | Ok _ => coalesce_pieces cfg env w1 = (w', r)
    | Err e => (do p <- piece_at index; add_downloaded (pc_length p) ;; deliver (pc_err p) (Some e) ;; @fails unit e) w1 = (w', r)
    | Panic => w' = w1
    end.
Proof.
  unfold put_finish. intros E. destruct (coalesce_blocks _ _ _ _ w) as [w1 [[]|e|]] eqn:E1; exists w1; eexists; split; try reflexivity; try exact E.
  now injection E as <- <-.
Qed.
Lemma put_finish_holds index w : (forall k p, nth_error (t_pieces (w_mem w)) k = Some p -> 0 <= pc_index p) -> holds (put_finish sha1 cfg env index) w.
Proof using ok.
  intros HI y w' r Y E. destruct (put_finish_bind _ _ _ _ E) as (w1 & r1 & E1 & E2). pose proof (blocks_holds index w HI y _ _ Y E1) as N.
  destruct r1 as [[]|e|]; [| |now subst].
  - eapply near_trans; [exact N|]. eapply pieces_holds; [|exact E2]. destruct N as [N _].
    destruct (N (temps ++ [y])) as [->|[? _]]; [|exact Y|discriminate]. unfold not_below. now rewrite under_path_refl.
  - eapply near_trans; [exact N|]. eapply near_mono; [|eapply (put_failed_local false (fun _ => false)); exact E2]. auto.
Qed.

(** ** Nothing new stays in WorkDir/temp if no call fails *)
Section NoFail.
Hypothesis NF : forall t, ch_fail (env t) = false.
Definition tidy (w w' : world) : Prop := forall y r, kept true (lookup (temps ++ y :: r) (w_fs w)) (lookup (temps ++ y :: r) (w_fs w')).
Lemma tidy_trans w w1 w2 : tidy w w1 -> tidy w1 w2 -> tidy w w2.
Proof. intros A B y r. eapply kept_trans; eauto. Qed.
Lemma tidy_local b w w' : near b (fun _ => false) w w' -> tidy w w'.
Proof. intros [H _] y r. destruct (H (temps ++ y :: r) eq_refl) as [E|[_ E]]; [now left|right; auto]. Qed.
Definition clears (T : path -> bool) (a : io unit) : Prop :=
  forall w w' r, a w = (w', r) -> near true T w w' /\ forall q, T q = true -> lookup q (w_fs w') = None.
Lemma temps_nonnil r : temps ++ r <> [].
Proof using. unfold StorageFsProofs.temps. rewrite <- app_assoc. now destruct (c_work cfg). Qed.
Lemma clears_remove x : clears (path_eqb (temps ++ [x])) (act env (fun _ => remove (temps ++ [x]))).
Proof using NF.
  intros w w' r E. split; [eapply local_remove; [|exact E]; apply path_eqb_refl|].
  destruct (act_cases _ _ _ _ E) as [(_ & _ & _ & [F|F])|(_ & F & _)]; [rewrite NF in F; discriminate|discriminate|].
  injection F as F. intros q Hq. apply path_eqb_eq in Hq as <-. rewrite <- F. apply lookup_del_same, temps_nonnil.
Qed.
Lemma clears_remove_all x : clears (under_path (temps ++ [x])) (act env (fun c => remove_all c (temps ++ [x]))).
Proof using NF.
  intros w w' r E. split; [eapply local_remove_all; [|exact E]; auto|].
  destruct (act_cases _ _ _ _ E) as [(_ & _ & _ & [F|F])|(_ & F & _)]; [rewrite NF in F; discriminate|discriminate|].
  injection F as F. intros q Hq. rewrite <- F. rewrite (lookup_filter q (w_fs w) (fun e => negb (under_path (temps ++ [x]) e))).
  - now rewrite Hq.
  - intros ->. apply under_path_nil in Hq. revert Hq. apply temps_nonnil.
Qed.
Lemma reach_tmp T y r : reach T (temps ++ y :: r) = T (temps ++ y :: r).
Proof using ok.
  unfold reach. rewrite tmp_not_pieces, below_not_prefix, tmp_not_target, pieces_not_tmp by auto. now rewrite !orb_false_r.
Qed.
Lemma with_temp_tidy nd pattern body clean (T : bytes -> path -> bool) w w' r :
  (forall x, T x (temps ++ [x]) = true) -> (forall x, local true (reach (T x)) (body (temps ++ [x]))) -> (forall x, clears (T x) (clean (temps ++ [x]))) ->
  with_temp nd pattern body clean w = (w', r) -> tidy w w'.
Proof using ok.
  intros Tx Hb Hc E y r0. destruct (with_temp_run _ _ _ _ _ _ _ E) as [[N _]|(x & w1 & w2 & r2 & r3 & L & N & _ & E1 & E2)].
  - destruct (N (temps ++ y :: r0)) as [H|[? _]]; [apply below_not_prefix|now left|discriminate].
  - destruct (Hc x _ _ _ E2) as [[N3 _] C]. destruct (T x (temps ++ y :: r0)) eqn:Et; [right; auto|].
    destruct (Hb x _ _ _ E1) as [N2 _]. destruct N as [N1 _].
    assert (Er : reach (T x) (temps ++ y :: r0) = false) by now rewrite reach_tmp.
    eapply kept_trans; [|eapply kept_trans; [exact (N2 _ Er)|exact (N3 _ Et)]].
    destruct (N1 (temps ++ y :: r0)) as [H|[? _]]; [|now left|discriminate]. rewrite below_not_prefix, orb_false_r. apply path_eqb_neq. congruence.
Qed.
Lemma blocks_tidy index w w' r : (forall k p, nth_error (t_pieces (w_mem w)) k = Some p -> 0 <= pc_index p) ->
  coalesce_blocks sha1 cfg env index w = (w', r) -> tidy w w'.
Proof using ok NF.
  intros HI E. unfold coalesce_blocks in E. unfold bind at 1 in E. destruct (piece_at index w) as [w1 [p|e|]] eqn:Ep.
  - assert (Hp : 0 <= pc_index p /\ w1 = w).
    { unfold piece_at, bind, get_mem in Ep. destruct (if index <? 0 then None else _) as [p'|] eqn:En; [|discriminate].
      injection Ep as <- <-. destruct (index <? 0); [discriminate|]. split; [eapply HI; eauto|reflexivity]. }
    destruct Hp as [Hp ->]. destruct (negb _); [injection E as <- <-; apply (tidy_local true); now apply near_same|].
    eapply with_temp_tidy with (T := fun x => path_eqb (temps ++ [x])); [| | |exact E].
    + intros x. apply path_eqb_refl.
    + intros x. apply local_blocks; auto. apply path_eqb_refl.
    + intros x. apply clears_remove.
  - injection E as <- <-. destruct (mem_only_piece _ _ _ _ Ep) as (F & _ & P & _). apply (tidy_local true). now apply near_same.
  - injection E as <- <-. destruct (mem_only_piece _ _ _ _ Ep) as (F & _ & P & _). apply (tidy_local true). now apply near_same.
Qed.
Lemma pieces_tidy w w' r : coalesce_pieces cfg env w = (w', r) -> tidy w w'.
Proof using ok NF.
  unfold coalesce_pieces, bind at 1, get_mem. intros E. destruct (negb _); [injection E as <- <-; apply (tidy_local true); now apply near_same|].
  destruct (i_files (the_info cfg)).
  - eapply with_temp_tidy with (T := fun x => path_eqb (temps ++ [x])); [| | |exact E].
    + intros x. apply path_eqb_refl.
    + intros x. apply local_single; auto. apply path_eqb_refl.
    + intros x. apply clears_remove.
  - eapply with_temp_tidy with (T := fun x => under_path (temps ++ [x])); [| | |exact E].
    + intros x. apply under_path_refl.
    + intros x. apply local_multi.
    + intros x. apply clears_remove_all.
Qed.

(** ** The piece files are removed once the torrent is in place *)
Definition swept (f : fs) : Prop := lookup tgt f = None \/ forall q, under_path pdir q = true -> lookup q f = None.
Lemma target_reach x (T : path -> bool) : (forall q, T q = true -> under_path (temps ++ [x]) q = true) -> T tgt = false.
Proof using ok.
  intros H. destruct (T tgt) eqn:E; [|reflexivity]. apply H in E. destruct (temp_target_apart cfg ok x). congruence.
Qed.
Lemma near_no_target b R w w' : R tgt = false -> near b R w w' -> lookup tgt (w_fs w) = None -> lookup tgt (w_fs w') = None.
Proof. intros H [N _] L. destruct (N _ H) as [E|[_ E]]; congruence. Qed.
Lemma near_swept b R w w' : R tgt = false -> (forall q, under_path pdir q = true -> R q = false) -> near b R w w' -> swept (w_fs w) -> swept (w_fs w').
Proof.
  intros H Hp N [L|L]; [left; eapply near_no_target; eauto|right]. intros q Hq. destruct N as [N _].
  destruct (N q (Hp _ Hq)) as [E|[_ E]]; [|exact E]. rewrite E. auto.
Qed.
(** From a disk without the target to a swept one. *)
Definition sweeps {A} (a : io A) : Prop := forall w w' r, lookup tgt (w_fs w) = None -> a w = (w', r) -> swept (w_fs w').
Lemma sweeps_local {A} b R (a : io A) : R tgt = false -> local b R a -> sweeps a.
Proof. intros H L w w' r T E. left. eapply near_no_target; eauto. Qed.
Lemma sweeps_bind {A B} b R (a : io A) (k : A -> io B) : R tgt = false -> local b R a -> (forall x, sweeps (k x)) -> sweeps (bind a k).
Proof.
  intros H L Hk w w' r T E. unfold bind in E. destruct (a w) as [w1 [x|e|]] eqn:E1; pose proof (near_no_target _ _ _ _ H (L _ _ _ E1) T) as T1.
  - eapply Hk; eauto.
  - injection E as <- <-. now left.
  - injection E as <- <-. now left.
Qed.
Lemma sweeps_tail x : sweeps (act env (fun _ => rename (temps ++ [x]) (target_path cfg)) ;; act env (fun c => remove_all c (piece_dir cfg)) ;; complete_torrent).
Proof using ok NF.
  rewrite piece_dir_eq by exact ok. intros w w' r T E. unfold bind at 1 in E. destruct (act env _ w) as [w1 r1] eqn:E1.
  destruct (act_cases _ _ _ _ E1) as [(-> & F & _)|(-> & _)]; [injection E as <- <-; left; rewrite F; exact T|].
  unfold bind at 1 in E. destruct (act env _ w1) as [w2 r2] eqn:E2.
  destruct (act_cases _ _ _ _ E2) as [(_ & _ & _ & [F|F])|(-> & F & _)]; [rewrite NF in F; discriminate|discriminate|].
  injection F as F. destruct (mem_only_torrent _ _ _ E) as (-> & _). right. intros q Hq. rewrite <- F.
  rewrite (lookup_filter q (w_fs w1) (fun e => negb (under_path pdir e))).
  - now rewrite Hq.
  - intros ->. apply under_path_nil in Hq. unfold pieces_dir in Hq. now destruct (c_work cfg).
Qed.
Lemma sweeps_with_temp nd pattern body clean :
  (forall x, sweeps (body (temps ++ [x]))) -> (forall x, local true (under_path (temps ++ [x])) (clean (temps ++ [x]))) -> sweeps (with_temp nd pattern body clean).
Proof using ok.
  intros Hb Hc w w' r T E.
  assert (Tt : under_path tgt temps = false) by (rewrite <- (app_nil_r temps); apply tmp_not_target).
  destruct (with_temp_run _ _ _ _ _ _ _ E) as [N|(x & w1 & w2 & r2 & r3 & L & N & _ & E1 & E2)].
  - left. eapply near_no_target; [|exact N|exact T]. exact Tt.
  - assert (T1 : lookup tgt (w_fs w1) = None).
    { eapply near_no_target; [|exact N|exact T]. cbv beta; rewrite Tt, orb_false_r. apply path_eqb_neq. intros E'. destruct (temp_target_apart cfg ok x) as [A _].
      rewrite E', under_path_refl in A. discriminate. }
    pose proof (Hb x _ _ _ T1 E1) as S2. eapply near_swept; [| |eapply Hc; exact E2|exact S2].
    + now apply temp_target_apart.
    + intros q Hq. destruct (under_path (temps ++ [x]) q) eqn:U; [|reflexivity]. exfalso.
      apply under_path_iff in U as (r' & ->). rewrite <- app_assoc in Hq. now rewrite tmp_not_pieces in Hq.
Qed.
Lemma tree_target x : under_path (temps ++ [x]) tgt || under_path tgt temps = false.
Proof using ok.
  destruct (temp_target_apart cfg ok x) as [-> _]. cbn. rewrite <- (app_nil_r temps). apply tmp_not_target.
Qed.
Lemma sweeps_pieces : sweeps (coalesce_pieces cfg env).
Proof using ok NF.
  unfold coalesce_pieces. apply (sweeps_bind true (fun _ => false)); [reflexivity|apply local_get|]. intros m.
  destruct (negb _); [apply (sweeps_local true (fun _ => false)); [reflexivity|apply local_ret]|].
  destruct (i_files (the_info cfg)) eqn:Ef.
  - apply sweeps_with_temp.
    + intros x. apply (sweeps_bind true (fun _ => false)); [reflexivity|apply local_get|]. intros m'.
      apply (sweeps_bind true (fun _ => false)); [reflexivity|apply local_look|]. intros r.
      apply (sweeps_bind true (under_path (temps ++ [x]))); [now apply temp_target_apart|apply local_write, under_path_refl|]. intros _.
      apply (sweeps_bind true (fun _ => false)); [reflexivity|destruct (snd r); [apply local_ret|apply local_fails]|]. intros _. apply sweeps_tail.
    + intros x. apply local_remove, under_path_refl.
  - apply sweeps_with_temp.
    + intros x. apply (sweeps_bind true (fun _ => false)); [reflexivity|apply local_get|]. intros m'.
      apply (sweeps_bind true (fun _ => false)); [reflexivity|apply local_look|]. intros r.
      apply (sweeps_bind true (fun q => under_path (temps ++ [x]) q || under_path q temps)); [apply tree_target|apply local_copy; [intros g Hg; exact Hg|]|].
      * intros q H. out.
      * intros _. apply sweeps_tail.
    + intros x. apply local_remove_all. auto.
Qed.
Lemma sweeps_load w w' r : swept (w_fs w) -> load cfg env w = (w', r) -> swept (w_fs w').
Proof using ok NF.
  intros S E. destruct (lookup tgt (w_fs w)) eqn:L.
  - unfold load, bind at 1 in E. unfold look at 1 in E. rewrite NF, target_path_eq, L in E by exact ok.
    assert (N : near true (fun _ => false) w w').
    { destruct n; (eapply near_trans; [|eapply load_whole_local; exact E]; now apply near_same). }
    eapply near_swept; [| |exact N|exact S]; reflexivity.
  - revert E. apply (fun H => H w w' r L). unfold load. apply (sweeps_bind true (fun _ => false)); [reflexivity|apply local_look|]. intros st.
    destruct st as [size|]; [apply (sweeps_local true (fun _ => false)); [reflexivity|apply load_whole_local]|].
    apply (sweeps_bind true (fun _ => false)); [reflexivity|apply local_look|]. intros names.
    destruct names as [l|]; [|apply (sweeps_local true (fun _ => false)); [reflexivity|apply local_ret]].
    apply (sweeps_bind true (fun _ => false)); [reflexivity|apply load_entries_local|]. intros _. apply sweeps_pieces.
Qed.
Lemma load_tidy w w' r : load cfg env w = (w', r) -> tidy w w'.
Proof using ok NF.
  assert (TB : forall A B (a : io A) (k : A -> io B) (w w' : world) r, local true (fun _ => false) a -> (forall x w1 w2 r, k x w1 = (w2, r) -> tidy w1 w2) -> bind a k w = (w', r) -> tidy w w').
  { intros A B a k v v' r' La Hk E. unfold bind in E. destruct (a v) as [v1 [x|e|]] eqn:E1; pose proof (tidy_local _ _ _ (La _ _ _ E1)) as T1.
    - eapply tidy_trans; [exact T1|]. eapply Hk; eauto.
    - injection E as <- <-. exact T1.
    - injection E as <- <-. exact T1. }
  assert (TL : forall (a : io unit) w1 w2 r, local true (fun _ => false) a -> a w1 = (w2, r) -> tidy w1 w2) by (intros; eapply tidy_local; eauto).
  unfold load. apply TB; [apply local_look|]. intros st w1 w2 r2 E. destruct st as [size|].
  - eapply TL; [|exact E]. apply load_whole_local.
  - revert E. apply TB; [apply local_look|]. intros names w3 w4 r4 E. destruct names as [l|]; [|eapply TL; [|exact E]; apply local_ret].
    revert E. apply TB; [apply load_entries_local|]. intros _ w5 w6 r6 E. eapply pieces_tidy; eauto.
Qed.
Lemma put_finish_tidy index w w' r : (forall k p, nth_error (t_pieces (w_mem w)) k = Some p -> 0 <= pc_index p) ->
  put_finish sha1 cfg env index w = (w', r) -> tidy w w'.
Proof using ok NF.
  intros HI E. destruct (put_finish_bind _ _ _ _ E) as (w1 & r1 & E1 & E2). pose proof (blocks_tidy _ _ _ _ HI E1) as N.
  destruct r1 as [[]|e|]; [| |now subst].
  - eapply tidy_trans; [exact N|]. eapply pieces_tidy; eauto.
  - eapply tidy_trans; [exact N|]. eapply tidy_local. eapply (put_failed_local true (fun _ => false)); exact E2.
Qed.
Lemma put_finish_swept index w w' r : (forall k p, nth_error (t_pieces (w_mem w)) k = Some p -> 0 <= pc_index p) ->
  lookup tgt (w_fs w) = None -> put_finish sha1 cfg env index w = (w', r) -> swept (w_fs w').
Proof using ok NF.
  intros HI L E. destruct (put_finish_bind _ _ _ _ E) as (w1 & r1 & E1 & E2).
  assert (Tt : under_path tgt temps = false) by (rewrite <- (app_nil_r temps); apply tmp_not_target).
  assert (Tp : under_path tgt pdir = false) by (unfold pieces_dir; now apply work_not_under_target).
  assert (Pt : under_path pdir tgt = false).
  { destruct (under_path pdir tgt) eqn:U; [|reflexivity]. exfalso. pose proof (sep2 _ ok) as S. rewrite (under_path_trans (c_work cfg) pdir) in S; [discriminate| |exact U].
    apply under_path_app. }
  assert (L1 : lookup tgt (w_fs w1) = None).
  { clear E2. unfold coalesce_blocks, bind at 1 in E1. destruct (piece_at index w) as [w0 [p|e|]] eqn:Ep;
      destruct (mem_only_piece _ _ _ _ Ep) as (F0 & _); [|injection E1 as <- <-; now rewrite F0|injection E1 as <- <-; now rewrite F0].
    assert (Hp : 0 <= pc_index p).
    { unfold piece_at, bind, get_mem in Ep. destruct (if index <? 0 then None else _) as [p'|] eqn:En; [|discriminate].
      injection Ep as <- <-. destruct (index <? 0); [discriminate|]. eapply HI; eauto. }
    rewrite <- F0 in L. destruct (negb _); [injection E1 as <- <-; exact L|].
    change (with_temp (NFile []) (hex (i_sha1 (the_info cfg)) ++ bs "-" ++ piece_name (pc_index p))
      (fun temp => match all_blocks match pc_blocks p with Some l => l | None => [] end with
       | None => panics
       | Some data =>
           act env (fun c => write c temp data) ;;
           if negb (bytes_eqb (sha1 data) (pc_sha1 p)) then fails (EChecksum (pc_index p) (sha1 data) (pc_sha1 p))
           else
             act env (fun c => mkdir_all c (piece_dir cfg)) ;;
             act env (fun _ => rename temp (piece_path cfg (pc_index p))) ;;
             complete_piece index
       end) (fun temp => act env (fun _ => remove temp)) w0 = (w1, r1)) in E1.
    destruct (with_temp_run _ _ _ _ _ _ _ E1) as [N|(x & w2 & w3 & r2 & r3 & _ & N & _ & Eb & Ec)].
    - eapply near_no_target; [|exact N|exact L]. exact Tt.
    - pose proof (tree_target x) as TT. apply orb_false_elim in TT as [TT _].
      assert (TT1 : path_eqb (temps ++ [x]) tgt = false).
      { apply path_eqb_neq. intros E'. rewrite E', under_path_refl in TT. discriminate. }
      assert (L2 : lookup tgt (w_fs w2) = None) by (eapply near_no_target; [|exact N|exact L]; cbv beta; now rewrite Tt, TT1).
      assert (L3 : lookup tgt (w_fs w3) = None).
      { set (R := fun q => under_path (temps ++ [x]) q || under_path q pdir || under_path pdir q).
        eapply (near_no_target false R); [unfold R; now rewrite TT, Tp, Pt| |exact L2]. revert Eb.
        apply (fun H : local false R _ => H w2 w3 r2). destruct (all_blocks _) as [data|]; [|apply local_panics].
        apply local_bind; [apply local_write; unfold R; now rewrite under_path_refl|]. intros _. destruct (negb _); [apply local_fails|].
        rewrite piece_dir_eq by exact ok. rewrite piece_path_eq by (exact ok || exact Hp).
        apply local_bind; [apply local_mkdir; unfold R; intros q H; out|]. intros _.
        apply local_bind; [apply local_rename; try (now apply temp_piece_apart)|intros _; apply local_mem, mem_only_complete].
        - intros q H. destruct (under_path (piece_file cfg (pc_index p)) q) eqn:U; [|reflexivity]. exfalso.
          assert (U' : under_path pdir q = true) by (eapply under_path_trans; [apply under_path_app|exact U]). unfold R in H. out. congruence.
        - intros q H U. unfold R in H. out. congruence. }
      eapply (near_no_target false (path_eqb (temps ++ [x]))); [exact TT1| |exact L3]. eapply local_remove; [apply path_eqb_refl|exact Ec]. }
  destruct r1 as [[]|e|].
  - eapply sweeps_pieces; eauto.
  - left. eapply (near_no_target true (fun _ => false)); [reflexivity| |exact L1]. eapply put_failed_local; exact E2.
  - subst. now left.
Qed.
End NoFail.

(** ** A process *)
Lemma get_local b R k bg len : local b R (get_block cfg env k bg len).
Proof.
  assert (O : forall p, local b R (open_file env p)) by (intros p; apply local_look).
  unfold get_block. apply local_bind; [apply local_get|]. intros m. destruct (t_coalesced m); [destruct (i_files (the_info cfg))|].
  - unfold get_from_single. apply local_bind; [apply O|]. intros d. destruct (negb _); [apply local_panics|]. destruct (_ <? _); [apply local_fails|].
    destruct (read_at _ _ _) as [d' []]; [apply local_fails|apply local_ret].
  - unfold get_from_multi. destruct (negb _); [apply local_panics|]. apply local_bind; [|intros d; destruct (_ <? _); [apply local_fails|apply local_ret]].
    generalize (@nil byte) at 1 as got. generalize 0 at 1 as total. induction (i_files (the_info cfg)) as [|f0 fl IH]; intros total got; [apply local_ret|].
    cbn [get_multi_loop]. destruct (_ <=? _); [apply local_ret|]. destruct (_ <=? _); [|apply IH]. apply local_bind; [apply O|]. intros d.
    destruct (_ <? 0); [apply local_fails|]. apply IH.
  - apply local_bind; [apply local_mem, mem_only_piece|]. intros p. destruct (negb _); [apply local_fails|]. unfold get_from_piece.
    apply local_bind; [apply O|]. intros d. destruct (negb _); [apply local_panics|]. destruct (_ <? _); [apply local_fails|].
    destruct (read_at _ _ _) as [d' []]; [apply local_fails|apply local_ret].
Qed.
Lemma set_piece_local b R k p : local b R (set_piece k p). Proof. apply local_mem. apply mem_only_bind; [apply mem_only_get|]. intros m. apply mem_only_set. Qed.
Lemma put_in_local b R k bg d : local b R (put_in_piece k bg d).
Proof.
  unfold put_in_piece. apply local_bind; [apply local_mem, mem_only_piece|]. intros p. destruct (pc_coalesced p); [apply local_fails|].
  match goal with |- local _ _ (match ?x with _ => _ end) => destruct x as [l|] end; [|apply local_panics]. cbv zeta.
  match goal with |- local _ _ (match ?x with _ => _ end) => destruct x as [[]|] end; [apply local_fails|apply set_piece_local|apply local_panics].
Qed.
Lemma reset_local b R k : local b R (reset_piece k).
Proof.
  unfold reset_piece. apply local_bind; [apply local_mem, mem_only_piece|]. intros p. apply local_bind; [apply local_mem, mem_only_deliver|]. intros _.
  apply local_bind; [apply local_get|]. intros m. apply local_bind; [apply local_mem, mem_only_set|]. intros _. apply set_piece_local.
Qed.
Lemma next_shape w ts t o : next sha1 cfg env w ts t = Some o ->
  (forall b, near b (fun _ => false) w (world_of o)) \/
  (exists k bg d, th_call t = CPut k bg d /\ th_pc t = PutMid /\ o = of_unit (put_finish sha1 cfg env k w)).
Proof.
  assert (S : forall v b, w_fs v = w_fs w -> w_past v = w_past w -> near b (fun _ => false) w v) by (intros; now apply near_same).
  assert (G : forall k bg l b, near b (fun _ => false) w (world_of (of_bytes (get_block cfg env k bg l w)))).
  { intros k bg l b. destruct (get_block cfg env k bg l w) as [v r] eqn:E. apply (get_local b (fun _ => false)) in E. destruct r; exact E. }
  unfold next. destruct (th_pc t) eqn:Ep; destruct (th_call t) as [k bg d|k bg l|k|k|] eqn:Ec; try discriminate; intros E.
  - left. intros b. injection E as <-. destruct (check_block_size _ _ _ _); [|destruct (t_coalesced _)]; now apply S.
  - left. intros b. destruct (t_coalesced _); injection E as <-; [apply G|]. destruct (piece_at k w) as [v [p|e|]]; now apply S.
  - left. intros b. destruct (piece_locked _ _); [discriminate|]. injection E as <-. destruct (reset_piece k w) as [v r] eqn:Er.
    apply (reset_local b (fun _ => false)) in Er. destruct r; exact Er.
  - left. intros b. destruct (piece_locked _ _); [discriminate|]. injection E as <-. destruct (piece_at k w) as [v [p|e|]]; now apply S.
  - left. intros b. destruct (torrent_rlocked _); [discriminate|]. injection E as <-. now apply S.
  - left. intros b. destruct (piece_locked _ _); [discriminate|]. injection E as <-. destruct (put_in_piece k bg d w) as [v r] eqn:Er.
    apply (put_in_local b (fun _ => false)) in Er. destruct r; exact Er.
  - right. destruct (torrent_rlocked _); [discriminate|]. injection E as <-. eauto 6.
  - left. intros b. destruct (piece_locked _ _); [discriminate|]. injection E as <-. apply G.
  - left. intros b0. destruct (nth_error _ _) as [[[e|]|]|]; try discriminate; injection E as <-; now apply S.
  - left. intros b0. destruct (nth_error _ _) as [[[e|]|]|]; try discriminate; injection E as <-; now apply S.
  - left. intros b0. destruct (nth_error _ _) as [[[e|]|]|]; try discriminate; injection E as <-; now apply S.
  - left. intros b0. destruct (nth_error _ _) as [[[e|]|]|]; try discriminate; injection E as <-; now apply S.
  - left. intros b0. destruct (nth_error _ _) as [[[e|]|]|]; try discriminate; injection E as <-; now apply S.
Qed.
(** A step leads to the end of [next], or into the middle of it. *)
Lemma exec_shape p l p' es : exec sha1 cfg env p l = Some (p', es) ->
  disk_of p' = disk_of p \/
  (exists w ts t o, p = Running w ts /\ In t ts /\ next sha1 cfg env (forget_past w) ts t = Some o /\
     (disk_of p' = w_fs (world_of o) \/ (exists a j, l = LCrashIn a j) /\ In (disk_of p') (w_past (world_of o)))) \/
  (exists f tick w r, p = Dead f tick /\ load cfg env (booted cfg f tick) = (w, r) /\
     (disk_of p' = w_fs w \/ (exists j, l = LStartCrash j) /\ In (disk_of p') (w_past w))).
Proof.
  destruct p as [w ts|f tick]; destruct l as [c|a| |a j| |j]; cbn [exec]; intros E; try discriminate.
  - injection E as <- <-. now left.
  - right. left. destruct (nth_error ts a) as [t|] eqn:Et; [|discriminate]. apply nth_error_In in Et.
    destruct (next _ _ _ _ _ t) as [o|] eqn:En; [|discriminate]. exists w, ts, t, o. split; [reflexivity|]. split; [exact Et|]. split; [exact En|]. left.
    destruct o; injection E as <- <-; reflexivity.
  - injection E as <- <-. now left.
  - right. left. destruct (nth_error ts a) as [t|] eqn:Et; [|discriminate]. apply nth_error_In in Et.
    destruct (next _ _ _ _ _ t) as [o|] eqn:En; [|discriminate]. exists w, ts, t, o. split; [reflexivity|]. split; [exact Et|]. split; [exact En|]. right.
    unfold crash_at in E. destruct (nth_error (w_past _) j) as [g|] eqn:Eg; [|discriminate]. injection E as <- <-. split; [eauto|].
    eapply nth_error_In; eauto.
  - right. right. destruct (load cfg env _) as [v r] eqn:El. exists f, tick, v, r. split; [reflexivity|]. split; [exact El|]. left.
    destruct r; injection E as <- <-; reflexivity.
  - right. right. destruct (load cfg env _) as [v r] eqn:El. exists f, tick, v, r. split; [reflexivity|]. split; [exact El|]. right.
    unfold crash_at in E. cbn [fst] in E. destruct (nth_error (w_past v) j) as [g|] eqn:Eg; [|discriminate]. injection E as <- <-. split; [eauto|].
    eapply nth_error_In; eauto.
Qed.
Lemma near_reached b R w w' f : w_past w = [] -> near b R w w' -> f = w_fs w' \/ In f (w_past w') ->
  forall q, R q = false -> kept b (lookup q (w_fs w)) (lookup q f).
Proof.
  intros P [N (l & P' & F)] [E|H] q Hq; [subst; auto|]. rewrite P, app_nil_r in P'. rewrite P' in H.
  exact (proj1 (Forall_forall _ _) F _ H q Hq).
Qed.
Lemma inv_indices base w ts : inv sha1 cfg base (Running w ts) -> forall k p, nth_error (t_pieces (w_mem (forget_past w))) k = Some p -> 0 <= pc_index p.
Proof.
  intros (_ & ((_ & PO & _) & _) & _) k p Hk. destruct (PO k p Hk) as (E & _). rewrite E. lia.
Qed.
(** While a PutBlock is at work the torrent is not in place. *)
Lemma inv_busy base w ts t k bg d : inv sha1 cfg base (Running w ts) -> In t ts -> th_call t = CPut k bg d -> th_pc t = PutMid -> lookup tgt (w_fs w) = None.
Proof.
  intros (Jd & ((L & PO & _) & OD & _) & _ & TO) Ht Ec Ep. apply In_nth_error in Ht as [j Hj]. pose proof (TO _ _ Hj) as To. unfold thread_ok in To. rewrite Ep, Ec in To.
  destruct To as [Hk _]. destruct Jd as [[[[D|(c & C & _)] _] _] _]; [exact D|]. exfalso.
  destruct (nth_error (t_pieces (w_mem w)) (Z.to_nat k)) as [p|] eqn:Hp.
  - pose proof (PO _ _ Hp) as P. destruct P as (_ & _ & _ & _ & _ & B & _). rewrite Z2Nat.id in B by lia.
    destruct B as [B _]. { apply piece_locked_iff. exists j, t. split; [exact Hj|]. split; [exact Ep|]. now rewrite Ec. }
    destruct (OD _ _ Hp) as [_ O]. rewrite O in B; [discriminate|]. unfold on_disk. cbn [disk_of] in C. rewrite C. discriminate.
  - apply nth_error_None in Hp. rewrite L in Hp. unfold num_pieces, zlen in Hk. lia.
Qed.
Lemma exec_kept base p l p' es y : inv sha1 cfg base p -> exec sha1 cfg env p l = Some (p', es) -> lookup (temps ++ [y]) (disk_of p) <> None ->
  forall r, lookup (temps ++ y :: r) (disk_of p') = lookup (temps ++ y :: r) (disk_of p).
Proof using ok.
  intros I E Y r. assert (NB : not_below y (temps ++ y :: r) = false).
  { unfold not_below. change (temps ++ y :: r) with (temps ++ ([y] ++ r)). rewrite app_assoc. now rewrite under_path_app. }
  assert (FIN : forall w w' f, w_past w = [] -> near false (not_below y) w w' -> f = w_fs w' \/ In f (w_past w') -> lookup (temps ++ y :: r) f = lookup (temps ++ y :: r) (w_fs w)).
  { intros w w' f P N H. destruct (near_reached _ _ _ _ _ P N H _ NB) as [E'|[? _]]; [exact E'|discriminate]. }
  destruct (exec_shape _ _ _ _ E) as [H|[(w & ts & t & o & -> & Ht & En & H)|(f & tick & w & r0 & -> & El & H)]]; [now rewrite H| |].
  - assert (R : disk_of p' = w_fs (world_of o) \/ In (disk_of p') (w_past (world_of o))) by tauto. cbn [disk_of] in *.
    destruct (next_shape _ _ _ _ En) as [N|(k & bg & d & Ec & Ep & ->)].
    + eapply (FIN (forget_past w)); [reflexivity| |exact R]. eapply near_mono; [|apply N]. auto.
    + destruct (put_finish sha1 cfg env k (forget_past w)) as [w' r'] eqn:Ef.
      pose proof (put_finish_holds k (forget_past w) (inv_indices _ _ _ I) y _ _ Y Ef) as N.
      apply (FIN (forget_past w) w'); [reflexivity|exact N|]. destruct r'; exact R.
  - assert (R : disk_of p' = w_fs w \/ In (disk_of p') (w_past w)) by tauto. cbn [disk_of] in *.
    pose proof (load_holds (booted cfg f tick) y _ _ Y El) as N. exact (FIN (booted cfg f tick) w _ eq_refl N R).
Qed.
Lemma execs_kept base ls : forall p p' es y, inv sha1 cfg base p -> execs sha1 cfg env p ls = Some (p', es) -> lookup (temps ++ [y]) (disk_of p) <> None ->
  forall r, lookup (temps ++ y :: r) (disk_of p') = lookup (temps ++ y :: r) (disk_of p).
Proof using ok.
  induction ls as [|l ls IH]; intros p p' es y I E Y r; cbn [execs] in E; [now injection E as <- _|].
  destruct (exec sha1 cfg env p l) as [[p1 es1]|] eqn:E1; [|discriminate]. destruct (execs sha1 cfg env p1 ls) as [[p2 es2]|] eqn:E2; [|discriminate].
  injection E as <- _. pose proof (exec_kept _ _ _ _ _ _ I E1 Y) as Kp. destruct (exec_ok _ _ _ ok _ _ _ _ _ I E1) as (I1 & _).
  rewrite <- Kp. eapply IH; eauto. rewrite Kp. exact Y.
Qed.
Lemma exec_frozen base p l p' es : inv sha1 cfg base p -> exec sha1 cfg env p l = Some (p', es) -> content cfg (disk_of p) <> None ->
  forall q, lookup q (disk_of p') = lookup q (disk_of p).
Proof using ok.
  intros I E C q.
  assert (T : lookup tgt (disk_of p) <> None) by (intros T; apply C; now apply content_target_none).
  assert (FIN : forall w w' f, w_past w = [] -> near false (fun _ => false) w w' -> f = w_fs w' \/ In f (w_past w') -> lookup q f = lookup q (w_fs w)).
  { intros w w' f P N H. destruct (near_reached _ _ _ _ _ P N H q eq_refl) as [E'|[? _]]; [exact E'|discriminate]. }
  destruct (exec_shape _ _ _ _ E) as [H|[(w & ts & t & o & -> & Ht & En & H)|(f & tick & w & r0 & -> & El & H)]]; [now rewrite H| |].
  - assert (R : disk_of p' = w_fs (world_of o) \/ In (disk_of p') (w_past (world_of o))) by tauto. cbn [disk_of] in *.
    destruct (next_shape _ _ _ _ En) as [N|(k & bg & d & Ec & Ep & ->)].
    + exact (FIN (forget_past w) _ _ eq_refl (N false) R).
    + destruct T. eapply inv_busy; eauto.
  - assert (R : disk_of p' = w_fs w \/ In (disk_of p') (w_past w)) by tauto. cbn [disk_of] in *.
    refine (FIN (booted cfg f tick) w _ eq_refl _ R). unfold load, bind at 1 in El. unfold look at 1 in El. cbn [w_fs booted w_past w_tick w_mem] in El.
    rewrite target_path_eq in El by exact ok.
    destruct (ch_fail (env tick)); [injection El as <- <-; now apply near_same|].
    destruct (lookup tgt f) as [nd|]; [|now destruct T]. destruct nd; (eapply near_trans; [|eapply load_whole_local; exact El]; now apply near_same).
Qed.
Lemma execs_frozen base ls : forall p p' es, inv sha1 cfg base p -> execs sha1 cfg env p ls = Some (p', es) -> content cfg (disk_of p) <> None ->
  forall q, lookup q (disk_of p') = lookup q (disk_of p).
Proof using ok.
  induction ls as [|l ls IH]; intros p p' es I E C q; cbn [execs] in E; [now injection E as <- _|].
  destruct (exec sha1 cfg env p l) as [[p1 es1]|] eqn:E1; [|discriminate]. destruct (execs sha1 cfg env p1 ls) as [[p2 es2]|] eqn:E2; [|discriminate].
  injection E as <- _. pose proof (exec_frozen _ _ _ _ _ I E1 C) as Kp. destruct (exec_ok _ _ _ ok _ _ _ _ _ I E1) as (I1 & _).
  rewrite <- Kp. eapply IH; eauto. rewrite (content_ext cfg (disk_of p) (disk_of p1)); auto.
Qed.
Definition gentle (l : label) : Prop := match l with LCrashIn _ _ | LStartCrash _ => False | _ => True end.
Section NoFail2.
Hypothesis NF : forall t, ch_fail (env t) = false.
Lemma exec_tidy base p l p' es : inv sha1 cfg base p -> exec sha1 cfg env p l = Some (p', es) -> gentle l ->
  (forall y r, kept true (lookup (temps ++ y :: r) (disk_of p)) (lookup (temps ++ y :: r) (disk_of p'))) /\ (swept (disk_of p) -> swept (disk_of p')).
Proof using ok NF.
  intros I E G.
  destruct (exec_shape _ _ _ _ E) as [H|[(w & ts & t & o & -> & Ht & En & [H|[(a & j & ->) _]])|(f & tick & w & r0 & -> & El & [H|[(j & ->) _]])]]; try contradiction; rewrite H.
  - split; [intros; apply kept_refl|auto].
  - cbn [disk_of] in *. destruct (next_shape _ _ _ _ En) as [N|(k & bg & d & Ec & Ep & ->)].
    + split; [exact (tidy_local _ _ _ (N true))|]. intros S. eapply near_swept; [| |exact (N true)|exact S]; reflexivity.
    + destruct (put_finish sha1 cfg env k (forget_past w)) as [w' r'] eqn:Ef.
      assert (W : world_of (of_unit (w', r')) = w') by now destruct r'. rewrite W. split.
      * exact (put_finish_tidy NF _ _ _ _ (inv_indices _ _ _ I) Ef).
      * intros _. eapply put_finish_swept; eauto; [apply (inv_indices _ _ _ I)|]. cbn. eapply inv_busy; eauto.
  - cbn [disk_of] in *. split.
    + exact (load_tidy NF _ _ _ El).
    + intros S. eapply sweeps_load; [exact NF| |exact El]. exact S.
Qed.
Lemma execs_tidy base ls : forall p p' es, inv sha1 cfg base p -> execs sha1 cfg env p ls = Some (p', es) -> Forall gentle ls ->
  (forall y r, kept true (lookup (temps ++ y :: r) (disk_of p)) (lookup (temps ++ y :: r) (disk_of p'))) /\ (swept (disk_of p) -> swept (disk_of p')).
Proof using ok NF.
  induction ls as [|l ls IH]; intros p p' es I E G; cbn [execs] in E; [injection E as <- _; split; [intros; apply kept_refl|auto]|].
  destruct (exec sha1 cfg env p l) as [[p1 es1]|] eqn:E1; [|discriminate]. destruct (execs sha1 cfg env p1 ls) as [[p2 es2]|] eqn:E2; [|discriminate].
  injection E as <- _. inversion G as [|? ? G1 G2]; subst. destruct (exec_tidy _ _ _ _ _ I E1 G1) as [A S]. destruct (exec_ok _ _ _ ok _ _ _ _ _ I E1) as (I1 & _).
  destruct (IH _ _ _ I1 E2 G2) as [A2 S2]. split; [|auto]. intros y r. eapply kept_trans; eauto.
Qed.
End NoFail2.
End Tidy.

(** ** The claims *)
Section Claims.
Variable sha1 : bytes -> bytes.
Variable cfg : config.
Variable env : nat -> choice.
Hypothesis ok : config_ok cfg.
Lemma no_leftovers : (forall t, ch_fail (env t) = false) ->
  forall f tick ls p es, untouched cfg f -> execs sha1 cfg env (Dead f tick) ls = Some (p, es) ->
  (forall t j, ~ In (LCrashIn t j) ls) -> (forall j, ~ In (LStartCrash j) ls) ->
  (forall q, under_path (c_work cfg ++ [bs "temp"]) q = true -> q <> c_work cfg ++ [bs "temp"] -> lookup q f = None -> lookup q (disk_of p) = None) /\
  (content cfg (disk_of p) <> None -> forall q, under_path (pieces_dir cfg) q = true -> lookup q (disk_of p) = None).
Proof using ok.
  intros NF f tick ls p es U E H1 H2.
  assert (G : Forall gentle ls).
  { apply Forall_forall. intros l Hl. destruct l; try exact I; [now destruct (H1 t j)|now destruct (H2 j)]. }
  destruct (execs_tidy sha1 cfg env ok NF f ls _ _ _ (inv_start sha1 cfg env ok f tick U) E G) as [T S]. split.
  - intros q Hq Nq L. apply under_path_iff in Hq as (r & ->). destruct r as [|y r]; [now rewrite app_nil_r in Nq|].
    destruct (T y r) as [Q|[_ Q]]; [|exact Q]. unfold temps in Q. rewrite Q. exact L.
  - intros C. destruct S as [S|S]; [left; apply U| |exact S]. destruct C. now apply content_target_none.
Qed.
Lemma leftovers_stay : forall f tick ls p es ls' p' es' y r, untouched cfg f -> execs sha1 cfg env (Dead f tick) ls = Some (p, es) ->
  execs sha1 cfg env p ls' = Some (p', es') -> lookup (c_work cfg ++ [bs "temp"; y]) (disk_of p) <> None ->
  lookup (c_work cfg ++ bs "temp" :: y :: r) (disk_of p') = lookup (c_work cfg ++ bs "temp" :: y :: r) (disk_of p).
Proof using ok.
  intros f tick ls p es ls' p' es' y r U E E' Y. destruct (execs_ok sha1 cfg env ok _ _ _ _ _ (inv_start sha1 cfg env ok f tick U) E) as (I & _).
  assert (Q : forall s, c_work cfg ++ bs "temp" :: s = temps cfg ++ s) by (intros s; unfold temps; now rewrite <- app_assoc).
  rewrite !Q in *. eapply execs_kept; eauto.
Qed.
Lemma complete_left_alone : forall f tick ls p es ls' p' es', untouched cfg f -> execs sha1 cfg env (Dead f tick) ls = Some (p, es) ->
  content cfg (disk_of p) <> None -> execs sha1 cfg env p ls' = Some (p', es') -> forall q, lookup q (disk_of p') = lookup q (disk_of p).
Proof using ok.
  intros f tick ls p es ls' p' es' U E C E' q. destruct (execs_ok sha1 cfg env ok _ _ _ _ _ (inv_start sha1 cfg env ok f tick U) E) as (I & _).
  eapply execs_frozen; eauto.
Qed.
End Claims.
