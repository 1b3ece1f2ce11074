(** Reasoning about [io]: triples, and the os calls that leave target and pieces alone. *)
From Verif Require Import GoBase GoBaseProofs Fs FsProofs Storage StorageSpec StorageFsProofs.

Definition triple {A} (P : world -> Prop) (a : io A) (Q : world -> res serr A -> Prop) : Prop :=
  forall w w' r, P w -> a w = (w', r) -> Q w' r.
Lemma t_conseq {A} (P P' : world -> Prop) (a : io A) (Q Q' : world -> res serr A -> Prop) :
  triple P' a Q' -> (forall w, P w -> P' w) -> (forall w r, Q' w r -> Q w r) -> triple P a Q.
Proof. intros H HP HQ w w' r Hw E. eauto. Qed.
Lemma t_ret {A} (x : A) (P : world -> Prop) (Q : world -> res serr A -> Prop) : (forall w, P w -> Q w (Ok x)) -> triple P (ret x) Q.
Proof. intros H w w' r Hw [= <- <-]. auto. Qed.
Lemma t_fails {A} e (P : world -> Prop) (Q : world -> res serr A -> Prop) : (forall w, P w -> Q w (Err e)) -> triple P (fails e) Q.
Proof. intros H w w' r Hw [= <- <-]. auto. Qed.
Lemma t_panics {A} (P : world -> Prop) (Q : world -> res serr A -> Prop) : (forall w, P w -> Q w Panic) -> triple P panics Q.
Proof. intros H w w' r Hw [= <- <-]. auto. Qed.
Lemma t_bind {A B} (P : world -> Prop) (a : io A) (k : A -> io B) (R : world -> res serr A -> Prop) (Q : world -> res serr B -> Prop) :
  triple P a R -> (forall x, triple (fun w => R w (Ok x)) (k x) Q) -> (forall w e, R w (Err e) -> Q w (Err e)) -> (forall w, R w Panic -> Q w Panic) ->
  triple P (bind a k) Q.
Proof.
  intros Ha Hk He Hp w w' r Hw E. unfold bind in E. destruct (a w) as [w1 [x|e|]] eqn:E1; specialize (Ha _ _ _ Hw E1).
  - eapply Hk; eauto.
  - injection E as <- <-. auto.
  - injection E as <- <-. auto.
Qed.
Lemma t_get (P : world -> Prop) {B} (k : mem -> io B) Q : (forall m, triple (fun w => P w /\ w_mem w = m) (k m) Q) -> triple P (bind get_mem k) Q.
Proof. intros H w w' r Hw E. unfold bind, get_mem in E. eapply (H (w_mem w)); eauto. Qed.
Lemma t_finally {A} (P : world -> Prop) (a : io A) c (R Q : world -> res serr A -> Prop) :
  triple P a R -> (forall r, triple (fun w => R w r) c (fun w _ => Q w r)) -> triple P (finally a c) Q.
Proof.
  intros Ha Hc w w' r Hw E. unfold finally in E. destruct (a w) as [w1 r1] eqn:E1. destruct (c w1) as [w2 r2] eqn:E2. injection E as <- <-.
  eapply Hc; eauto.
Qed.
Lemma t_pure {A} (X : Prop) (P : world -> Prop) (a : io A) Q : (X -> triple P a Q) -> triple (fun w => P w /\ X) a Q.
Proof. intros H w w' r [Hw Hx] E. eapply H; eauto. Qed.
Lemma t_ex {A B} (P : B -> world -> Prop) (a : io A) Q : (forall x, triple (P x) a Q) -> triple (fun w => exists x, P x w) a Q.
Proof. intros H w w' r [x Hw] E. eapply H; eauto. Qed.

Section Io.
Variable sha1 : bytes -> bytes.
Variable cfg : config.
Variable env : nat -> choice.
Hypothesis ok : config_ok cfg.

(** Since [f1] only the disk outside target and pieces changed; the memory is [m]. *)
Definition St (f0 f1 : fs) (m : mem) (w : world) : Prop :=
  J sha1 cfg f0 f1 /\ Forall (J sha1 cfg f0) (w_past w) /\ w_mem w = m /\ quiet cfg f1 (w_fs w).
Lemma St_J f0 f1 m w : St f0 f1 m w -> J sha1 cfg f0 (w_fs w).
Proof. intros (H1 & _ & _ & H2). eapply quiet_J; eauto. Qed.

Lemma act_run f0 f1 m ef (Y : fs -> Prop) w w' r : St f0 f1 m w -> act env ef w = (w', r) ->
  quiet cfg (w_fs w) (ef_mid (ef (env (w_tick w)) (w_fs w))) ->
  (forall f', ef_end (ef (env (w_tick w)) (w_fs w)) = Some f' -> quiet cfg (w_fs w) f' /\ Y f') ->
  St f0 f1 m w' /\ match r with Ok _ => Y (w_fs w') | Err e => e = EIO | Panic => False end.
Proof.
  intros S E Hm He. pose proof (St_J _ _ _ _ S) as HJ. destruct S as (S1 & S2 & S3 & S4). unfold act in E.
  assert (Jm : J sha1 cfg f0 (ef_mid (ef (env (w_tick w)) (w_fs w)))) by (eapply quiet_J; eauto).
  destruct (if ch_fail (env (w_tick w)) then None else _) as [f'|] eqn:Ef; injection E as <- <-.
  - destruct (ch_fail _); [discriminate|]. destruct (He _ Ef) as [Hq Hy]. split; [|exact Hy].
    split; [exact S1|split; [|split; [exact S3|eapply quiet_trans; eauto]]]. cbn.
    constructor; [eapply quiet_J; eauto|]. constructor; auto.
  - split; [|reflexivity]. split; [exact S1|split; [|split; [exact S3|eapply quiet_trans; eauto]]]. cbn. constructor; auto.
Qed.
Lemma t_act f0 f1 m (X Y : fs -> Prop) ef :
  (forall c f, quiet cfg f1 f -> X f -> quiet cfg f (ef_mid (ef c f)) /\ forall f', ef_end (ef c f) = Some f' -> quiet cfg f f' /\ Y f') ->
  triple (fun w => St f0 f1 m w /\ X (w_fs w)) (act env ef)
    (fun w r => St f0 f1 m w /\ match r with Ok _ => Y (w_fs w) | Err e => e = EIO | Panic => False end).
Proof.
  intros H w w' r [S Hx] E. destruct (H (env (w_tick w)) (w_fs w)) as [H1 H2]; [apply S|exact Hx|]. eapply act_run; eauto.
Qed.
Lemma t_look {A} f0 f1 m (X : fs -> Prop) (q : choice -> fs -> option A) (Y : A -> fs -> Prop) :
  (forall c f x, quiet cfg f1 f -> X f -> q c f = Some x -> Y x f) ->
  triple (fun w => St f0 f1 m w /\ X (w_fs w)) (look env q)
    (fun w r => St f0 f1 m w /\ X (w_fs w) /\ match r with Ok x => Y x (w_fs w) | Err e => e = EIO | Panic => False end).
Proof.
  intros H w w' r [S Hx] E. unfold look in E. injection E as <- <-.
  split; [exact S|]. split; [exact Hx|]. destruct (if ch_fail _ then None else _) as [x|] eqn:Eq; [|reflexivity].
  cbn. destruct (ch_fail _); [discriminate|]. eapply H; [apply S|exact Hx|exact Eq].
Qed.
Lemma t_set_mem f0 f1 m m' (X : fs -> Prop) : triple (fun w => St f0 f1 m w /\ X (w_fs w)) (set_mem m') (fun w r => r = Ok tt /\ St f0 f1 m' w /\ X (w_fs w)).
Proof. intros w w' r [(S1 & S2 & S3 & S4) Hx] [= <- <-]. repeat split; auto; try apply S1; apply S4. Qed.

(** The calls used. *)
Lemma t_mkdir_temp f0 f1 m r : triple (fun w => St f0 f1 m w) (act env (fun c => mkdir_all c (temps cfg ++ r)))
  (fun w res => St f0 f1 m w /\ match res with Ok _ => lookup (temps cfg ++ r) (w_fs w) = Some NDir | Err e => e = EIO | Panic => False end).
Proof.
  eapply t_conseq; [apply (t_act f0 f1 m (fun _ => True) (fun f => lookup (temps cfg ++ r) f = Some NDir))| |]; [|now auto|now auto].
  intros c f _ _. split; [|intros f' H].
  - eapply quiet_mkdir_temp; [exact ok|apply mkdir_all_mid].
  - apply mkdir_all_end in H as [H1 H2]. split; [|exact H2]. eapply quiet_mkdir_temp; eauto.
Qed.
Lemma t_mkdir_temps f0 f1 m : triple (fun w => St f0 f1 m w) (act env (fun c => mkdir_all c (temps cfg)))
  (fun w res => St f0 f1 m w /\ match res with Ok _ => lookup (temps cfg) (w_fs w) = Some NDir | Err e => e = EIO | Panic => False end).
Proof. pose proof (t_mkdir_temp f0 f1 m []) as H. rewrite app_nil_r in H. exact H. Qed.
Lemma t_mkdir_pieces f0 f1 m p data : triple (fun w => St f0 f1 m w /\ lookup p (w_fs w) = Some data) (act env (fun c => mkdir_all c (pieces_dir cfg)))
  (fun w res => St f0 f1 m w /\ match res with Ok _ => lookup p (w_fs w) = Some data /\ lookup (pieces_dir cfg) (w_fs w) = Some NDir | Err e => e = EIO | Panic => False end).
Proof.
  eapply t_conseq; [apply (t_act f0 f1 m (fun f => lookup p f = Some data) (fun f => lookup p f = Some data /\ lookup (pieces_dir cfg) f = Some NDir))| |]; [|now auto|now auto].
  intros c f _ Hp. split; [|intros f' H].
  - eapply quiet_mkdir_pieces; [exact ok|apply mkdir_all_mid].
  - apply mkdir_all_end in H as [H1 H2]. split; [eapply quiet_mkdir_pieces; eauto|]. split; [|exact H2].
    destruct H1 as [_ H1]. destruct (H1 p) as [->|(E & _)]; [exact Hp|congruence].
Qed.
Lemma t_temp_file f0 f1 m nd pat : triple (fun w => St f0 f1 m w) (temp_file env nd (temps cfg) pat)
  (fun w res => St f0 f1 m w /\ match res with Ok p => exists x, p = temps cfg ++ [x] /\ lookup p (w_fs w) = Some nd | Err e => e = EIO | Panic => False end).
Proof.
  intros w w' r S E. unfold temp_file, bind in E.
  destruct (act env (fun c => make_temp nd c (temps cfg) pat) w) as [w1 r1] eqn:E1.
  destruct (act_run _ _ _ _ (fun f => lookup (temps cfg ++ [ch_name (env (w_tick w))]) f = Some nd) _ _ _ S E1) as [S' Y].
  - apply quiet_refl.
  - intros f'. cbn. destruct (existsb _ pat); [discriminate|]. destruct (_ || _); [discriminate|].
    destruct (lookup _ (w_fs w)) eqn:El; [discriminate|]. intros [= <-]. split; [apply quiet_put; now apply temps_aside|].
    apply lookup_put_same. now destruct (temps cfg).
  - destruct r1; [|injection E as <- <-; auto|easy]. injection E as <- <-. split; [exact S'|]. eauto.
Qed.
Lemma t_write f0 f1 m r data : triple (fun w => St f0 f1 m w) (act env (fun c => write c (temps cfg ++ r) data))
  (fun w res => St f0 f1 m w /\ match res with Ok _ => lookup (temps cfg ++ r) (w_fs w) = Some (NFile data) | Err e => e = EIO | Panic => False end).
Proof.
  eapply t_conseq; [apply (t_act f0 f1 m (fun _ => True) (fun f => lookup (temps cfg ++ r) f = Some (NFile data)))| |]; [|now auto|now auto].
  intros c f _ _. cbn. split; [apply quiet_put; now apply temps_aside|]. intros f' [= <-]. split; [apply quiet_put; now apply temps_aside|].
  apply lookup_put_same. unfold temps. now destruct (c_work cfg).
Qed.
Lemma t_remove_temp f0 f1 m r : triple (fun w => St f0 f1 m w) (act env (fun _ => remove (temps cfg ++ r))) (fun w _ => St f0 f1 m w).
Proof.
  eapply t_conseq; [apply (t_act f0 f1 m (fun _ => True) (fun f => True))| |]; [|now auto|now intros w res [H _]].
  intros c f _ _. cbn. split; [apply quiet_refl|]. intros f' [= <-]. split; [apply quiet_del; now apply temps_aside|easy].
Qed.
Lemma t_remove_all_temp f0 f1 m x : triple (fun w => St f0 f1 m w) (act env (fun c => remove_all c (temps cfg ++ [x]))) (fun w _ => St f0 f1 m w).
Proof.
  eapply t_conseq; [apply (t_act f0 f1 m (fun _ => True) (fun f => True))| |]; [|now auto|now intros w res [H _]].
  intros c f _ _. split; [now apply quiet_remove_temp|]. intros f' [= <-]. split; [|easy]. apply quiet_remove_temp; [exact ok|exact c].
Qed.
(** A loud call: the new state is a new base. *)
Lemma act_loud f0 f1 m ef (Y : fs -> Prop) w w' r : St f0 f1 m w -> act env ef w = (w', r) ->
  quiet cfg (w_fs w) (ef_mid (ef (env (w_tick w)) (w_fs w))) ->
  (forall f', ef_end (ef (env (w_tick w)) (w_fs w)) = Some f' -> J sha1 cfg f0 f' /\ Y f') ->
  match r with Ok _ => St f0 (w_fs w') m w' /\ Y (w_fs w') | Err e => St f0 f1 m w' /\ e = EIO | Panic => False end.
Proof.
  intros S E Hm He. pose proof (St_J _ _ _ _ S) as HJ. destruct S as (S1 & S2 & S3 & S4). unfold act in E.
  assert (Jm : J sha1 cfg f0 (ef_mid (ef (env (w_tick w)) (w_fs w)))) by (eapply quiet_J; eauto).
  destruct (if ch_fail (env (w_tick w)) then None else _) as [f'|] eqn:Ef; injection E as <- <-.
  - destruct (ch_fail _); [discriminate|]. destruct (He _ Ef) as [Hq Hy]. split; [|exact Hy].
    split; [exact Hq|split; [|split; [exact S3|apply quiet_refl]]]. cbn. constructor; auto.
  - split; [|reflexivity]. split; [exact S1|split; [|split; [exact S3|eapply quiet_trans; eauto]]]. cbn. constructor; auto.
Qed.
(** Rename of a finished piece, and of the finished torrent. *)
Lemma t_place_piece f0 f1 m x k data :
  0 <= k < num_pieces (c_info cfg) -> verified sha1 cfg k data -> lookup (target cfg) f1 = None -> lookup (piece_file cfg k) f1 = None ->
  triple (fun w => St f0 f1 m w /\ lookup (temps cfg ++ [x]) (w_fs w) = Some (NFile data) /\ lookup (pieces_dir cfg) (w_fs w) = Some NDir)
    (act env (fun _ => rename (temps cfg ++ [x]) (piece_file cfg k)))
    (fun w r => match r with
                | Ok _ => exists f2, St f0 f2 m w /\ lookup (target cfg) f2 = None /\ on_disk cfg f2 k = Some data /\
                          (forall k', 0 <= k' < num_pieces (c_info cfg) -> k' <> k -> on_disk cfg f2 k' = on_disk cfg f1 k') /\ ext cfg f1 f2
                | Err e => St f0 f1 m w /\ e = EIO
                | Panic => False
                end).
Proof.
  intros Hk V Ht Hp w w' r (S & Hx & Hd) E. pose proof (St_J _ _ _ _ S) as [Jok Jext]. pose proof S as (_ & _ & _ & Q).
  assert (Ht' : lookup (target cfg) (w_fs w) = None) by (rewrite (proj1 (proj2 Q)); [exact Ht|apply under_path_refl]).
  assert (Hp' : lookup (piece_file cfg k) (w_fs w) = None) by (unfold piece_file; rewrite (proj1 (proj2 (proj2 Q))); exact Hp).
  pose proof (piece_placed sha1 cfg ok _ k data x Jok Ht' Hk V Hp' Hx Hd) as (P1 & P2 & P3 & P4 & P5).
  eapply act_loud with (Y := fun f => f = move (temps cfg ++ [x]) (piece_file cfg k) (w_fs w)) in E; [|exact S|apply quiet_refl|].
  - destruct r as [u|e|]; [|exact E|exact E]. destruct E as [E Ey]. exists (w_fs w'). split; [exact E|]. rewrite Ey. split; [auto|]. split; [auto|]. split; [|eapply ext_trans; [apply quiet_ext; exact Q|exact P2]].
    intros k' Hk' Hne. rewrite P5 by easy. now apply quiet_on_disk.
  - cbn. rewrite Hx, Hp'. intros f'. destruct (_ && _); [|discriminate]. intros [= <-]. split; [|easy].
    split; [exact P1|eapply ext_trans; eauto].
Qed.
End Io.
