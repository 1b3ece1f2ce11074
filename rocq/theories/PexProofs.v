From Verif Require Import GoBase Strconv BencTypes BencFields BencEncode BencDecode BencSpec BencRoundSpec
  GoBaseProofs StrconvProofs BencFieldsProofs BencDecodeProofs BencFuelProofs BencEncodeProofs BencApiProofs BencRoundProofs BencRoundTrip Metainfo MetainfoProofs
  NetIP NetIPProofs Tracker TrackerSpec TrackerProofs Pex PexSpec.
From Coq Require Import Permutation.

Lemma announces_fun q r h a p ev c h' a' p' ev' c' : announces q r h a p ev c -> announces q r h' a' p' ev' c' -> h = h' /\ a = a' /\ p = p' /\ ev = ev' /\ c = c'.
Proof.
  intros (r1 & i1 & D1 & -> & I1 & P1 & N1 & Q1 & J1 & -> & -> & ->) (r2 & i2 & D2 & -> & I2 & P2 & N2 & Q2 & J2 & -> & -> & ->).
  apply request_decode_means in D1, D2. assert (r1 = r2) as -> by congruence. assert (p_ip p = p_ip p') as E by (destruct I1 as [[A B]|[A B]], I2 as [[C D]|[C D]]; congruence).
  assert (p = p') as -> by (destruct p, p'; cbn in *; congruence). assert (i1 = i2) as -> by congruence. auto.
Qed.
Lemma ae_fun e h a p ev t h' a' p' ev' t' : announce_event e h a p ev t -> announce_event e h' a' p' ev' t' -> h = h' /\ a = a' /\ p = p' /\ ev = ev' /\ t = t'.
Proof.
  destruct e as [q r n k|]; [|intros []]. intros (-> & c & A) (-> & c' & B). destruct (announces_fun _ _ _ _ _ _ _ _ _ _ _ _ A B) as (-> & -> & -> & -> & _). auto.
Qed.
Lemma classic_ann q remote : (exists h a p ev c, announces q remote h a p ev c) \/ (forall h a p ev c, ~ announces q remote h a p ev c).
Proof.
  destruct (request_decode new_request q) as [r|] eqn:D.
  2: { right. intros h a p ev c (r & ip & D' & _). apply request_decode_means in D'. congruence. }
  destruct (match r_ip r with [] => remote | i => Some i end) as [txt|] eqn:T.
  2: { right. intros h a p ev c (r' & ip & D' & _ & I & _). apply request_decode_means in D'. assert (r' = r) as -> by congruence. destruct (r_ip r); [|discriminate]. destruct I as [[_ I]|[I _]]; congruence. }
  destruct (parse_ip txt) as [ip|] eqn:P.
  2: { right. intros h a p ev c (r' & ip & D' & _ & I & P' & _). apply request_decode_means in D'. assert (r' = r) as -> by congruence. destruct (r_ip r); destruct I as [[A I]|[A I]]; congruence. }
  destruct (Z.eq_dec (r_port r) 0) as [Z0|Z0]. { right. intros h a p ev c (r' & ip' & D' & _ & I & P' & Q & _). apply request_decode_means in D'. congruence. }
  left. exists (r_info_hash r), (addr_text (show_ip ip) (r_port r)), {| p_id := r_peer_id r; p_ip := txt; p_port := r_port r |}, (r_event r), (r_compact r), r, ip. cbn. rewrite <- request_decode_means.
  repeat (split; [first [assumption|reflexivity|idtac]|]); try reflexivity; try assumption. destruct (r_ip r) as [|c l]; [left; auto|right; split; [discriminate|congruence]].
Qed.
Lemma last_snoc hist e h a t ev : last_announce (hist ++ [e]) h a t ev <->
  (exists p, announce_event e h a p ev t) \/ (forall p ev' t', ~ announce_event e h a p ev' t') /\ last_announce hist h a t ev.
Proof.
  split.
  - intros (pre & e' & post & p & E & A & N). destruct post as [|y post] using rev_ind.
    + apply app_inj_tail in E as [-> ->]. left. eauto.
    + clear IHpost. rewrite app_comm_cons, app_assoc in E. apply app_inj_tail in E as [-> ->]. right. split.
      * apply N. rewrite in_app_iff. right. left. reflexivity.
      * exists pre, e', post, p. split; [reflexivity|]. split; [exact A|]. intros x Hx. apply N. rewrite in_app_iff. auto.
  - intros [(p & A)|[N (pre & e' & post & p & -> & A & N')]].
    + exists hist, e, [], p. split; [reflexivity|]. split; [exact A|]. intros x [].
    + exists pre, e', (post ++ [e]), p. rewrite <- app_assoc. split; [reflexivity|]. split; [exact A|]. intros x Hx. apply in_app_iff in Hx as [Hx|[<-|[]]]; auto.
Qed.
Lemma last_fun hist h a t ev t' ev' : last_announce hist h a t ev -> last_announce hist h a t' ev' -> t = t' /\ ev = ev'.
Proof.
  induction hist as [|e hist IH] using rev_ind; [intros (pre & ? & ? & ? & E & _); destruct pre; discriminate|].
  rewrite !last_snoc. intros [(p & A)|[N A]] [(p' & B)|[N' B]].
  - destruct (ae_fun _ _ _ _ _ _ _ _ _ _ _ A B) as (_ & _ & _ & -> & ->). auto.
  - exfalso. eapply N'. exact A.
  - exfalso. eapply N. exact B.
  - auto.
Qed.
Lemma timed_le t l t' : timed t l t' -> t <= t'.
Proof. induction 1 as [|q r n k t t1 t' l H K T IH|]; [assumption| |lia]. specialize (K []). lia. Qed.
Lemma timed_weaken t l t' t2 : timed t l t' -> t2 <= t -> timed t2 l t'.
Proof.
  intros H L. inversion H as [? ? A|q r n k ? t1 ? ? A B D|h k ? t1 ? ? A B D]; subst.
  - constructor. lia.
  - apply tm_request with (t1 := t1); [lia|exact B|exact D].
  - apply tm_sweep with (t1 := t1); [lia| |exact D]. intros a. specialize (B a). lia.
Qed.
Lemma timed_snoc l e : forall t t', timed t (l ++ [e]) t' <-> exists t1, timed t l t1 /\ timed t1 [e] t'.
Proof.
  induction l as [|x l IH]; intros t t'; cbn [app].
  - split; [intros H; exists t; split; [constructor; lia|exact H]|]. intros (t1 & A & B). eapply timed_weaken; [exact B|]. apply (timed_le _ _ _ A).
  - split.
    + intros H. inversion H; subst; match goal with K : timed _ (_ ++ _) _ |- _ => apply IH in K as (t2 & A & B) end; exists t2; (split; [|exact B]); econstructor; eauto.
    + intros (t1 & A & B). inversion A; subst; econstructor; eauto; apply IH; eauto.
Qed.

Section Serve.
Variable err_text : bytes -> bytes.
Variable order : px_map -> px_map.
Hypothesis order_perm : forall m, Permutation m (order m).
Definition touched (a : bytes) (p : peer) (now : Z) (ev : bytes) (m : px_map) : px_map :=
  assoc_set a {| px_tp := match assoc a m with Some x => px_tp x | None => p end; px_updated := now; px_event := ev |} m.
Lemma serve_ok q remote now clk s h a p ev c m : announces q remote h a p ev c -> assoc h s = Some m ->
  serve err_text order q remote now clk s =
    (assoc_set h (touched a p now ev m) s,
     match marshal_response (answer {| ps_compact := c; ps_list := listing order clk a (touched a p now ev m) |}) with
     | EOk data => {| status := 200; body := data |} | _ => {| status := 500; body := [] |} end).
Proof.
  intros (r & ip & D & -> & I & P & N & Q & J & -> & -> & ->) A. unfold serve. apply request_decode_means in D. rewrite D, A.
  assert ((match r_ip r with [] => remote | i => Some i end) = Some (p_ip p)) as -> by (destruct (r_ip r); destruct I as [[E I]|[E I]]; congruence).
  rewrite P. apply Z.eqb_neq in N. rewrite N. rewrite Q.
  assert (touch (addr_text (show_ip ip) (r_port r)) r (p_ip p) now m = touched (addr_text (show_ip ip) (r_port r)) p now (r_event r) m) as ->; [|reflexivity].
  unfold touch, touched. do 3 f_equal. destruct (assoc _ m); [reflexivity|]. destruct p; cbn in *; congruence.
Qed.
Lemma serve_same q remote now clk s : (forall h a p ev c, announces q remote h a p ev c -> assoc h s = None) ->
  fst (serve err_text order q remote now clk s) = s.
Proof.
  intros H. unfold serve. destruct (request_decode new_request q) as [r|] eqn:D; [|reflexivity]. destruct (assoc (r_info_hash r) s) as [m|] eqn:A; [|reflexivity].
  destruct (match r_ip r with [] => remote | i => Some i end) as [txt|] eqn:T; [|reflexivity]. destruct (parse_ip txt) as [ip|] eqn:P; [|reflexivity].
  destruct (r_port r =? 0) eqn:Z0; [reflexivity|]. exfalso. apply Z.eqb_neq in Z0.
  assert (announces q remote (r_info_hash r) (addr_text (show_ip ip) (r_port r)) {| p_id := r_peer_id r; p_ip := txt; p_port := r_port r |} (r_event r) (r_compact r)) as B.
  { exists r, ip. cbn. rewrite <- request_decode_means. repeat (split; [first [assumption|reflexivity|idtac]|]); try reflexivity; try assumption. destruct (r_ip r) as [|c l]; [left; auto|right; split; [discriminate|congruence]]. }
  apply H in B. congruence.
Qed.
Lemma assoc_set_eq {A} k (v : A) m k' : assoc k' (assoc_set k v m) = if bytes_eqb k k' then Some v else assoc k' m.
Proof.
  destruct (bytes_eqb k k') eqn:E; [apply bytes_eqb_eq in E; subst; apply assoc_set_same|]. apply assoc_set_other. apply bytes_eqb_neq. exact E.
Qed.
Lemma assoc_filter {A} (f : bytes * A -> bool) m k : NoDup (map fst m) -> assoc k (filter f m) = match assoc k m with Some x => if f (k, x) then Some x else None | None => None end.
Proof.
  induction m as [|[k' x] m IH]; cbn [map fst]; intros N; [reflexivity|]. inversion_clear N as [|? ? N1 N2]. cbn [filter assoc].
  destruct (bytes_eqb k k') eqn:E.
  - apply bytes_eqb_eq in E. subst k'. destruct (f (k, x)); [cbn [assoc]; rewrite bytes_eqb_refl; reflexivity|]. rewrite (IH N2). rewrite (proj2 (assoc_none k m) N1). reflexivity.
  - destruct (f (k', x)); cbn [assoc]; [rewrite E|]; apply IH; exact N2.
Qed.
Lemma filter_nodup {A} (f : bytes * A -> bool) m : NoDup (map fst m) -> NoDup (map fst (filter f m)).
Proof.
  induction m as [|[k x] m IH]; cbn [map filter fst]; intros N; [constructor|]. inversion_clear N. destruct (f (k, x)); [|auto]. cbn [map fst]. constructor; [|auto].
  intros K. apply in_map_iff in K as (e & E & K). apply filter_In in K as [K _]. apply H. rewrite <- E. apply in_map. exact K.
Qed.

Definition map_ok (hist : list px_event_t) (T : Z) (h : bytes) (m : px_map) : Prop :=
  NoDup (map fst m) /\
  (forall a x, assoc a m = Some x -> last_announce hist h a (px_updated x) (px_event x) /\ exists e ev t, In e hist /\ announce_event e h a (px_tp x) ev t) /\
  (forall a t ev, last_announce hist h a t ev -> (exists x, assoc a m = Some x /\ px_updated x = t /\ px_event x = ev) \/ ev = stopped \/ minute < T - t).
Definition state_ok hist T s := forall h m, assoc h s = Some m -> map_ok hist T h m.

Lemma map_ok_other hist T h m e T' : T <= T' -> (forall a p ev t, ~ announce_event e h a p ev t) -> map_ok hist T h m -> map_ok (hist ++ [e]) T' h m.
Proof.
  intros L N (Nd & A & B). split; [exact Nd|]. split.
  - intros a x Hx. destruct (A a x Hx) as [La (e' & ev & t & I & Ae)]. split; [apply last_snoc; right; split; [apply N|exact La]|]. exists e', ev, t. rewrite in_app_iff. auto.
  - intros a t ev La. apply last_snoc in La as [(p & Ae)|[_ La]]; [exfalso; eapply N; exact Ae|]. destruct (B _ _ _ La) as [K|[K|K]]; [auto|auto|]. right. right. lia.
Qed.
Lemma map_ok_touch hist T h m e a p ev now T' : T <= T' -> announce_event e h a p ev now -> map_ok hist T h m -> map_ok (hist ++ [e]) T' h (touched a p now ev m).
Proof.
  intros L Ae (Nd & A & B). assert (forall a', a' <> a -> forall p' ev' t', ~ announce_event e h a' p' ev' t') as Oth.
  { intros a' Na p' ev' t' Ae'. destruct (ae_fun _ _ _ _ _ _ _ _ _ _ _ Ae Ae') as (_ & E & _). congruence. }
  split; [apply assoc_set_nodup; exact Nd|]. unfold touched. split.
  - intros a' x Hx. rewrite assoc_set_eq in Hx. destruct (bytes_eqb a a') eqn:E.
    + apply bytes_eqb_eq in E. subst a'. injection Hx as <-. cbn [px_updated px_event px_tp]. split; [apply last_snoc; eauto|].
      destruct (assoc a m) as [y|] eqn:Y.
      * destruct (A a y Y) as [_ (e' & ev' & t & I & Ae')]. exists e', ev', t. rewrite in_app_iff. auto.
      * exists e, ev, now. rewrite in_app_iff. cbn. auto.
    + apply bytes_eqb_neq in E. destruct (A a' x Hx) as [La (e' & ev' & t & I & Ae')]. split; [apply last_snoc; right; split; [apply Oth; congruence|exact La]|].
      exists e', ev', t. rewrite in_app_iff. auto.
  - intros a' t' ev' La. rewrite assoc_set_eq. destruct (bytes_eqb a a') eqn:E.
    + apply bytes_eqb_eq in E. subst a'. left. eexists. split; [reflexivity|]. cbn.
      apply last_snoc in La as [(p' & Ae')|[N _]]; [|exfalso; eapply N; exact Ae]. destruct (ae_fun _ _ _ _ _ _ _ _ _ _ _ Ae Ae') as (_ & _ & _ & -> & ->). auto.
    + apply bytes_eqb_neq in E. apply last_snoc in La as [(p' & Ae')|[_ La]]; [exfalso; eapply (Oth a'); [congruence|exact Ae']|].
      destruct (B _ _ _ La) as [K|[K|K]]; [auto|auto|]. right. right. lia.
Qed.
Lemma map_ok_sweep hist T h m e T' clk : T <= T' -> (forall a, T <= clk a <= T') -> (forall h a p ev t, ~ announce_event e h a p ev t) ->
  map_ok hist T h m -> map_ok (hist ++ [e]) T' h (sweep clk m).
Proof.
  intros L K N H. apply (map_ok_other _ _ _ _ e T' L (N h)) in H as (Nd & A & B). unfold sweep. split; [apply filter_nodup; exact Nd|]. split.
  - intros a x Hx. rewrite assoc_filter in Hx by exact Nd. destruct (assoc a m) as [y|] eqn:Y; [|discriminate]. destruct (negb _); [|discriminate]. injection Hx as <-. apply A. exact Y.
  - intros a t ev La. destruct (B _ _ _ La) as [(x & Hx & <- & <-)|Q]; [|auto]. rewrite assoc_filter by exact Nd. rewrite Hx. cbn [fst snd].
    destruct (dead (clk a) x) eqn:D; cbn [negb]; [|left; eauto]. unfold dead in D. apply orb_true_iff in D as [D|D]; [right; left; apply bytes_eqb_eq; exact D|].
    right. right. apply Z.ltb_lt in D. specialize (K a). lia.
Qed.
Lemma step_ok hist T s e T' : timed T [e] T' -> state_ok hist T s -> state_ok (hist ++ [e]) T' (px_step err_text order s e).
Proof.
  intros Tm H h m A. inversion Tm as [|q remote now clk ? t1 ? ? Ln Kn Tn|h0 clk ? t1 ? ? Ln Kn Tn]; subst; cbn [px_step] in A.
  - assert (T <= T') as LT by (apply (timed_le _ _ _ Tm)). set (e := EvRequest q remote now clk) in *.
    destruct (classic_ann q remote) as [(h' & a & p & ev & c & An)|Nn].
    + destruct (assoc h' s) as [m0|] eqn:A0.
      * rewrite (serve_ok _ _ now clk _ _ _ _ _ _ _ An A0) in A. cbn [fst] in A. rewrite assoc_set_eq in A. destruct (bytes_eqb h' h) eqn:E.
        -- apply bytes_eqb_eq in E. subst h'. injection A as <-. eapply map_ok_touch; [exact LT| |apply H; exact A0]. split; [reflexivity|]. eauto.
        -- apply bytes_eqb_neq in E. eapply map_ok_other; [exact LT| |apply H; exact A]. intros a' p' ev' t' (_ & c' & An'). destruct (announces_fun _ _ _ _ _ _ _ _ _ _ _ _ An An') as (-> & _). congruence.
      * rewrite serve_same in A. 2: { intros h2 a2 p2 ev2 c2 An2. destruct (announces_fun _ _ _ _ _ _ _ _ _ _ _ _ An An2) as (-> & _). exact A0. }
        eapply map_ok_other; [exact LT| |apply H; exact A]. intros a' p' ev' t' (_ & c' & An'). destruct (announces_fun _ _ _ _ _ _ _ _ _ _ _ _ An An') as (-> & _). congruence.
    + rewrite serve_same in A. 2: { intros h2 a2 p2 ev2 c2 An2. exfalso. eapply Nn. exact An2. }
      eapply map_ok_other; [exact LT| |apply H; exact A]. intros a' p' ev' t' (_ & c' & An'). eapply Nn. exact An'.
  - assert (t1 <= T') as LT by (apply (timed_le _ _ _ Tn)).
    assert (forall hh a p ev t, ~ announce_event (EvSweep h0 clk) hh a p ev t) as N by (intros hh a p ev t []).
    assert (T <= T') as LT2 by lia.
    destruct (assoc h0 s) as [m0|] eqn:A0; [|eapply map_ok_other; [exact LT2|apply N|apply H; exact A]].
    rewrite assoc_set_eq in A. destruct (bytes_eqb h0 h) eqn:E; [|eapply map_ok_other; [exact LT2|apply N|apply H; exact A]].
    apply bytes_eqb_eq in E. subst h0. injection A as <-. eapply map_ok_sweep; [exact LT2| |exact N|apply H; exact A0]. intros a. specialize (Kn a). lia.
Qed.
Lemma run_ok hist : forall t0 T s0, timed t0 hist T -> state_ok [] t0 s0 -> state_ok hist T (px_run err_text order s0 hist).
Proof.
  induction hist as [|e hist IH] using rev_ind; intros t0 T s0 Tm H.
  - intros h m A. destruct (H h m A) as (Nd & X & Y). split; [exact Nd|]. split; [exact X|]. intros a t ev (pre & ? & ? & ? & E & _). destruct pre; discriminate.
  - apply timed_snoc in Tm as (t1 & T1 & T2). unfold px_run. rewrite fold_left_app. cbn [fold_left]. apply (step_ok hist t1); [exact T2|]. apply (IH t0 t1 s0 T1 H).
Qed.
Lemma new_http_empty hashes h m : assoc h (new_http hashes) = Some m -> m = [].
Proof.
  unfold new_http. assert (forall l s, (assoc h s = Some m -> m = []) -> assoc h (fold_left (fun s h => assoc_set h [] s) l s) = Some m -> m = []) as K.
  { induction l as [|x l IH]; intros s Hs; cbn [fold_left]; [exact Hs|]. apply IH. rewrite assoc_set_eq. destruct (bytes_eqb x h); [congruence|exact Hs]. }
  apply K. discriminate.
Qed.
Lemma new_ok hashes t : state_ok [] t (new_http hashes).
Proof.
  intros h m A. apply new_http_empty in A. subst m. split; [constructor|]. split; [discriminate|]. intros a t' ev (pre & ? & ? & ? & E & _). destruct pre; discriminate.
Qed.
Lemma known_run hist : forall s h, assoc h s <> None -> assoc h (px_run err_text order s hist) <> None.
Proof.
  induction hist as [|e hist IH]; intros s h K; [exact K|]. cbn [px_run fold_left]. apply IH. destruct e as [q r n k|h' k]; cbn [px_step].
  - destruct (classic_ann q r) as [(h' & a & p & ev & c & An)|Nn].
    + destruct (assoc h' s) as [m|] eqn:A; [rewrite (serve_ok _ _ _ _ _ _ _ _ _ _ _ An A); cbn [fst]; rewrite assoc_set_eq; destruct (bytes_eqb h' h); [discriminate|exact K]|].
      rewrite serve_same; [exact K|]. intros h2 a2 p2 ev2 c2 An2. destruct (announces_fun _ _ _ _ _ _ _ _ _ _ _ _ An An2) as (-> & _). exact A.
    + rewrite serve_same; [exact K|]. intros h2 a2 p2 ev2 c2 An2. exfalso. eapply Nn. exact An2.
  - destruct (assoc h' s) eqn:A; [rewrite assoc_set_eq; destruct (bytes_eqb h' h); [discriminate|exact K]|exact K].
Qed.
Lemma new_http_known hashes h : In h hashes <-> assoc h (new_http hashes) <> None.
Proof.
  unfold new_http. assert (forall l s, assoc h (fold_left (fun s h => @assoc_set px_map h [] s) l s) <> None <-> In h l \/ assoc h s <> None) as K.
  { induction l as [|x l IH]; intros s; cbn [fold_left In]; [tauto|]. rewrite IH, assoc_set_eq. destruct (bytes_eqb x h) eqn:E.
    - apply bytes_eqb_eq in E. subst. split; [auto|intros _; right; discriminate].
    - apply bytes_eqb_neq in E. tauto. }
  rewrite K. cbn [assoc]. tauto.
Qed.
Lemma in_assoc_iff {A} k (x : A) m : NoDup (map fst m) -> (In (k, x) m <-> assoc k m = Some x).
Proof. intros N. split; [apply in_assoc; exact N|apply assoc_in]. Qed.
Lemma listing_in clk a m p : In p (listing order clk a m) <->
  exists k x, In (k, x) m /\ dead (clk k) x = false /\ addr_text (p_ip (px_tp x)) (p_port (px_tp x)) <> a /\ p = px_tp x.
Proof.
  unfold listing. rewrite in_map_iff. split.
  - intros ([k x] & <- & H). apply filter_In in H as [H F]. cbn [fst snd] in *. apply andb_true_iff in F as [F1 F2]. apply negb_true_iff in F1. apply negb_true_iff, bytes_eqb_neq in F2.
    exists k, x. split; [eapply Permutation_in; [symmetry; apply order_perm|exact H]|auto].
  - intros (k & x & H & D & N & ->). exists (k, x). split; [reflexivity|]. apply filter_In. split; [eapply Permutation_in; [apply order_perm|exact H]|].
    cbn [fst snd]. rewrite D. cbn [negb andb]. apply negb_true_iff, bytes_eqb_neq. exact N.
Qed.

(** The list of peers in the reply to an announce that ends a history. *)
Lemma ae_addr e h a p ev t : announce_event e h a p ev t -> has_addr p a.
Proof. destruct e; [|intros []]. intros (_ & c & r & ip & D & _ & I & P & N & Q & J & E & _). exists ip. auto. Qed.
Definition entries (clk : bytes -> Z) (a : bytes) (m : px_map) := filter (fun e => negb (dead (clk (fst e)) (snd e)) && negb (bytes_eqb (addr_text (p_ip (px_tp (snd e))) (p_port (px_tp (snd e)))) a)) (order m).
Lemma listing_entries clk a m : listing order clk a m = map (fun e => px_tp (snd e)) (entries clk a m).
Proof. reflexivity. Qed.
Lemma nodup_addrs (l : px_map) : NoDup (map fst l) -> (forall k x, In (k, x) l -> has_addr (px_tp x) k) ->
  exists addrs, Forall2 has_addr (map (fun e => px_tp (snd e)) l) addrs /\ NoDup addrs.
Proof.
  intros N H. exists (map fst l). split; [|exact N]. clear N. induction l as [|[k x] l IH]; cbn [map fst snd]; constructor; [apply H; left; reflexivity|]. apply IH. intros. apply H. right. assumption.
Qed.
Theorem listing_spec hashes t0 hist q remote now clk T h a p ev c :
  timed t0 (hist ++ [EvRequest q remote now clk]) T -> In h hashes -> announces q remote h a p ev c ->
  let all := hist ++ [EvRequest q remote now clk] in
  (forall e, In e all -> standard_event e) ->
  exists l, snd (serve err_text order q remote now clk (px_run err_text order (new_http hashes) hist)) =
      match marshal_response (answer {| ps_compact := c; ps_list := l |}) with
      | EOk data => {| status := 200; body := data |} | _ => {| status := 500; body := [] |} end /\
    (exists addrs, Forall2 has_addr l addrs /\ NoDup addrs) /\
    (forall p', In p' l -> exists e a' ev' t', In e all /\ announce_event e h a' p' ev' t') /\
    (forall a', (exists p', In p' l /\ has_addr p' a') <->
       a' <> a /\ exists t ev, last_announce all h a' t ev /\ ev <> stopped /\ clk a' - t <= minute).
Proof.
  intros Tm Kh An all St. apply timed_snoc in Tm as (t1 & Tm1 & Tm). pose proof (run_ok hist t0 t1 (new_http hashes) Tm1 (new_ok hashes t0)) as R.
  set (s := px_run err_text order (new_http hashes) hist) in *.
  destruct (assoc h s) as [m|] eqn:A. 2: { exfalso. apply new_http_known in Kh. apply (known_run hist) in Kh. contradiction. }
  rewrite (serve_ok _ _ now clk _ _ _ _ _ _ _ An A). cbn [snd]. specialize (R h m A).
  apply (map_ok_touch hist t1 h m (EvRequest q remote now clk) a p ev now t1 (Z.le_refl _)) in R; [|split; [reflexivity|eauto]].
  fold all in R. set (m' := touched a p now ev m) in *. destruct R as (Nd & X & Y).
  assert (forall k x, assoc k m' = Some x -> has_addr (px_tp x) k /\ addr_text (p_ip (px_tp x)) (p_port (px_tp x)) = k) as Ad.
  { intros k x Hx. destruct (X k x Hx) as [_ (e & ev' & t & I & Ae)]. pose proof (ae_addr _ _ _ _ _ _ Ae) as (ip & P & E). split; [exists ip; auto|].
    destruct (St e I _ _ _ _ _ Ae) as (ip' & P' & S'). assert (ip' = ip) as -> by congruence. rewrite E, S'. reflexivity. }
  exists (listing order clk a m'). split; [reflexivity|]. split; [|split].
  - rewrite listing_entries. apply nodup_addrs.
    + unfold entries. apply filter_nodup. eapply Permutation_NoDup; [|exact Nd]. apply Permutation_map, order_perm.
    + intros k x H. apply filter_In in H as [H _]. apply Ad. apply in_assoc; [exact Nd|]. eapply Permutation_in; [symmetry; apply order_perm|exact H].
  - intros p' H. apply listing_in in H as (k & x & H & _ & _ & ->). apply in_assoc in H; [|exact Nd]. destruct (X k x H) as [_ (e & ev' & t & I & Ae)]. eauto 8.
  - intros a'. split.
    + intros (p' & H & Ha). apply listing_in in H as (k & x & H & D & N & ->). apply in_assoc in H; [|exact Nd]. destruct (Ad k x H) as [(ip & P & E) Ek]. destruct Ha as (ip' & P' & E').
      assert (k = a') as -> by congruence. split; [congruence|]. destruct (X _ x H) as [La _]. exists (px_updated x), (px_event x). split; [exact La|].
      unfold dead in D. apply orb_false_iff in D as [D1 D2]. split; [apply bytes_eqb_neq; exact D1|apply Z.ltb_ge; exact D2].
    + intros (Na & t & ev' & La & Ns & Ag). destruct (Y _ _ _ La) as [(x & Hx & <- & <-)|[K|K]]; [|contradiction|].
      2: { exfalso. inversion Tm as [|? ? ? ? ? t2 ? ? L1 L2 L3|]; subst. specialize (L2 a'). lia. }
      destruct (Ad _ _ Hx) as [Ha Ek]. exists (px_tp x). split; [|exact Ha]. apply listing_in. exists a', x. split; [apply assoc_in; exact Hx|].
      split; [unfold dead; apply orb_false_iff; split; [apply bytes_eqb_neq; exact Ns|apply Z.ltb_ge; exact Ag]|]. split; [congruence|reflexivity].
Qed.
End Serve.

(** *** Replies *)
Definition resp_fields : list finfo := ltac:(let r := eval vm_compute in (sorted_fields response_ty) in exact r).
Lemma resp_fields_eq : sorted_fields response_ty = resp_fields.
Proof. vm_compute. reflexivity. Qed.
Lemma encode_answer n ps : encode tracker_customs (S (S n)) response_ty fl_new 0 (response_val (answer ps)) =
  ewrite (bs "d") (ewrite (bs "8:interval") (ewrite (bs "i30e") (ewrite (bs "5:peers") (eseq (enc_marshaler tracker_customs peers_id (Some (peers_val ps)) fl_new 1) (EOk (bs "e")))))).
Proof.
  remember (S n) as m eqn:Em. cbn [encode].
  replace (if negb (is_ptr response_ty) && fl_addr fl_new then ptr_impl m_marsh response_ty else None) with (@None nat) by reflexivity.
  replace (impl m_marsh response_ty) with (@None nat) by reflexivity.
  replace (under response_ty) with response_ty by reflexivity. unfold response_ty at 1. unfold response_val at 1. cbn iota.
  rewrite resp_fields_eq. unfold resp_fields. cbn [fold_right f_index f_key f_omit].
  repeat match goal with |- context [field_by_index [?j] response_ty ?fl (response_val (answer ps))] =>
    let r := eval cbn [field_by_index response_ty response_val answer nth_error struct_fields under rs_failure rs_interval rs_peers rs_warning rs_min_interval rs_tracker_id rs_complete rs_incomplete is_nil] in (field_by_index [j] response_ty fl (response_val (answer ps))) in
    change (field_by_index [j] response_ty fl (response_val (answer ps))) with r end.
  cbn iota. cbn [is_nil under andb is_empty_value]. change (0 =? 0) with true. change (ptr_depth_limit <? 1)%nat with false. cbn iota.
  rewrite Em. rewrite !encode_int by reflexivity. rewrite (encode_peers_ptr tracker_customs) by reflexivity.
  change (enc_marshaler tracker_customs peers_id (Some (peers_val ps)) (fl_field fl_new (mf (bs "Peers") (bs "peers"))) 1)
    with (enc_marshaler tracker_customs peers_id (Some (peers_val ps)) fl_new 1).
  generalize (enc_marshaler tracker_customs peers_id (Some (peers_val ps)) fl_new 1). intros r. destruct r; cbn [eseq ewrite]; rewrite ?app_nil_r, <- ?app_assoc; reflexivity.
Qed.
Lemma marshal_answer ps : marshal_response (answer ps) =
  match peers_marshal (Some (peers_val ps)) with
  | Ok b => EOk (bs "d8:intervali30e5:peers" ++ b ++ bs "e")
  | Err _ => EErr (bs "d8:intervali30e5:peers") 1 EUser
  | Panic => EPanic
  end.
Proof.
  unfold marshal_response. apply (marshal_eq tracker_customs 12); [|cbn [vdepth]; pose proof (vdepth_response (answer ps)); lia].
  rewrite encode_resp_ptr. change (fl_elem fl_root_val) with fl_new. rewrite encode_answer. unfold enc_marshaler. cbn [fl_ro fl_new].
  change (c_marsh tracker_customs peers_id) with peers_marshal. generalize (peers_marshal (Some (peers_val ps))). intros [b|u|]; reflexivity.
Qed.
Lemma answer_bytes ps b : marshal_response (answer ps) = EOk b -> exists x, peers_marshal (Some (peers_val ps)) = Ok x.
Proof. rewrite marshal_answer. destruct (peers_marshal (Some (peers_val ps))) as [x|u|]; [eauto|discriminate|discriminate]. Qed.
Lemma compact_all l c : compact_peers l = Some c -> Forall (fun p => exists ip q, parse_ip (p_ip p) = Some ip /\ to4 ip = Some q) l.
Proof.
  revert c. induction l as [|p l IH]; intros c H; constructor; cbn [compact_peers] in H; unfold compact_peer in H;
    destruct (parse_ip (p_ip p)) as [ip|]; try discriminate; destruct (to4 ip) as [q|] eqn:Q; try discriminate; [eauto|].
  destruct (compact_peers l) as [b|]; [|discriminate]. eapply IH. reflexivity.
Qed.
Lemma compact_200 l : (exists b, marshal_response (answer {| ps_compact := true; ps_list := l |}) = EOk b) <-> Forall (fun p => exists ip q, parse_ip (p_ip p) = Some ip /\ to4 ip = Some q) l.
Proof.
  split.
  - intros (b & H). apply answer_bytes in H as (x & H). unfold peers_marshal in H. rewrite peers_of_peers_val in H. cbn [ps_compact ps_list] in H.
    destruct (compact_peers l) as [c|] eqn:C; [|discriminate]. eapply compact_all. exact C.
  - intros F. destruct (compact_general l F) as (c & l' & E & _). rewrite marshal_answer. unfold peers_marshal. rewrite peers_of_peers_val. cbn [ps_compact ps_list]. rewrite E, marshal_bytes. eauto.
Qed.
Lemma answer_fits ps : sendable ps -> response_fits (answer ps).
Proof. intros S. split; [repeat constructor; cbv; discriminate|]. split; [repeat constructor; cbv; discriminate|exact S]. Qed.
Section Reply.
Variable err_text : bytes -> bytes.
Variable order : px_map -> px_map.
Hypothesis order_perm : forall m, Permutation m (order m).
(** The reply to a well-formed announce, from any state. *)
Theorem reply_spec q remote now clk s s' rep h a p ev c m : announces q remote h a p ev c -> assoc h s = Some m ->
  serve err_text order q remote now clk s = (s', rep) ->
  exists m' l, assoc h s' = Some m' /\ l = listing order clk a m' /\
    (c = true -> (status rep = 200 <-> Forall (fun p => exists ip q, parse_ip (p_ip p) = Some ip /\ to4 ip = Some q) l)) /\
    (c = false -> Forall peer_fits l -> l <> [] -> status rep = 200) /\
    (status rep = 200 -> 6 * zlen l <= 2 ^ 48 -> Forall peer_fits l -> c = true \/ l <> [] ->
       exists ps', unmarshal_response (body rep) = DOk (VPtr (response_val (answer ps'))) [] (zlen (body rep)) /\
    client_view {| ps_compact := c; ps_list := l |} ps').
Proof.
  intros An A H. rewrite (serve_ok err_text order _ _ now clk _ _ _ _ _ _ _ An A) in H. injection H as <- <-.
  exists (touched a p now ev m), (listing order clk a (touched a p now ev m)). split; [apply assoc_set_same|]. split; [reflexivity|]. set (l := listing order clk a (touched a p now ev m)). clearbody l.
  split; [|split].
  - intros ->. rewrite <- compact_200. destruct (marshal_response (answer {| ps_compact := true; ps_list := l |})) as [b| | |]; cbn; split; try discriminate; eauto; intros (x & K); discriminate.
  - intros -> F N. destruct (response_round (answer {| ps_compact := false; ps_list := l |})) as (b & ps' & M & _); [apply answer_fits; split; assumption|]. rewrite M. reflexivity.
  - intros St L F Or. destruct (marshal_response (answer {| ps_compact := c; ps_list := l |})) as [b| | |] eqn:M; try discriminate. cbn [body].
    assert (sendable {| ps_compact := c; ps_list := l |}) as Sd.
    { unfold sendable. cbn [ps_compact ps_list]. destruct c; [split; [exact L|]; apply compact_200; eauto|]. split; [destruct Or; [discriminate|assumption]|exact F]. }
    destruct (response_round _ (answer_fits _ Sd)) as (b' & ps' & M' & U & V). assert (b' = b) as -> by congruence. cbn [answer rs_peers] in V.
    destruct ps' as [ps'|]; [|destruct V]. exists ps'. split; [exact U|exact V].
Qed.
(** Every listed peer announced itself to this torrent earlier (or is the requester). *)
Lemma listed_announced hashes t0 hist T h m clk a : timed t0 hist T -> assoc h (px_run err_text order (new_http hashes) hist) = Some m ->
  forall p, In p (listing order clk a m) -> exists e a' ev t, In e hist /\ announce_event e h a' p ev t.
Proof.
  intros Tm A p H. destruct (run_ok err_text order order_perm hist t0 T (new_http hashes) Tm (new_ok hashes t0) h m A) as (Nd & X & _).
  apply (listing_in order order_perm) in H as (k & x & H & _ & _ & ->). apply in_assoc in H; [|exact Nd]. destruct (X k x H) as [_ (e & ev & t & I & Ae)]. eauto 6.
Qed.
Theorem ipv4_history_200 hashes t0 hist q remote now clk T h a p ev :
  let all := hist ++ [EvRequest q remote now clk] in
  timed t0 all T -> In h hashes -> announces q remote h a p ev true ->
  (forall e a' p' ev' t', In e all -> announce_event e h a' p' ev' t' -> exists ip x, parse_ip (p_ip p') = Some ip /\ to4 ip = Some x) ->
  status (snd (serve err_text order q remote now clk (px_run err_text order (new_http hashes) hist))) = 200.
Proof.
  intros all Tm Kh An F4. set (s := px_run err_text order (new_http hashes) hist).
  destruct (assoc h s) as [m|] eqn:A. 2: { exfalso. apply (new_http_known err_text) in Kh. exact (known_run err_text order hist _ _ Kh A). }
  destruct (serve err_text order q remote now clk s) as [s' rep] eqn:Sv. destruct (reply_spec _ _ _ _ _ _ _ _ _ _ _ _ _ An A Sv) as (m' & l & A' & -> & R & _). cbn [snd].
  apply R; [reflexivity|]. apply Forall_forall. intros p' Hp.
  assert (px_run err_text order (new_http hashes) all = s') as Es. { unfold all, px_run. rewrite fold_left_app. fold (px_run err_text order (new_http hashes) hist). fold s. cbn [fold_left px_step]. rewrite Sv. reflexivity. }
  rewrite <- Es in A'. destruct (listed_announced _ _ _ _ _ _ _ _ Tm A' p' Hp) as (e & a' & ev' & t & I & Ae). eapply F4; eauto.
Qed.
(** An announce changes only its own torrent. *)
Theorem other_torrents q remote now clk s h : (forall a p ev c, ~ announces q remote h a p ev c) ->
  assoc h (fst (serve err_text order q remote now clk s)) = assoc h s.
Proof.
  intros N. destruct (classic_ann q remote) as [(h' & a & p & ev & c & An)|Nn].
  - destruct (assoc h' s) as [m|] eqn:A.
    + rewrite (serve_ok err_text order _ _ now clk _ _ _ _ _ _ _ An A). cbn [fst]. apply assoc_set_other. intros ->. eapply N. exact An.
    + rewrite serve_same; [reflexivity|]. intros h2 a2 p2 ev2 c2 An2. destruct (announces_fun _ _ _ _ _ _ _ _ _ _ _ _ An An2) as (-> & _). exact A.
  - rewrite serve_same; [reflexivity|]. intros h2 a2 p2 ev2 c2 An2. exfalso. eapply Nn. exact An2.
Qed.
Theorem failure_decodes msg : len_fits msg -> exists b, fail msg = {| status := 400; body := b |} /\
    unmarshal_response b = DOk (VPtr (response_val (failure msg))) [] (zlen b).
Proof.
  intros L. destruct (plain_round (failure msg)) as (b & M & U).
  - split; [repeat constructor; [exact L|cbv; discriminate|cbv; discriminate]|]. split; [repeat constructor; cbv; discriminate|exact I].
  - exact I.
  - exists b. unfold fail. rewrite M. auto.
Qed.
Theorem malformed_rejected q remote now clk s : (forall h a p ev c, announces q remote h a p ev c -> assoc h s = None) ->
  fst (serve err_text order q remote now clk s) = s /\ exists msg, snd (serve err_text order q remote now clk s) = fail msg \/ snd (serve err_text order q remote now clk s) = {| status := 400; body := [] |}.
Proof.
  intros H. split; [apply serve_same; exact H|]. unfold serve. destruct (request_decode new_request q) as [r|] eqn:D; [|eexists; left; reflexivity]. destruct (assoc (r_info_hash r) s) as [m|] eqn:A; [|eexists; left; reflexivity].
  destruct (match r_ip r with [] => remote | i => Some i end) as [txt|] eqn:T; [|exists []; right; reflexivity]. destruct (parse_ip txt) as [ip|] eqn:P; [|eexists; left; reflexivity].
  destruct (r_port r =? 0) eqn:Z0; [eexists; left; reflexivity|]. exfalso. apply Z.eqb_neq in Z0.
  assert (announces q remote (r_info_hash r) (addr_text (show_ip ip) (r_port r)) {| p_id := r_peer_id r; p_ip := txt; p_port := r_port r |} (r_event r) (r_compact r)) as B.
  { exists r, ip. cbn. rewrite <- request_decode_means. repeat (split; [first [assumption|reflexivity|idtac]|]); try reflexivity; try assumption. destruct (r_ip r) as [|c l]; [left; auto|right; split; [discriminate|congruence]]. }
  apply H in B. congruence.
Qed.
End Reply.
