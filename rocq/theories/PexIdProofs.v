From Verif Require Import GoBase GoBaseProofs BencTypes BencFields BencFieldsProofs BencEncode BencDecode BencSpec NetIP Tracker TrackerSpec NetIPProofs TrackerProofs Pex PexSpec PexProofs PexIdSpec.
From Coq Require Import Permutation.

Section Ids.
Variable err_text : bytes -> bytes.
Variable order : px_map -> px_map.
Hypothesis order_perm : forall m, Permutation m (order m).
Notation px_step := (px_step err_text order).
Notation px_run := (px_run err_text order).
Notation serve := (serve err_text order).

Definition entry (s : px_state) (h a : bytes) : option px_peer := match assoc h s with Some m => assoc a m | None => None end.
Lemma entry_some (s : px_state) h a (m : px_map) : assoc h s = Some m -> entry s h a = assoc a m.
Proof. intros A. unfold entry. now rewrite A. Qed.
(** One step: the entry is made by this announce, keeps its peer, or is swept. *)
Lemma entry_announce q remote now clk (s : px_state) h a p ev c (m : px_map) : announces q remote h a p ev c -> assoc h s = Some m -> forall h' a',
  entry (px_step s (EvRequest q remote now clk)) h' a' =
  if bytes_eqb h h' && bytes_eqb a a' then Some {| px_tp := match assoc a m with Some x => px_tp x | None => p end; px_updated := now; px_event := ev |} else entry s h' a'.
Proof.
  intros An A h' a'. cbn [Pex.px_step]. rewrite (serve_ok _ _ _ _ _ _ _ _ _ _ _ _ _ An A). cbn [fst]. unfold entry. rewrite assoc_set_eq.
  destruct (bytes_eqb h h') eqn:E; [|reflexivity]. apply bytes_eqb_eq in E. subst h'. cbn [andb]. unfold touched. rewrite assoc_set_eq. destruct (bytes_eqb a a'); [reflexivity|]. now rewrite A.
Qed.
Lemma entry_other q remote now clk (s : px_state) : (forall h a p ev c, announces q remote h a p ev c -> assoc h s = None) -> px_step s (EvRequest q remote now clk) = s.
Proof. intros N. cbn [Pex.px_step]. apply serve_same. exact N. Qed.
Lemma step_cases (s : px_state) e h a x' : (forall hh (m : px_map), assoc hh s = Some m -> NoDup (map fst m)) -> entry (px_step s e) h a = Some x' ->
  (exists x, entry s h a = Some x /\ px_tp x' = px_tp x) \/ (entry s h a = None /\ exists ev t, announce_event e h a (px_tp x') ev t).
Proof.
  intros Nd H. destruct e as [q remote now clk|h0 clk].
  - destruct (classic_ann q remote) as [(h1 & a1 & p & ev & c & An)|Nn].
    + destruct (assoc h1 s) as [m|] eqn:A.
      * rewrite (entry_announce _ _ _ _ _ _ _ _ _ _ _ An A) in H. destruct (bytes_eqb h1 h && bytes_eqb a1 a) eqn:E; [|left; eauto].
        apply andb_true_iff in E as [E1 E2]. apply bytes_eqb_eq in E1, E2. subst h1 a1. injection H as <-. cbn [px_tp]. rewrite (entry_some _ _ _ _ A). destruct (assoc a m) as [x|]; [left; eauto|].
        right. split; [reflexivity|]. exists ev, now. split; [reflexivity|]. eauto.
      * rewrite entry_other in H; [left; eauto|]. intros h2 a2 p2 ev2 c2 An2. destruct (announces_fun _ _ _ _ _ _ _ _ _ _ _ _ An An2) as (-> & _). exact A.
    + rewrite entry_other in H; [left; eauto|]. intros h2 a2 p2 ev2 c2 An2. exfalso. eapply Nn. exact An2.
  - left. cbn [Pex.px_step] in H. destruct (assoc h0 s) as [m|] eqn:A; [|eauto]. unfold entry in H. rewrite assoc_set_eq in H. destruct (bytes_eqb h0 h) eqn:E; [|unfold entry; eauto].
    apply bytes_eqb_eq in E. subst h0. unfold sweep in H. rewrite assoc_filter in H by eauto. rewrite (entry_some _ _ _ _ A). destruct (assoc a m) as [x|]; [|discriminate]. destruct (negb _); [|discriminate]. injection H as ->. eauto.
Qed.
Lemma state_nodup hist T (s : px_state) : state_ok hist T s -> forall hh (m : px_map), assoc hh s = Some m -> NoDup (map fst m).
Proof. intros H hh m A. apply (H hh m A). Qed.
Lemma run_snoc s hist e : px_run s (hist ++ [e]) = px_step (px_run s hist) e.
Proof. unfold Pex.px_run. rewrite fold_left_app. reflexivity. Qed.
Lemma run_app s l l' : px_run s (l ++ l') = px_run (px_run s l) l'.
Proof. unfold Pex.px_run. apply fold_left_app. Qed.
(** From a state without an entry, an entry comes from an announce since. *)
Lemma since h1 h2 hashes t0 T h a x : timed t0 (h1 ++ h2) T -> entry (px_run (new_http hashes) h1) h a = None -> entry (px_run (new_http hashes) (h1 ++ h2)) h a = Some x ->
  exists e ev t, In e h2 /\ announce_event e h a (px_tp x) ev t.
Proof.
  revert T x. induction h2 as [|e h2 IH] using rev_ind; intros T x Tm N H; [rewrite app_nil_r in H; congruence|].
  rewrite app_assoc in Tm, H. apply timed_snoc in Tm as (t1 & Tm & _). rewrite run_snoc in H.
  pose proof (run_ok err_text order order_perm _ t0 t1 _ Tm (new_ok hashes t0)) as R. destruct (step_cases _ _ _ _ _ (state_nodup _ _ _ R) H) as [(y & Y & E)|(_ & ev & t & A)].
  - destruct (IH _ _ Tm N Y) as (e' & ev & t & I & A). rewrite <- E in A. exists e', ev, t. split; [apply in_or_app; now left|exact A].
  - exists e, ev, t. split; [apply in_or_app; right; now left|exact A].
Qed.
Lemma forgotten_none hist hashes t0 T h a : timed t0 hist T -> forgotten hist h a -> entry (px_run (new_http hashes) hist) h a = None.
Proof.
  intros Tm [S|(before & clk & after & -> & S & L)].
  - destruct (entry (px_run (new_http hashes) hist) h a) as [x|] eqn:X; [|reflexivity]. exfalso.
    destruct (since [] hist hashes t0 T h a x Tm) as (e & ev & t & I & A); [|exact X|exact (S _ _ _ _ I A)].
    cbn. unfold entry. destruct (assoc h (new_http hashes)) as [m|] eqn:Q; [|reflexivity]. apply new_http_empty in Q. now subst m.
  - assert (entry (px_run (new_http hashes) (before ++ [EvSweep h clk])) h a = None) as N.
    { rewrite run_snoc. cbn [Pex.px_step]. change (before ++ EvSweep h clk :: after) with (before ++ [EvSweep h clk] ++ after) in Tm. rewrite app_assoc in Tm.
      assert (exists t1, timed t0 before t1) as (t1 & Tb).
      { clear -Tm. revert T Tm. induction after as [|e l IH] using rev_ind; intros T Tm; [rewrite app_nil_r in Tm; apply timed_snoc in Tm as (t1 & ? & _); eauto|].
        rewrite app_assoc in Tm. apply timed_snoc in Tm as (t1 & Tm & _). eauto. }
      pose proof (run_ok err_text order order_perm _ t0 t1 _ Tb (new_ok hashes t0)) as R. destruct (assoc h (px_run (new_http hashes) before)) as [m|] eqn:A; [|unfold entry; now rewrite A].
      unfold entry. rewrite assoc_set_eq, (proj2 (bytes_eqb_eq h h) eq_refl). destruct (R h m A) as (Nd & X & _). unfold sweep. rewrite assoc_filter by exact Nd. destruct (assoc a m) as [x|] eqn:Q; [|reflexivity].
      destruct (X a x Q) as [La _]. cbn [fst snd]. unfold dead. destruct (L _ _ La) as [E|E].
      - rewrite E. change leaving with stopped. rewrite (proj2 (bytes_eqb_eq stopped stopped) eq_refl). reflexivity.
      - change minute with a_minute. rewrite (proj2 (Z.ltb_lt _ _) E), orb_true_r. reflexivity. }
    destruct (entry (px_run (new_http hashes) (before ++ EvSweep h clk :: after)) h a) as [x|] eqn:X; [|reflexivity]. exfalso.
    replace (before ++ EvSweep h clk :: after) with ((before ++ [EvSweep h clk]) ++ after) in Tm, X by (rewrite <- app_assoc; reflexivity).
    destruct (since _ _ hashes t0 T h a x Tm N X) as (e & ev & t & I & A). exact (S _ _ _ _ I A).
Qed.
(** While it is remembered, an entry keeps its peer. *)
Lemma keeps h1 h2 hashes t0 T h a x : timed t0 (h1 ++ h2) T -> entry (px_run (new_http hashes) h1) h a = Some x -> remembered h1 h2 h a ->
  exists y, entry (px_run (new_http hashes) (h1 ++ h2)) h a = Some y /\ px_tp y = px_tp x.
Proof.
  revert T. induction h2 as [|e h2 IH] using rev_ind; intros T Tm X K; [rewrite app_nil_r; eauto|].
  rewrite app_assoc in Tm |- *. apply timed_snoc in Tm as (t1 & Tm & _). rewrite run_snoc.
  destruct (IH _ Tm X) as (y & Y & E). { intros pre clk post Q. apply (K pre clk (post ++ [e])). rewrite Q, <- app_assoc. reflexivity. }
  pose proof (run_ok err_text order order_perm _ t0 t1 _ Tm (new_ok hashes t0)) as R. set (s := px_run (new_http hashes) (h1 ++ h2)) in *. rewrite <- E. clear E X IH.
  destruct e as [q remote now clk|h0 clk].
  - destruct (classic_ann q remote) as [(h3 & a1 & p & ev & c & An)|Nn].
    + destruct (assoc h3 s) as [m|] eqn:A.
      * rewrite (entry_announce _ _ _ _ _ _ _ _ _ _ _ An A). destruct (bytes_eqb h3 h && bytes_eqb a1 a) eqn:E; [|eauto].
        apply andb_true_iff in E as [E1 E2]. apply bytes_eqb_eq in E1, E2. subst h3 a1. rewrite (entry_some _ _ _ _ A) in Y. rewrite Y. eauto.
      * rewrite entry_other; [eauto|]. intros h2' a2 p2 ev2 c2 An2. destruct (announces_fun _ _ _ _ _ _ _ _ _ _ _ _ An An2) as (-> & _). exact A.
    + rewrite entry_other; [eauto|]. intros h2' a2 p2 ev2 c2 An2. exfalso. eapply Nn. exact An2.
  - cbn [Pex.px_step]. destruct (assoc h0 s) as [m|] eqn:A; [|eauto]. unfold entry at 1. rewrite assoc_set_eq. destruct (bytes_eqb h0 h) eqn:E; [|eauto].
    apply bytes_eqb_eq in E. subst h0. rewrite (entry_some _ _ _ _ A) in Y. destruct (R h m A) as (Nd & X & _). unfold sweep. rewrite assoc_filter by exact Nd. rewrite Y. destruct (X a y Y) as [La _].
    destruct (K h2 clk [] eq_refl) as (t & ev & La' & N1 & N2). destruct (last_fun _ _ _ _ _ _ _ La La') as [Et Ee]. cbn [fst snd]. unfold dead. rewrite Et, Ee.
    change stopped with leaving. change minute with a_minute. rewrite (proj2 (bytes_eqb_neq _ _) N1), (proj2 (Z.ltb_ge _ _) N2). cbn. eauto.
Qed.
Definition replies (rep : reply) (c : bool) (l : list peer) : Prop :=
  rep = match marshal_response (answer {| ps_compact := c; ps_list := l |}) with EOk data => {| status := 200; body := data |} | _ => {| status := 500; body := [] |} end.
Lemma timed_prefix l1 l2 t0 T : timed t0 (l1 ++ l2) T -> exists t1, timed t0 l1 t1.
Proof.
  revert T. induction l2 as [|e l IH] using rev_ind; intros T Tm; [rewrite app_nil_r in Tm; eauto|]. rewrite app_assoc in Tm. apply timed_snoc in Tm as (t1 & Tm & _). eauto.
Qed.
Theorem listed_since hashes t0 h1 h2 q remote now clk T h a p ev c : timed t0 ((h1 ++ h2) ++ [EvRequest q remote now clk]) T -> In h hashes -> announces q remote h a p ev c ->
  exists l, replies (snd (serve q remote now clk (px_run (new_http hashes) (h1 ++ h2)))) c l /\
    forall p' a', In p' l -> has_addr p' a' -> forgotten h1 h a' -> exists e ev' t', In e (h2 ++ [EvRequest q remote now clk]) /\ announce_event e h a' p' ev' t'.
Proof.
  intros Tm Kh An. destruct (timed_prefix _ _ _ _ Tm) as (t1 & Tm1). destruct (timed_prefix _ _ _ _ Tm1) as (t2 & Tm2).
  pose proof (run_ok err_text order order_perm _ t0 t1 _ Tm1 (new_ok hashes t0)) as R. set (s := px_run (new_http hashes) (h1 ++ h2)) in *.
  destruct (assoc h s) as [m|] eqn:A. 2: { exfalso. exact (known_run err_text order (h1 ++ h2) _ _ (proj1 (new_http_known err_text hashes h) Kh) ltac:(eassumption)). }
  pose proof (R h m A) as R1. apply (map_ok_touch err_text order order_perm _ t1 h m (EvRequest q remote now clk) a p ev now t1 (Z.le_refl _)) in R1; [|split; [reflexivity|eauto]].
  exists (listing order clk a (touched a p now ev m)). split; [unfold replies; now rewrite (serve_ok _ _ _ _ _ _ _ _ _ _ _ _ _ An A)|].
  intros p' a' I Ha F. apply (listing_in order order_perm) in I as (k & x & I & _ & _ & ->). destruct R1 as (Nd & X & _). apply in_assoc in I; [|exact Nd].
  destruct (X k x I) as [_ (e & ev1 & t' & _ & Ae)]. pose proof (ae_addr _ _ _ _ _ _ Ae) as (ip & P & E). destruct Ha as (ip' & P' & E'). assert (k = a') as -> by congruence.
  assert (entry (px_run (new_http hashes) (h1 ++ (h2 ++ [EvRequest q remote now clk]))) h a' = Some x) as Q.
  { rewrite app_assoc, run_snoc. fold s. cbn [Pex.px_step]. rewrite (serve_ok _ _ _ _ _ _ _ _ _ _ _ _ _ An A). cbn [fst]. unfold entry. rewrite assoc_set_eq, (proj2 (bytes_eqb_eq h h) eq_refl). exact I. }
  rewrite <- app_assoc in Tm. exact (since _ _ _ _ _ _ _ _ Tm (forgotten_none _ hashes _ _ _ _ Tm2 F) Q).
Qed.
Theorem old_id_stays hashes t0 h1 e0 h2 q remote now clk T h a p ev c a' p0 ev0 s0 : timed t0 ((h1 ++ e0 :: h2) ++ [EvRequest q remote now clk]) T -> In h hashes ->
  (forall e, In e ((h1 ++ e0 :: h2) ++ [EvRequest q remote now clk]) -> standard_event e) ->
  announces q remote h a p ev c -> a' <> a -> forgotten h1 h a' -> announce_event e0 h a' p0 ev0 s0 -> remembered (h1 ++ [e0]) h2 h a' -> alive (h1 ++ e0 :: h2) h a' (clk a') ->
  exists l, replies (snd (serve q remote now clk (px_run (new_http hashes) (h1 ++ e0 :: h2)))) c l /\ In p0 l.
Proof.
  intros Tm Kh St An Na F A0 K Al. destruct (timed_prefix _ _ _ _ Tm) as (t1 & Tm1). destruct (timed_prefix _ _ _ _ Tm1) as (t2 & Tm2).
  pose proof (run_ok err_text order order_perm _ t0 t1 _ Tm1 (new_ok hashes t0)) as R. set (s := px_run (new_http hashes) (h1 ++ e0 :: h2)) in *.
  destruct (assoc h s) as [m|] eqn:A. 2: { exfalso. exact (known_run err_text order (h1 ++ e0 :: h2) _ _ (proj1 (new_http_known err_text hashes h) Kh) ltac:(eassumption)). }
  assert (exists y, entry s h a' = Some y /\ px_tp y = p0) as (y & Y & <-).
  { assert (entry (px_run (new_http hashes) (h1 ++ [e0])) h a' = Some {| px_tp := p0; px_updated := s0; px_event := ev0 |}) as E0.
    { rewrite run_snoc. destruct e0 as [q0 r0 n0 k0|]; [|destruct A0]. destruct A0 as (-> & c0 & An0). destruct (assoc h (px_run (new_http hashes) h1)) as [m0|] eqn:Q0.
      - rewrite (entry_announce _ _ _ _ _ _ _ _ _ _ _ An0 Q0), !(proj2 (bytes_eqb_eq _ _) eq_refl). cbn [andb]. pose proof (forgotten_none _ hashes _ _ _ _ Tm2 F) as N. rewrite (entry_some _ _ _ _ Q0) in N. now rewrite N.
      - exfalso. exact (known_run err_text order h1 _ _ (proj1 (new_http_known err_text hashes h) Kh) ltac:(eassumption)). }
    unfold s. replace (h1 ++ e0 :: h2) with ((h1 ++ [e0]) ++ h2) in * by (rewrite <- app_assoc; reflexivity). destruct (keeps _ _ _ _ _ _ _ _ Tm1 E0 K) as (y & Y & E). exists y. split; [exact Y|exact E]. }
  exists (listing order clk a (touched a p now ev m)). split; [unfold replies; now rewrite (serve_ok _ _ _ _ _ _ _ _ _ _ _ _ _ An A)|].
  pose proof (R h m A) as (Nd & X & _). rewrite (entry_some _ _ _ _ A) in Y. destruct (X a' y Y) as [La (e & ev1 & t' & Ie & Ae)]. apply (listing_in order order_perm). exists a', y.
  destruct Al as (t & ev2 & La' & N1 & N2). destruct (last_fun _ _ _ _ _ _ _ La La') as [Et Ee]. split.
  { apply assoc_in. unfold touched. rewrite assoc_set_eq. rewrite (proj2 (bytes_eqb_neq a a')) by congruence. exact Y. }
  split; [unfold dead; rewrite Et, Ee; change stopped with leaving; change minute with a_minute; now rewrite (proj2 (bytes_eqb_neq _ _) N1), (proj2 (Z.ltb_ge _ _) N2)|].
  split; [|reflexivity]. pose proof (ae_addr _ _ _ _ _ _ Ae) as (ip & P & E). destruct (St e ltac:(apply in_or_app; now left) _ _ _ _ _ Ae) as (ip' & P' & S'). assert (ip' = ip) as -> by congruence. rewrite S' in E. congruence.
Qed.
End Ids.
