From Verif Require Import GoBase GoBaseProofs BencTypes BencFields BencFieldsProofs BencEncode BencDecode BencSpec NetIP Tracker TrackerSpec NetIPProofs TrackerProofs Pex PexSpec PexProofs PexIdSpec PexIdProofs PexMemSpec.
From Coq Require Import Permutation.

Section Mem.
Variable err_text : bytes -> bytes.
Variable order : px_map -> px_map.
Hypothesis order_perm : forall m, Permutation m (order m).
Notation px_step := (px_step err_text order).
Notation px_run := (px_run err_text order).

Lemma keys_step (s : px_state) e : map fst (px_step s e) = map fst s.
Proof.
  destruct e as [q r n k|h' k]; cbn [Pex.px_step].
  - destruct (classic_ann q r) as [(h' & a & p & ev & c & An)|Nn].
    + destruct (assoc h' s) as [m|] eqn:A; [rewrite (serve_ok err_text order _ _ _ _ _ _ _ _ _ _ _ An A); cbn [fst]; rewrite assoc_set_keys; now rewrite A|].
      rewrite serve_same; [reflexivity|]. intros h2 a2 p2 ev2 c2 An2. destruct (announces_fun _ _ _ _ _ _ _ _ _ _ _ _ An An2) as (-> & _). exact A.
    + rewrite serve_same; [reflexivity|]. intros h2 a2 p2 ev2 c2 An2. exfalso. eapply Nn. exact An2.
  - destruct (assoc h' s) eqn:A; [|reflexivity]. rewrite assoc_set_keys. now rewrite A.
Qed.
Lemma keys_run hist : forall s, map fst (px_run s hist) = map fst s.
Proof. induction hist as [|e l IH]; intros s; [reflexivity|]. change (map fst (px_run (px_step s e) l) = map fst s). rewrite IH. apply keys_step. Qed.
Lemma new_nodup hashes : NoDup (map fst (new_http hashes)).
Proof.
  unfold new_http. assert (forall l s, NoDup (map fst s) -> NoDup (map fst (fold_left (fun s h => @assoc_set px_map h [] s) l s))) as K.
  { induction l as [|x l IH]; intros s N; cbn [fold_left]; [exact N|]. apply IH. apply assoc_set_nodup. exact N. }
  apply K. constructor.
Qed.
Lemma run_nodup hashes hist : NoDup (map fst (px_run (new_http hashes) hist)).
Proof. rewrite keys_run. apply new_nodup. Qed.
Theorem torrents hashes hist : NoDup (map fst (px_run (new_http hashes) hist)) /\ forall h, holds_torrent (px_run (new_http hashes) hist) h <-> In h hashes.
Proof.
  split; [apply run_nodup|]. intros h. transitivity (In h (map fst (px_run (new_http hashes) hist))).
  - rewrite in_map_iff. split; [intros [m I]; exists (h, m); auto|intros ([h' m] & <- & I); exists m; exact I].
  - rewrite keys_run, (new_http_known err_text hashes h). destruct (assoc h (new_http hashes)) as [m|] eqn:A; [|split; [intros I; exfalso; exact (proj1 (assoc_none _ _) A I)|congruence]].
    split; [discriminate|]. intros _. apply assoc_in in A. apply in_map_iff. exists (h, m). auto.
Qed.
Lemma holds_entry hashes hist t0 T h a : timed t0 hist T -> (holds (px_run (new_http hashes) hist) h a <-> entry (px_run (new_http hashes) hist) h a <> None).
Proof using order_perm.
  intros Tm. pose proof (run_ok err_text order order_perm _ t0 T _ Tm (new_ok hashes t0)) as R. pose proof (run_nodup hashes hist) as N. unfold entry. split.
  - intros (m & x & I & J). apply in_assoc in I; [|exact N]. rewrite I. destruct (R h m I) as (Nd & _). apply in_assoc in J; [|exact Nd]. congruence.
  - intros E. destruct (assoc h _) as [m|] eqn:A; [|congruence]. destruct (assoc a m) as [x|] eqn:B; [|congruence]. exists m, x. split; apply assoc_in; assumption.
Qed.
Lemma forg_snoc hist e h a : forgotten hist h a -> (forall p ev t, ~ announce_event e h a p ev t) -> forgotten (hist ++ [e]) h a.
Proof.
  intros F N. assert (forall l, silent l h a -> silent (l ++ [e]) h a) as K.
  { intros l S x p ev t I. apply in_app_or in I as [I|[<-|[]]]; [exact (S x p ev t I)|apply N]. }
  destruct F as [S|(b & clk & c & -> & S & L)]; [left; auto|]. right. exists b, clk, (c ++ [e]). split; [now rewrite <- app_assoc|]. auto.
Qed.
Lemma none_forgotten hist hashes t0 h a : In h hashes -> forall T, timed t0 hist T -> entry (px_run (new_http hashes) hist) h a = None -> forgotten hist h a.
Proof using order_perm.
  intros Kh. induction hist as [|e hist IH] using rev_ind; intros T Tm X; [left; intros x p ev t []|].
  apply timed_snoc in Tm as (t1 & Tm & _). specialize (IH _ Tm). rewrite run_snoc in X.
  pose proof (run_ok err_text order order_perm _ t0 t1 _ Tm (new_ok hashes t0)) as R.
  pose proof (known_run err_text order hist _ _ (proj1 (new_http_known err_text hashes h) Kh)) as Kn. set (s := px_run (new_http hashes) hist) in *.
  destruct e as [q remote now clk|h0 clk].
  - destruct (classic_ann q remote) as [(h3 & a1 & p & ev & c & An)|Nn].
    + destruct (assoc h3 s) as [m|] eqn:A.
      * rewrite (entry_announce err_text order _ _ _ _ _ _ _ _ _ _ _ An A) in X. destruct (bytes_eqb h3 h && bytes_eqb a1 a) eqn:E; [discriminate|].
        apply forg_snoc; [auto|]. intros p' ev' t' (_ & c' & An'). destruct (announces_fun _ _ _ _ _ _ _ _ _ _ _ _ An An') as (-> & -> & _). rewrite !(proj2 (bytes_eqb_eq _ _) eq_refl) in E. discriminate.
      * rewrite entry_other in X. 2: { intros h2' a2 p2 ev2 c2 An2. destruct (announces_fun _ _ _ _ _ _ _ _ _ _ _ _ An An2) as (-> & _). exact A. }
        apply forg_snoc; [auto|]. intros p' ev' t' (_ & c' & An'). destruct (announces_fun _ _ _ _ _ _ _ _ _ _ _ _ An An') as (-> & _). auto.
    + rewrite entry_other in X. 2: { intros h2' a2 p2 ev2 c2 An2. exfalso. eapply Nn. exact An2. }
      apply forg_snoc; [auto|]. intros p' ev' t' (_ & c' & An'). eapply Nn. exact An'.
  - destruct (entry s h a) as [y|] eqn:Y; [|apply forg_snoc; [auto|intros p ev t []]].
    cbn [Pex.px_step] in X. destruct (assoc h0 s) as [m|] eqn:A; [|congruence]. unfold entry in X at 1. rewrite assoc_set_eq in X. destruct (bytes_eqb h0 h) eqn:E; [|fold (entry s h a) in X; congruence].
    apply bytes_eqb_eq in E. subst h0. rewrite (entry_some _ _ _ _ A) in Y. destruct (R h m A) as (Nd & Z & _). unfold sweep in X. rewrite assoc_filter in X by exact Nd. rewrite Y in X. destruct (Z a y Y) as [La _].
    right. exists hist, clk, []. split; [reflexivity|]. split; [intros x p ev t []|]. intros t ev La'. destruct (last_fun _ _ _ _ _ _ _ La La') as [Et Ee]. cbn [fst snd] in X.
    destruct (dead (clk a) y) eqn:D; [|discriminate]. unfold dead in D. rewrite Et, Ee in D. apply orb_true_iff in D as [D|D]; [left; apply bytes_eqb_eq; exact D|right; apply Z.ltb_lt; exact D].
Qed.
(** Exactly what is not forgotten is held. *)
Theorem holds_iff hashes t0 hist T h a : timed t0 hist T -> In h hashes -> (holds (px_run (new_http hashes) hist) h a <-> ~ forgotten hist h a).
Proof using order_perm.
  intros Tm Kh. rewrite (holds_entry _ _ _ _ _ _ Tm). split.
  - intros E F. apply E. exact (forgotten_none err_text order order_perm _ hashes _ _ _ _ Tm F).
  - intros N E. apply N. exact (none_forgotten _ _ _ _ _ Kh _ Tm E).
Qed.
Theorem after_sweep hashes t0 hist clk T h a : timed t0 (hist ++ [EvSweep h clk]) T -> In h hashes ->
  (holds (px_run (new_http hashes) (hist ++ [EvSweep h clk])) h a <-> alive hist h a (clk a)).
Proof using order_perm.
  intros Tm Kh. rewrite (holds_entry _ _ _ _ _ _ Tm). rewrite run_snoc. apply timed_snoc in Tm as (t1 & Tm & Ts).
  pose proof (run_ok err_text order order_perm _ t0 t1 _ Tm (new_ok hashes t0)) as R.
  pose proof (known_run err_text order hist _ _ (proj1 (new_http_known err_text hashes h) Kh)) as Kn. set (s := px_run (new_http hashes) hist) in *.
  cbn [Pex.px_step]. destruct (assoc h s) as [m|] eqn:A; [|congruence]. unfold entry. rewrite assoc_set_eq, (proj2 (bytes_eqb_eq h h) eq_refl).
  destruct (R h m A) as (Nd & Z & B). unfold sweep. rewrite assoc_filter by exact Nd. assert (t1 <= clk a) as Lt. { inversion Ts; subst. match goal with H : forall a, _ <= clk a <= _ |- _ => specialize (H a); lia end. }
  split.
  - intros X. destruct (assoc a m) as [y|] eqn:Y; [|congruence]. cbn [fst snd] in X. destruct (dead (clk a) y) eqn:D; [cbn in X; congruence|]. destruct (Z a y Y) as [La _].
    exists (px_updated y), (px_event y). split; [exact La|]. unfold dead in D. apply orb_false_iff in D as [D1 D2]. split; [apply bytes_eqb_neq; exact D1|apply Z.ltb_ge; exact D2].
  - intros (t & ev & La & N1 & N2). destruct (B a t ev La) as [(y & Y & Et & Ee)|[E|E]]; [|exfalso; exact (N1 E)|change minute with a_minute in E; lia].
    rewrite Y. cbn [fst snd]. unfold dead. rewrite Et, Ee. change stopped with leaving. change minute with a_minute. rewrite (proj2 (bytes_eqb_neq _ _) N1), (proj2 (Z.ltb_ge _ _) N2). discriminate.
Qed.
(** The number of entries. *)
Lemma announced_or_not e h : (exists a, forall a' p ev t, announce_event e h a' p ev t -> a' = a).
Proof.
  destruct e as [q r n k|h' k]; [|exists []; intros a' p ev t []]. destruct (classic_ann q r) as [(h' & a & p & ev & c & An)|Nn].
  - exists a. intros a' p' ev' t' (_ & c' & An'). destruct (announces_fun _ _ _ _ _ _ _ _ _ _ _ _ An An') as (_ & -> & _). reflexivity.
  - exists []. intros a' p' ev' t' (_ & c' & An'). exfalso. eapply Nn. exact An'.
Qed.
Lemma speakers l h : exists L, length L = length l /\ forall a e p ev t, In e l -> announce_event e h a p ev t -> In a L.
Proof.
  induction l as [|e l (L & E & H)]; [exists []; split; [reflexivity|intros a e p ev t []]|]. destruct (announced_or_not e h) as [a0 K]. exists (a0 :: L).
  split; [cbn; lia|]. intros a e' p ev t [<-|I] A; [left; symmetry; exact (K _ _ _ _ A)|right; exact (H _ _ _ _ _ I A)].
Qed.
Theorem bounded hashes t0 hist clk post T h live n : timed t0 (hist ++ EvSweep h clk :: post) T -> In h hashes ->
  (forall a, alive hist h a (clk a) -> In a live) -> holds_count (px_run (new_http hashes) (hist ++ EvSweep h clk :: post)) h n -> (n <= length live + length post)%nat.
Proof using order_perm.
  intros Tm Kh Lv (m & I & <-). destruct (speakers post h) as (L & EL & SL). rewrite <- EL, <- app_length, <- (map_length fst m).
  replace (hist ++ EvSweep h clk :: post) with ((hist ++ [EvSweep h clk]) ++ post) in * by (rewrite <- app_assoc; reflexivity).
  pose proof (run_ok err_text order order_perm _ t0 T _ Tm (new_ok hashes t0)) as R. apply in_assoc in I; [|apply run_nodup]. destruct (R h m I) as (Nd & _).
  apply NoDup_incl_length; [exact Nd|]. intros a Ia. apply in_map_iff in Ia as ([a' x] & <- & Ia). cbn [fst]. apply in_assoc in Ia; [|exact Nd].
  destruct (entry (px_run (new_http hashes) (hist ++ [EvSweep h clk])) h a') as [y|] eqn:Y.
  - apply in_or_app. left. apply Lv. destruct (timed_prefix _ _ _ _ Tm) as (t1 & Tm1). apply (after_sweep hashes t0 hist clk t1 h a' Tm1 Kh). rewrite (holds_entry _ _ _ _ _ _ Tm1). congruence.
  - apply in_or_app. right. destruct (since err_text order order_perm _ _ hashes t0 T h a' x Tm Y) as (e & ev & t & Ie & Ae); [now rewrite (entry_some _ _ _ _ I)|]. exact (SL _ _ _ _ _ Ie Ae).
Qed.
End Mem.
