(** The server's byte counters. *)
From Verif Require Import GoBase GoBaseProofs GoMap Bitfield BitfieldSpec BitfieldProofs PeerWire Metainfo MetainfoSpec MetainfoProofs
  Fs FsProofs Storage StorageSys StorageSpec StorageSysSpec StorageMemSpec StorageWaitSpec StorageCountSpec StorageLoadProofs StorageSysProofs StorageClaimProofs StorageMoreProofs StorageWaitProofs StorageAcceptProofs StorageCountProofs
  Node NodeSpec NodeProofs NodeThms NodeCount NodeCountSpec.
From Verif Require StorageProofs P2PServer P2PServerSpec.

Lemma wrap_add a b : wrap_s 64 (wrap_s 64 a + b) = wrap_s 64 (a + b).
Proof.
  unfold wrap_s. change (2 ^ (64 - 1)) with 9223372036854775808. change (2 ^ 64) with 18446744073709551616.
  f_equal. replace ((a + 9223372036854775808) mod 18446744073709551616 - 9223372036854775808 + b + 9223372036854775808) with ((a + 9223372036854775808) mod 18446744073709551616 + b) by lia.
  rewrite Zplus_mod_idemp_l. f_equal. lia.
Qed.
Lemma wrap_small a : 0 <= a < 2 ^ 63 -> wrap_s 64 a = a.
Proof. intros H. unfold wrap_s. change (2 ^ (64 - 1)) with 9223372036854775808 in *. change (2 ^ 64) with 18446744073709551616. change (2 ^ 63) with 9223372036854775808 in H. rewrite Z.mod_small; lia. Qed.
Lemma accepted_app a b : accepted (a ++ b) = accepted a + accepted b. Proof. unfold accepted. now rewrite map_app, sum_app. Qed.
Lemma sent_app a b : sent_bytes (a ++ b) = sent_bytes a + sent_bytes b. Proof. unfold sent_bytes. now rewrite map_app, sum_app. Qed.
Lemma sent_map e : sent_bytes (map NEv e) = 0. Proof. unfold sent_bytes. rewrite map_map. apply sum_zero. reflexivity. Qed.

Section Count.
Variable sha1 : bytes -> bytes.
Variable cfg : config.
Variable env : nat -> Fs.choice.
Variable hash id : bytes.
Hypothesis ok : config_ok cfg.

Section Run.
Variable blank : bytes.
Variable f0 : fs.
Variable tick0 : nat.
Variable ls0 : list label.
Variable w0 : world.
Variable es0 : list event.
Hypothesis unt : untouched cfg f0.
Hypothesis loaded : execs sha1 cfg env (Dead f0 tick0) ls0 = Some (Running w0 [], es0).
Hypothesis isblank : bf_new (num_pieces (c_info cfg)) = Some blank.
Notation nexec := (nexec sha1 cfg env hash id blank).
Notation nruns := (nruns sha1 cfg env hash id blank).
Notation cexec := (cexec sha1 cfg env hash id blank).
Notation cruns := (cruns sha1 cfg env hash id blank).
Notation ninv := (ninv sha1 cfg env hash id blank w0).

Lemma cruns_nruns l : forall n k n' k' ev, cruns n k l = Some (n', k', ev) -> nruns n l = Some (n', ev).
Proof.
  induction l as [|a l IH]; cbn [NodeCount.cruns Node.nruns]; intros n k n' k' ev E; [injection E as <- _ <-; reflexivity|].
  unfold NodeCount.cexec in E. destruct (nexec n a) as [[n1 e1]|]; [|discriminate].
  match type of E with match cruns n1 ?k1 l with _ => _ end = _ => destruct (cruns n1 k1 l) as [[[n2 k2] e2]|] eqn:E2; [|discriminate] end. injection E as <- <- <-. now rewrite (IH _ _ _ _ _ E2).
Qed.
Definition kinv (k : counters) (ev : list nevent) : Prop := k_up k = wrap_s 64 (sent_bytes ev) /\ k_down k = wrap_s 64 (accepted_bytes ev).
Lemma kinv_same k ev e : kinv k ev -> sent_bytes e = 0 -> accepted_bytes e = 0 -> kinv k (ev ++ e).
Proof. intros [A B] S D. unfold kinv, accepted_bytes in *. rewrite sent_app, sto_events_app, accepted_app, S, D, !Z.add_0_r. now split. Qed.
Lemma cstep n k a n' k' e ev : ninv n ev -> kinv k ev -> cexec n k a = Some (n', k', e) -> kinv k' (ev ++ e).
Proof using All.
  intros N K E. unfold NodeCount.cexec in E. destruct (nexec n a) as [[n1 e1]|] eqn:X; [|discriminate]. injection E as <- <- <-.
  unfold Node.nexec in X. destruct (P2PServer.s_crashed (n_srv n)) eqn:C; [discriminate|]. pose proof (i_live _ _ _ _ _ _ _ _ _ N C) as L.
  assert (M : forall l, sent_bytes (map NEv l) = 0 /\ accepted_bytes (map NEv l) = 0) by (intros l; split; [apply sent_map|unfold accepted_bytes; now rewrite sto_events_map]).
  destruct a as [a|t|t|t written].
  - destruct (free_to n a); [|discriminate]. apply serve_inv in X as (s & e2 & _ & _ & ->). apply kinv_same; auto; apply M.
  - destruct (at_call n t) as [c|]; [|discriminate]. destruct (exec sha1 cfg env (n_sto n) (LCall c)) as [[sto x]|]; [|discriminate]. injection X as <- <-. now apply kinv_same.
  - unfold returns. destruct (mget Nat.eqb t (n_jobs n)) as [[j| |]|] eqn:J; try discriminate X.
    destruct (exec sha1 cfg env (n_sto n) (LStep j)) as [[[w' ts'|f t'] x]|] eqn:S; [| |discriminate].
    2:{ apply serve_inv in X as (s & e2 & _ & _ & ->). apply kinv_same; auto; apply M. }
    destruct x as [|[c r] x]; [injection X as <- <-; now apply kinv_same|].
    destruct (l_run _ _ L) as (w & ts & ST & _). destruct (jobs_call _ _ _ _ _ _ L J ST) as (th & st & T & Q & D & Ki). rewrite T in *.
    assert (c = th_call st) as ->.
    { rewrite ST in S. apply step_shape in S as (st' & o & Q' & _ & S). assert (st' = st) as -> by congruence. destruct o as [w2 q|w2]; [|destruct S; discriminate]. destruct S as [_ S]. destruct q; try discriminate S. injection S as -> _ _. reflexivity. }
    destruct (calls_inv _ _ _ Ki) as [(p & m & -> & _ & Ec)|[(p & i' & m & -> & _ & Ec)|(p & i' & -> & [Ec|Ec])]]; rewrite Ec in X |- *.
    + cbn [add_down]. destruct r as [|d|e0]; cbn [kept] in X; [|injection X as <- <-; now apply kinv_same|]; apply serve_inv in X as (s & e2 & _ & _ & ->); apply kinv_same; auto; apply (M e2).
    + cbn [kept] in X. apply serve_inv in X as (s & e2 & _ & _ & ->). cbn [add_down app]. destruct r as [|d|e0]; [|apply kinv_same; auto; apply (M e2)..].
      destruct K as [A B], (M e2) as [M1 M2]. unfold kinv, accepted_bytes in *. cbn [k_up k_down]. rewrite sent_app, sto_events_app, accepted_app. split.
      * rewrite A. f_equal. change (sent_bytes (NRet t ?c ?r :: ?l)) with (0 + sent_bytes l). lia.
      * rewrite B, wrap_add. f_equal. f_equal. change (sto_events (NRet t ?c ?r :: ?l)) with (Ret c r :: sto_events l). change (accepted (Ret (CPut ?x ?y ?z) RNil :: ?l)) with (zlen z + accepted l). lia.
    + injection X as <- <-. cbn [add_down]. apply kinv_same; auto.
    + cbn [kept] in X. apply serve_inv in X as (s & e2 & _ & _ & ->). cbn [add_down app]. apply kinv_same; auto; apply (M e2).
  - destruct (mget Nat.eqb t (n_jobs n)) as [[j| |d]|] eqn:J; try discriminate X. destruct (nth_error (P2PServer.s_threads (n_srv n)) t) as [[| |p []| | | | | |]|]; try discriminate X.
    destruct (mget Nat.eqb t (n_msgs n)) as [m|]; [|discriminate X]. destruct written; apply serve_inv in X as (s & e2 & _ & _ & ->); [|apply kinv_same; auto; apply (M e2)].
    destruct K as [A B], (M e2) as [M1 M2]. unfold kinv, accepted_bytes in *. unfold add_up. cbn [k_up k_down app]. rewrite sent_app, sto_events_app, accepted_app. split.
    + rewrite A, wrap_add. f_equal. f_equal. change (sent_bytes (NServed p ?m0 :: map NEv e2)) with (zlen (m_piece m0) + sent_bytes (map NEv e2)). rewrite M1. cbn. lia.
    + rewrite B. f_equal. change (sto_events (NServed p ?m0 :: map NEv e2)) with (sto_events (map NEv e2)). lia.
Qed.
Lemma cruns_kinv l : forall n k ev n' k' e, ninv n ev -> kinv k ev -> cruns n k l = Some (n', k', e) -> kinv k' (ev ++ e).
Proof using All.
  induction l as [|a l IH]; cbn [NodeCount.cruns]; intros n k ev n' k' e N K E; [injection E as <- <- <-; now rewrite app_nil_r|].
  destruct (cexec n k a) as [[[n1 k1] e1]|] eqn:E1; [|discriminate]. destruct (cruns n1 k1 l) as [[[n2 k2] e2]|] eqn:E2; [|discriminate]. injection E as <- <- <-. rewrite app_assoc.
  eapply IH; [|eapply cstep; eassumption|exact E2]. unfold NodeCount.cexec in E1. destruct (nexec n a) as [[n3 e3]|] eqn:X; [|discriminate]. injection E1 as <- _ <-. eapply ninv_step; eassumption.
Qed.
(** The storage in the run: it has just been started, and does not crash without the program. *)
Lemma just_started : exists ls d t es, execs sha1 cfg env (Dead f0 tick0) ls = Some (Dead d t, es) /\ exec sha1 cfg env (Dead d t) LStart = Some (Running w0 [], []).
Proof using loaded.
  clear - loaded. destruct (rev ls0) as [|l ls] eqn:R.
  { apply (f_equal (@rev _)) in R. rewrite rev_involutive in R. subst ls0. discriminate. }
  apply (f_equal (@rev _)) in R. rewrite rev_involutive in R. cbn [rev] in R. subst ls0. rename loaded into E.
  assert (exists p es e, execs sha1 cfg env (Dead f0 tick0) (rev ls) = Some (p, es) /\ exec sha1 cfg env p l = Some (Running w0 [], e)) as (p & es & e & E1 & E2).
  { revert E. generalize (Dead f0 tick0) as p0. generalize (rev ls) as l0. clear. intros l0. revert es0. induction l0 as [|a l0 IH]; intros es0 p0; cbn [app execs].
    - destruct (exec sha1 cfg env p0 l) as [[p1 e1]|] eqn:E; [|discriminate]. intros [= -> _]. exists p0, [], e1. now split.
    - destruct (exec sha1 cfg env p0 a) as [[p1 e1]|] eqn:E; [|discriminate]. destruct (execs sha1 cfg env p1 (l0 ++ [l])) as [[p2 e2]|] eqn:E2; [|discriminate]. intros [= -> _].
      destruct (IH _ _ E2) as (p & es & e & A & B). rewrite A. do 3 eexists. split; [reflexivity|exact B]. }
  destruct p as [w ts|d t].
  - exfalso. destruct l as [c|j| |j x| |]; try discriminate E2.
    + injection E2 as _ E2 _. destruct ts; discriminate.
    + apply step_shape in E2 as (st & o & T & _ & E2). destruct o; destruct E2 as [E2 _]; [|discriminate]. injection E2 as _ E2. assert (List.length (@nil thread) = List.length ts) as Q by (rewrite E2; apply list_set_length). destruct ts; [destruct j; discriminate|discriminate Q].
    + cbn in E2. destruct (nth_error ts j); [|discriminate]. destruct (next _ _ _ _ _ _); [|discriminate]. unfold crash_at, option_map in E2. destruct (nth_error (w_past _) _); discriminate E2.
  - assert (l = LStart) as ->. { destruct l; try discriminate E2; [reflexivity|]. unfold exec, crash_at, option_map in E2. destruct (nth_error (w_past _) _); discriminate E2. }
    exists (rev ls), d, t, es. split; [exact E1|]. rewrite E2. f_equal. f_equal. unfold exec in E2. destruct (load cfg env (booted cfg d t)) as [w1 [u|e2|]]; inversion E2; reflexivity.
Qed.
Lemma node_storage l : forall n ev n' e, ninv n ev -> nruns n l = Some (n', e) -> exists ls, Forall same_run ls /\ execs sha1 cfg env (n_sto n) ls = Some (n_sto n', sto_events e).
Proof using All.
  induction l as [|a l IH]; cbn [Node.nruns]; intros n ev n' e N E; [injection E as <- <-; exists []; split; [constructor|reflexivity]|].
  destruct (nexec n a) as [[n1 e1]|] eqn:E1; [|discriminate]. destruct (nruns n1 l) as [[n2 e2]|] eqn:E2; [|discriminate]. injection E as <- <-.
  assert (ninv n1 (ev ++ e1)) as N1 by (eapply ninv_step; eassumption). destruct (IH _ _ _ _ N1 E2) as (ls & S & X). rewrite sto_events_app.
  destruct (nexec_nstep _ _ _ _ _ _ _ _ _ _ E1) as [_ NS]. destruct (nstep_sto _ _ _ _ _ _ _ _ _ NS) as [[A B]|(x & A & B)].
  - exists ls. rewrite A in X. rewrite B. now split.
  - exists (x :: ls). split; [now constructor|]. cbn [execs]. rewrite A, X. reflexivity.
Qed.
(** Loading stores nothing new. *)
Lemma loaded_bytes d t : inv sha1 cfg f0 (Dead d t) -> exec sha1 cfg env (Dead d t) LStart = Some (Running w0 [], []) -> stored_bytes cfg (w_fs w0) = stored_bytes cfg d.
Proof using ok.
  intros I E. pose proof (exec_ok sha1 cfg env ok _ _ _ _ _ I E) as (I1 & _). pose proof (kept_start sha1 cfg env ok _ _ _ _ _ _ I E) as (X & _).
  unfold exec in E. destruct (load cfg env (booted cfg d t)) as [w1 r] eqn:Ld. pose proof I as [[F _] _]. cbn [disk_of] in F.
  destruct (load_spec sha1 cfg env ok _ _ _ _ F Ld) as (_ & _ & R). destruct r as [u|e|]; [|discriminate|contradiction R]. injection E as ->. destruct R as ((MI & MA & _) & _ & O & _).
  unfold stored_bytes. apply sum_map_in. intros k Hk. apply in_seq in Hk. assert (Hkn : 0 <= Z.of_nat k < num_pieces (c_info cfg)) by (unfold num_pieces, zlen; lia).
  destruct (on_disk cfg d (Z.of_nat k)) as [b|] eqn:Q; [rewrite (proj1 X _ _ Hkn Q); reflexivity|].
  destruct (on_disk cfg (w_fs w0) (Z.of_nat k)) as [b|] eqn:Q1; [|reflexivity]. exfalso. destruct (StorageProofs.piece_exists sha1 cfg env ok _ _ _ MI Hkn) as [p P].
  apply (proj1 (O _ Hkn)); [|exact Q]. exists p. split; [exact P|]. apply (MA _ _ P). rewrite Nat2Z.id. congruence.
Qed.
End Run.

Lemma counters f l b n k ev : count_run sha1 cfg env hash id f l b n k ev ->
  k_up k = wrap_s 64 (sent_bytes ev) /\ k_down k = wrap_s 64 (accepted_bytes ev) /\ node_run sha1 cfg env hash id f l n ev.
Proof using ok.
  intros (U & tick & ls & w & es & blank & E & B & _ & R). pose proof (cruns_nruns _ _ _ _ _ _ _ R) as R'.
  assert (K : kinv k ([] ++ ev)). { eapply cruns_kinv; [exact U|exact E|exact B| | |exact R]; [eapply ninv_start; eassumption|split; reflexivity]. }
  destruct K as [K1 K2]. split; [exact K1|]. split; [exact K2|]. split; [exact U|]. exists tick, ls, w, es, blank. auto.
Qed.
Lemma down_bounds f l b n k ev : count_run sha1 cfg env hash id f l b n k ev -> crashed n = false ->
  (~ Exists io_error (sto_events ev) -> stored_bytes cfg (disk n) - b <= accepted_bytes ev) /\
  (no_waste (sto_events ev) -> accepted_bytes ev <= total_size (c_info cfg) - b /\ k_down k = accepted_bytes ev).
Proof using ok.
  intros CR C. pose proof (counters _ _ _ _ _ _ CR) as (_ & KD & _). destruct CR as (U & tick & ls & w & es & blank & E & B & -> & R). pose proof (cruns_nruns _ _ _ _ _ _ _ R) as R'.
  destruct (just_started _ _ _ _ _ E) as (ls1 & d & t & es1 & E1 & E2). pose proof (execs_inv sha1 cfg env ok _ _ _ _ _ U E1) as I.
  rewrite (loaded_bytes _ _ _ _ I E2).
  assert (N0 : ninv sha1 cfg env hash id blank w (nstart (Running w [])) []) by (eapply ninv_start; eassumption).
  assert (exists ls2, Forall same_run ls2 /\ execs sha1 cfg env (Running w []) ls2 = Some (n_sto n, sto_events ev)) as (ls2 & S & X) by (eapply node_storage in R'; eauto).
  assert (N : ninv sha1 cfg env hash id blank w n ev) by (eapply nruns_inv in R'; eauto). destruct (l_run _ _ (i_live _ _ _ _ _ _ _ _ _ N C)) as (w2 & ts2 & ST & _).
  unfold disk. rewrite ST in X |- *. cbn [disk_of n_sto nstart] in X |- *. split.
  - intros NI. exact (accepted_covers_new sha1 cfg env ok _ _ _ _ _ _ _ _ _ _ _ _ _ U E1 E2 S X NI).
  - intros NW. pose proof (accepted_at_most sha1 cfg env ok _ _ _ _ _ _ _ _ _ _ _ _ _ U E1 E2 S X NW) as Q. split; [exact Q|]. rewrite KD. apply wrap_small. unfold accepted_bytes in *.
    destruct (StorageFsProofs.sizes cfg ok) as [Hs _]. assert (0 <= stored_bytes cfg d).
    { apply (sum_pos (fun k => match on_disk cfg d (Z.of_nat k) with Some b => zlen b | None => 0 end)). intros x _. destruct (on_disk _ _ _); unfold zlen; lia. }
    assert (0 <= accepted (sto_events ev)). { apply (sum_pos (fun e => match e with Ret (CPut _ _ d) RNil => zlen d | _ => 0 end)). intros [[]] _; unfold zlen; try lia. destruct r; lia. }
    lia.
Qed.
End Count.
