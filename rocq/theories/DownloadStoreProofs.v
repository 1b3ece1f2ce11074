(** A missing piece can be put, block by block, with the right data. *)
From Verif Require Import GoBase GoBaseProofs Bitfield BitfieldSpec Requests Metainfo MetainfoSpec Fs Storage StorageSpec StorageSysSpec StorageSys StorageMemSpec StorageHealthSpec StorageFsProofs StorageProofs StorageSysProofs StorageClaimProofs StorageMoreProofs
  StorageHealthSysProofs StorageHonestProofs.

Section Store.
Variable sha1 : bytes -> bytes.
Variable cfg : config.
Variable env : nat -> choice.
Hypothesis ok : config_ok cfg.
Hypothesis W : works env.
Hypothesis FF : files_fit cfg.
Variable c : bytes.
Hypothesis Wc : whole sha1 cfg c.
Notation exec := (StorageSys.exec sha1 cfg env).
Notation execs := (StorageSys.execs sha1 cfg env).
Notation i := (c_info cfg).
Notation n := (num_pieces i).
Notation PL := (i_piece_length i).
Notation inv := (StorageSysProofs.inv sha1 cfg).
Variables (f : fs) (tick : nat) (ls0 : list label) (d : fs) (t : nat) (es0 : list event) (w0 : world) (es1 : list event).
Hypothesis U : untouched cfg f.
Hypothesis Rm : roomy cfg env f.
Hypothesis E0 : execs (Dead f tick) ls0 = Some (Dead d t, es0).
Hypothesis E1 : exec (Dead d t) LStart = Some (Running w0 [], es1).

Lemma execs_both ls1 ls2 : forall p p1 e1, execs p ls1 = Some (p1, e1) -> execs p (ls1 ++ ls2) = match execs p1 ls2 with Some (p2, e2) => Some (p2, e1 ++ e2) | None => None end.
Proof.
  induction ls1 as [|l ls1 IH]; cbn [StorageSys.execs app]; intros p p1 e1 E; [injection E as <- <-; destruct (execs p ls2) as [[]|]; reflexivity|].
  destruct (exec p l) as [[q e]|]; [|discriminate]. destruct (execs q ls1) as [[q1 e']|] eqn:X; [|discriminate]. injection E as <- <-. rewrite (IH _ _ _ X). destruct (execs q1 ls2) as [[]|]; [|reflexivity]. now rewrite app_assoc.
Qed.

Definition SH (w : world) (ts : list thread) : Prop :=
  exists ls es, right_puts cfg c ls /\ Forall same_run ls /\ execs (Running w0 []) ls = Some (Running w ts, es).
Lemma sh_start : SH w0 [].
Proof. exists [], []. split; [intros ? ? ? []|]. split; [constructor|reflexivity]. Qed.
Lemma sh_facts w ts : SH w ts -> inv f (Running w ts) /\ (exists es, hon cfg c (Running w ts) es) /\ hinv cfg env (Running w ts) /\ exists ls es, execs (Dead f tick) ls = Some (Running w ts, es).
Proof using All.
  intros (ls & es & R & S & E). destruct (run_hon sha1 cfg env ok W FF c Wc f tick ls0 d t es0 w0 [] es1 ls w ts es U Rm R E0 E1 S E) as (I & Hh & _). split; [exact I|]. split; [eauto|].
  assert (X : execs (Dead f tick) (ls0 ++ LStart :: ls) = Some (Running w ts, es0 ++ es1 ++ es)) by (rewrite (execs_both _ _ _ _ _ E0); cbn [StorageSys.execs]; now rewrite E1, E).
  split; [|eauto]. exact (proj1 (proj2 (execs_works sha1 cfg env ok W FF f _ _ _ _ (inv_start sha1 cfg env ok f tick U) (hinv_start cfg env f tick Rm) X))).
Qed.
Lemma sh_more w ts ls w' ts' es : SH w ts -> right_puts cfg c ls -> Forall same_run ls -> execs (Running w ts) ls = Some (Running w' ts', es) -> SH w' ts'.
Proof.
  intros (l & e & R & S & E) R' S' E'. exists (l ++ ls), (e ++ es). split; [intros k x y Hin; apply in_app_iff in Hin as [Hin|Hin]; eauto|]. split; [now apply Forall_app|]. now rewrite (execs_both _ _ _ _ _ E), E'.
Qed.

(** A call that has returned has left the process running. *)
Lemma nth_last {A} (l : list A) a : nth_error (l ++ [a]) (List.length l) = Some a.
Proof. rewrite nth_error_app2, Nat.sub_diag by lia. reflexivity. Qed.
Lemma set_last {A} (l : list A) a b : list_set (List.length l) b (l ++ [a]) = l ++ [b].
Proof. induction l as [|x l IH]; cbn; [reflexivity|]. now rewrite IH. Qed.
Lemma steps_running m cl r : forall w ts pc p, execs (Running w (ts ++ [{| th_call := cl; th_pc := pc |}])) (repeat (LStep (List.length ts)) m) = Some (p, [Ret cl r]) -> exists w', p = Running w' (ts ++ [{| th_call := cl; th_pc := Done r |}]).
Proof.
  induction m as [|m IH]; cbn [repeat StorageSys.execs]; intros w ts pc p E; [discriminate|]. match type of E with match ?e with _ => _ end = _ => destruct e as [[p1 e1]|] eqn:X; [|discriminate] end. destruct (execs p1 (repeat (LStep (List.length ts)) m)) as [[p2 e2]|] eqn:X2; [|discriminate]. injection E as -> EV.
  cbn [StorageSys.exec] in X. rewrite nth_last in X. destruct (next _ _ _ _ _ _) as [[w2 pc2|w2]|]; [|injection X as <- <-; destruct m; [injection X2 as <- <-; discriminate EV|discriminate X2]|discriminate]. rewrite set_last in X. injection X as <- <-. cbn [th_call] in *.
  assert (D : (exists r2, pc2 = Done r2) \/ events_of cl pc2 = []) by (destruct pc2; [right; reflexivity..|left; eauto]). destruct D as [[r2 ->]|D].
  - cbn [events_of] in EV. destruct m as [|m]; cbn [repeat StorageSys.execs] in X2; [injection X2 as <- <-; injection EV as ->; eauto|]. cbn [StorageSys.exec] in X2. rewrite nth_last in X2. discriminate X2.
  - rewrite D in EV. cbn in EV. subst e2. eauto.
Qed.
Lemma call_running w ts cl m p r : execs (Running w ts) (LCall cl :: repeat (LStep (List.length ts)) m) = Some (p, [Ret cl r]) -> exists w', p = Running w' (ts ++ [{| th_call := cl; th_pc := Done r |}]).
Proof. cbn [StorageSys.execs StorageSys.exec]. match goal with |- match ?e with _ => _ end = _ -> _ => destruct e as [[p1 e1]|] eqn:X; [|discriminate] end. cbn. intros [= -> ->]. now apply steps_running in X. Qed.
Lemma idle_more ts cl r : idle ts -> idle (ts ++ [{| th_call := cl; th_pc := Done r |}]).
Proof. intros I. apply Forall_app. split; [exact I|]. constructor; [eexists; reflexivity|constructor]. Qed.
Definition right_call (cl : call) : Prop := match cl with CPut k x y => StorageHealthSpec.right_block cfg c k x y | _ => True end.
Lemma sh_call w ts cl m p r : SH w ts -> right_call cl -> execs (Running w ts) (LCall cl :: repeat (LStep (List.length ts)) m) = Some (p, [Ret cl r]) ->
  exists w' ts', p = Running w' ts' /\ SH w' ts' /\ (idle ts -> idle ts') /\ ext cfg (w_fs w) (w_fs w') /\ forall k x y, cl = CPut k x y -> r = RNil \/ r = RErr EBlockExists.
Proof using All.
  intros S RC E. destruct (call_running _ _ _ _ _ _ E) as [w' ->]. exists w', (ts ++ [{| th_call := cl; th_pc := Done r |}]). split; [reflexivity|].
  assert (RP : right_puts cfg c (LCall cl :: repeat (LStep (List.length ts)) m)). { intros k x y [[= ->]|Hin]; [exact RC|]. apply repeat_spec in Hin. discriminate. }
  split; [|split; [intros; now apply idle_more|split; [exact (proj1 (proj2 (execs_ok sha1 cfg env ok f _ _ _ _ (proj1 (sh_facts _ _ S)) E)))|]]].
  - eapply sh_more; [exact S|exact RP| |exact E]. constructor; [exact Logic.I|]. apply Forall_forall. intros x Hx. apply repeat_spec in Hx. subst. exact Logic.I.
  - intros k x y ->. destruct (sh_facts _ _ S) as (I & (es & Hh) & Hi & _). destruct (hon_execs sha1 cfg env ok W FF c Wc f _ _ _ _ _ I Hi Hh RP E) as [_ F]. inversion F; subst. eauto.
Qed.

(** A call leaves the other pieces as they were. *)
Lemma other_step base w ts j t0 w1 ts1 es : inv base (Running w ts) -> nth_error ts j = Some t0 -> exec (Running w ts) (LStep j) = Some (Running w1 ts1, es) ->
  forall k', k' <> Z.to_nat (call_index (th_call t0)) -> nth_error (t_pieces (w_mem w1)) k' = nth_error (t_pieces (w_mem w)) k'.
Proof using ok.
  intros I T0 E k' NE. apply step_shape in E as (t1 & o & T & N & E). assert (t1 = t0) as -> by congruence. destruct o as [w2 q|w2]; destruct E as [E _]; [|discriminate E]. injection E as -> ->.
  pose proof I as (HJ & HM & OH & HT). cbn [disk_of] in HJ. pose proof HM as (MI & MA & MT). pose proof (HT _ _ T) as TO. unfold next in N. unfold thread_ok in TO.
  assert (P0 : PI sha1 cfg (fun k => piece_locked k ts) base (forget_past w)) by (split; [exact HJ|]; split; [constructor|exact HM]).
  destruct (th_pc t0) as [| | | |id|x] eqn:Ep, (th_call t0) as [k b y|k b len|k|k|] eqn:Ec; cbn [w_mem forget_past call_index] in N, NE; try discriminate N; try contradiction TO.
  - destruct (check_block_size _ _ _ _); [now injection N as <- <-|]. destruct (t_coalesced _); now injection N as <- <-.
  - assert (w_mem w2 = w_mem w) as ->; [|reflexivity]. destruct (t_coalesced _).
    + injection N as N. pose proof (get_block_mem cfg env k b len (forget_past w)) as M2. destruct (get_block cfg env k b len (forget_past w)) as [w3 []]; cbn in N, M2; try discriminate N; injection N as <- <-; auto.
    + unfold piece_at, bind, get_mem in N. cbn [w_mem forget_past] in N. destruct (if k <? 0 then _ else _); [|discriminate]. injection N as <- <-. reflexivity.
  - destruct (piece_locked k ts) eqn:PLk; [discriminate|]. injection N as N. destruct (reset_piece k (forget_past w)) as [w3 r] eqn:R.
    apply (reset_piece_spec sha1 cfg env ok _ _ _ _ _ _ P0 PLk) in R. destruct r as [[]|e|]; [|destruct R|discriminate N]. cbn in N. injection N as <- <-.
    destruct R as (kn & p & -> & Hp & Cp & Fp & Hp' & Ho & Hfs & _). apply Ho. now rewrite Nat2Z.id in NE.
  - destruct (piece_locked k ts); [discriminate|]. unfold piece_at, bind, get_mem in N. cbn [w_mem forget_past] in N. destruct (if k <? 0 then _ else _); [|discriminate]. now injection N as <- <-.
  - destruct (torrent_rlocked ts); [discriminate|]. now injection N as <- <-.
  - destruct (piece_locked k ts) eqn:PLk; [discriminate|]. destruct (put_in_piece k b y (forget_past w)) as [w3 r] eqn:R.
    apply (put_in_piece_spec sha1 cfg env ok _ _ _ _ _ _ _ _ P0 PLk TO) in R. destruct r as [[]|e|]; [|destruct R as (-> & -> & R)|]; try discriminate N; injection N as <- <-; [|reflexivity].
    destruct R as (kn & p & bn & -> & Hp & Cp & -> & Bb & Hd & Hn & -> & _). cbn. rewrite Nat2Z.id in NE. now rewrite list_set_nth_neq by auto.
  - destruct TO as [Kr Ti]. destruct (torrent_rlocked ts); [discriminate|]. injection N as N. destruct (put_finish sha1 cfg env k (forget_past w)) as [w3 r] eqn:PF.
    assert (PLk : piece_locked k ts = true) by (apply piece_locked_iff; exists j, t0; rewrite Ec; auto).
    destruct (piece_exists sha1 cfg env ok _ _ _ MI Kr) as [p P]. rewrite <- (Z2Nat.id k) in PF, PLk by lia. pose proof (put_finish_spec sha1 cfg env ok _ base _ p _ _ _ P0 P PLk PF) as (NP & _ & _ & _ & Oth & _).
    assert (w3 = w2) as -> by (destruct r; cbn in N; congruence). now apply Oth.
  - assert (w_mem w2 = w_mem w) as ->; [|reflexivity]. destruct (piece_locked k ts); [discriminate|]. injection N as N. pose proof (get_block_mem cfg env k b len (forget_past w)) as M2.
    destruct (get_block cfg env k b len (forget_past w)) as [w3 []]; cbn in N, M2; try discriminate N; injection N as <- <-; auto.
  - destruct (nth_error _ id) as [[[|]|]|]; try discriminate N; now injection N as <- <-.
  - destruct (nth_error _ id) as [[[|]|]|]; try discriminate N; now injection N as <- <-.
Qed.
Lemma other_steps base cl m : forall w ts pc w' ts' es, inv base (Running w (ts ++ [{| th_call := cl; th_pc := pc |}])) -> execs (Running w (ts ++ [{| th_call := cl; th_pc := pc |}])) (repeat (LStep (List.length ts)) m) = Some (Running w' ts', es) ->
  forall k', k' <> Z.to_nat (call_index cl) -> nth_error (t_pieces (w_mem w')) k' = nth_error (t_pieces (w_mem w)) k'.
Proof using ok.
  induction m as [|m IH]; cbn [repeat StorageSys.execs]; intros w ts pc w' ts' es I E k' NE; [injection E as <- _ _; reflexivity|]. match type of E with match ?e with _ => _ end = _ => destruct e as [[p1 e1]|] eqn:X; [|discriminate] end.
  destruct (execs p1 (repeat (LStep (List.length ts)) m)) as [[p2 e2]|] eqn:X2; [|discriminate]. injection E as -> _. pose proof (exec_ok sha1 cfg env ok _ _ _ _ _ I X) as (I1 & _). pose proof X as Y.
  cbn [StorageSys.exec] in X. rewrite nth_last in X. destruct (next _ _ _ _ _ _) as [[w2 pc2|w2]|]; [|injection X as <- <-; destruct m; [discriminate X2|discriminate X2]|discriminate]. rewrite set_last in X. injection X as <- <-. cbn [th_call] in *.
  rewrite (IH _ _ _ _ _ _ I1 X2 k' NE). eapply other_step; [exact I|apply nth_last|exact Y|exact NE].
Qed.
Lemma coalesced_bit w ts k : SH w ts -> 0 <= k < n -> member (advertised w) k <-> exists p, nth_error (t_pieces (w_mem w)) (Z.to_nat k) = Some p /\ pc_coalesced p = true.
Proof using All.
  intros S Hk. destruct (sh_facts _ _ S) as (I & _). rewrite (bitfield_exact sha1 cfg env ok f w ts I k). destruct I as (_ & (MI & MA & _) & _). destruct (piece_exists sha1 cfg env ok _ _ _ MI Hk) as [p P]. pose proof (MA _ _ P) as M. rewrite Z2Nat.id in M by lia.
  split; [intros [_ Q]; exists p; split; [exact P|now apply M]|]. intros (p' & P' & Q). assert (p' = p) as -> by congruence. split; [exact Hk|now apply M].
Qed.
Lemma call_others w ts cl m w' ts' es : SH w ts -> SH w' ts' -> execs (Running w ts) (LCall cl :: repeat (LStep (List.length ts)) m) = Some (Running w' ts', es) ->
  forall k, 0 <= k < n -> k <> call_index cl -> 0 <= call_index cl -> member (advertised w') k -> member (advertised w) k.
Proof using All.
  intros S S' E k Hk NE P M. apply (coalesced_bit _ _ _ S' Hk) in M as (p & Hp & C). apply (coalesced_bit _ _ _ S Hk). exists p. split; [|exact C]. rewrite <- Hp. symmetry.
  destruct (sh_facts _ _ S) as (I & _). cbn [StorageSys.execs] in E. match type of E with match ?e with _ => _ end = _ => destruct e as [[p1 e1]|] eqn:X; [|discriminate] end. pose proof (exec_ok sha1 cfg env ok _ _ _ _ _ I X) as (I1 & _). cbn [StorageSys.exec] in X. injection X as <- <-.
  match type of E with match ?e with _ => _ end = _ => destruct e as [[p2 e2]|] eqn:X2; [|discriminate] end. injection E as -> _. rewrite (other_steps _ _ _ _ _ _ _ _ _ I1 X2); [reflexivity|]. lia.
Qed.
Lemma chain_others k cs rs : forall w ts w' ts', SH w ts -> Forall right_call cs -> Forall (fun cl => call_index cl = k) cs -> 0 <= k -> one_by_one sha1 cfg env (Running w ts) cs rs (Running w' ts') ->
  forall j, 0 <= j < n -> j <> k -> member (advertised w') j -> member (advertised w) j.
Proof using All.
  revert rs. induction cs as [|cl cs IH]; intros rs w ts w' ts' S R Q Kp O j Hj NE M; inversion O; subst; [assumption|]. pose proof (Forall_inv R) as R1. pose proof (Forall_inv_tail R) as R2. pose proof (Forall_inv Q) as Q1. pose proof (Forall_inv_tail Q) as Q2. cbn beta in Q1.
  match goal with E2 : StorageSys.execs _ _ _ (Running w ts) _ = Some _ |- _ => rename E2 into XR end. destruct (sh_call _ _ _ _ _ _ S R1 XR) as (wr & tsr & -> & Sr & _).
  apply (call_others _ _ _ _ _ _ _ S Sr XR j Hj); [congruence|lia|]. eapply IH; eauto.
Qed.

Lemma idle_unlocked ts k : idle ts -> piece_locked k ts = false.
Proof. intros I. unfold piece_locked. apply not_true_is_false. intros E. apply existsb_exists in E as (x & Hx & E). unfold idle in I. rewrite Forall_forall in I. destruct (I _ Hx) as [r Hr]. rewrite Hr in E. discriminate. Qed.
Lemma missing_open w ts k : SH w ts -> idle ts -> 0 <= k < n -> ~ member (advertised w) k -> ~ settled w k.
Proof using All.
  intros S Id Hk M (p & v & P & F). destruct (sh_facts _ _ S) as (I & (es & Hh) & _). pose proof (bitfield_exact sha1 cfg env ok f w ts I k) as B. destruct I as (_ & (MI & MA & _) & _). destruct Hh as (_ & _ & K3 & _).
  assert (C : pc_coalesced p = false). { destruct (pc_coalesced p) eqn:C; [|reflexivity]. exfalso. apply M, B. split; [exact Hk|]. apply (MA _ _ P) in C. now rewrite Z2Nat.id in C by lia. }
  destruct MI as (_ & MP & _). destruct (MP _ _ P) as (_ & _ & _ & _ & _ & _ & _ & Q & _). rewrite Q in F; [discriminate|exact C|]. intros Fu. pose proof (K3 _ _ P C Fu) as L. rewrite (idle_unlocked _ _ Id) in L. discriminate.
Qed.

Definition puts (k : Z) (blocks : list (Z * Z)) : list call := map (fun xy => CPut k (fst xy) (slice c (k * PL + fst xy) (snd xy))) blocks.
Lemma chain_end cs rs : forall w ts p, SH w ts -> Forall right_call cs -> one_by_one sha1 cfg env (Running w ts) cs rs p ->
  exists w' ts', p = Running w' ts' /\ SH w' ts' /\ (idle ts -> idle ts') /\ ext cfg (w_fs w) (w_fs w') /\ forall j k x y r, nth_error cs j = Some (CPut k x y) -> nth_error rs j = Some r -> r = RNil \/ r = RErr EBlockExists.
Proof using All.
  revert rs. induction cs as [|cl cs IH]; intros rs w ts p S R O; inversion O; subst.
  - exists w, ts. split; [reflexivity|]. split; [exact S|]. split; [auto|]. split; [apply ext_refl|]. intros [|j] ? ? ? ? Q; discriminate Q.
  - inversion R; subst. match goal with E : execs _ _ = Some _ |- _ => destruct (sh_call _ _ _ _ _ _ S H1 E) as (w1 & ts1 & -> & S1 & D1 & X1 & G1) end.
    match goal with O1 : one_by_one _ _ _ _ _ _ _ |- _ => destruct (IH _ _ _ _ S1 H2 O1) as (w' & ts' & -> & S' & D' & X' & G') end.
    exists w', ts'. split; [reflexivity|]. split; [exact S'|]. split; [auto|]. split; [eapply ext_trans; eassumption|]. intros [|j] k x y r' Q1 Q2; cbn in Q1, Q2; [injection Q1 as ->; injection Q2 as <-; eauto|eauto].
Qed.
Lemma piece_run w ts k : SH w ts -> idle ts -> 0 <= k < n -> ~ member (advertised w) k -> get_piece_length i k <= 2 ^ 63 - 16384 ->
  exists blocks w' ts', piece_requests (get_piece_length i k) = Some blocks /\ (forall x y, In (x, y) blocks -> tile (piece_size i k) x y) /\ Forall right_call (puts k blocks) /\
    one_by_one sha1 cfg env (Running w ts) (CReset k :: puts k blocks) (RNil :: repeat RNil (List.length blocks)) (Running w' ts') /\
    SH w' ts' /\ idle ts' /\ ext cfg (w_fs w) (w_fs w') /\ on_disk cfg (w_fs w') k = Some (slice c (k * PL) (piece_size i k)) /\ member (advertised w') k /\
    (forall j, 0 <= j < n -> j <> k -> member (advertised w') j -> member (advertised w) j) /\
    exists w2 ts2, execs (Running w' ts') (LCall (CWait k) :: repeat (LStep (List.length ts')) 2) = Some (Running w2 ts2, [Ret (CWait k) RNil]) /\ SH w2 ts2 /\ idle ts2 /\ ext cfg (w_fs w') (w_fs w2).
Proof using All.
  intros S Id Hk M LB. destruct (requests_tile cfg ok k Hk LB) as (blocks & PR & ND & TI & _). destruct (sh_facts _ _ S) as (I & _ & _ & ls & es & E).
  pose proof (proj2 Wc k Hk) as V. destruct (reset_download sha1 cfg env ok f tick ls w ts es k _ blocks U E Id Hk (missing_open _ _ _ S Id Hk M) V ND TI) as (r & p' & O & Q).
  destruct (piece_size_eq cfg ok _ Hk) as [_ Hs]. assert (PLp : 0 <= k * PL). { destruct ok as (ok1 & _). unfold piece_size in Hs. nia. }
  assert (SL : map (fun xy => CPut k (fst xy) (slice (slice c (k * PL) (piece_size i k)) (fst xy) (snd xy))) blocks = puts k blocks).
  { unfold puts. apply map_ext_in. intros [x y] Hin. apply TI in Hin as (A & _ & B). cbn [fst snd]. now rewrite slice_slice by lia. }
  rewrite SL in O. assert (RC : Forall right_call (puts k blocks)).
  { apply Forall_forall. intros cl Hin. unfold puts in Hin. apply in_map_iff in Hin as ([x y] & <- & Hin). apply TI in Hin. cbn [fst snd right_call]. pose proof Hin as (A & _ & B).
    assert (L : zlen (slice c (k * PL + x) y) = y). { rewrite <- (slice_slice c (k * PL) (piece_size i k)) by lia. apply slice_length; [lia..|]. pose proof (proj1 V : zlen (slice c (k * PL) (piece_size i k)) = piece_size i k) as ->. lia. }
    split; [exact Hk|]. rewrite L. split; [exact Hin|reflexivity]. }
  assert (NE : (0 < List.length blocks)%nat). { destruct blocks as [|]; [|cbn; lia]. exfalso. apply (proj2 (TI 0 (Z.min 16384 (piece_size i k - 0)))). split; [lia|]. split; [apply Z.divide_0_r|reflexivity]. }
  destruct (chain_end _ _ _ _ _ S (@Forall_cons _ right_call (CReset k) _ Logic.I RC) O) as (w' & ts' & -> & S' & Id' & EX & G). specialize (Id' Id).
  assert (r = RNil) as ->.
  { destruct Q as [[Q _]|Q]; [exact Q|]. exfalso. rename Q into EQ. destruct (nth_error blocks (List.length blocks - 1)) as [[x y]|] eqn:N; [|apply nth_error_None in N; lia].
    destruct (G (Datatypes.S (List.length blocks - 1)) k x (slice c (k * PL + x) y) r) as [Q0|Q0]; [| |rewrite EQ in Q0; discriminate Q0..]; cbn [nth_error].
    - unfold puts. rewrite nth_error_map, N. reflexivity.
    - rewrite nth_error_app2; rewrite repeat_length; [|lia]. now rewrite Nat.sub_diag. }
  destruct Q as [[_ Q]|Q]; [|discriminate Q]. cbn [disk_of] in Q. 
  exists blocks, w', ts'. split; [exact PR|]. split; [intros; now apply TI|]. split; [exact RC|]. split; [|split; [exact S'|split; [exact Id'|split; [exact EX|split; [exact Q|]]]]].
  { replace (List.length blocks) with (List.length blocks - 1 + 1)%nat by lia. rewrite repeat_app. exact O. }
  destruct (sh_facts _ _ S') as (I' & _). pose proof (bitfield_exact sha1 cfg env ok f w' ts' I' k) as B. split; [apply B; split; [exact Hk|rewrite Q; discriminate]|].
  split; [refine (chain_others k _ _ _ _ _ _ S (@Forall_cons _ right_call (CReset k) _ Logic.I RC) _ (proj1 Hk) O); constructor; [reflexivity|]; apply Forall_forall; intros cl Hin; unfold puts in Hin; apply in_map_iff in Hin as ([x y] & <- & _); reflexivity|].
  destruct I' as (_ & (MI & MA & _) & _). destruct (piece_exists sha1 cfg env ok _ _ _ MI Hk) as [p P]. assert (C : pc_coalesced p = true). { apply (MA _ _ P). rewrite Z2Nat.id by lia. rewrite Q. discriminate. }
  destruct MI as (_ & MP & _). destruct (MP _ _ P) as (_ & _ & _ & _ & _ & _ & F & _). specialize (F C).
  assert (X : execs (Running w' ts') (LCall (CWait k) :: repeat (LStep (List.length ts')) 2) = Some (Running (forget_past w') (ts' ++ [{| th_call := CWait k; th_pc := Done RNil |}]), [Ret (CWait k) RNil])).
  { cbn [repeat StorageSys.execs StorageSys.exec]. rewrite nth_last. unfold next at 1. cbn [th_pc th_call].
    assert (PU : forall pc, match pc with PutMid => false | _ => true end = true -> piece_locked k (ts' ++ [{| th_call := CWait k; th_pc := pc |}]) = false).
    { intros pc Hpc. unfold piece_locked. rewrite existsb_app. fold (piece_locked k ts'). rewrite (idle_unlocked _ _ Id'). cbn. destruct pc; try discriminate; reflexivity. }
    rewrite (PU Start eq_refl). unfold piece_at, bind, get_mem. cbn [w_mem forget_past]. assert (k <? 0 = false) as -> by lia. rewrite P. cbn [ret]. rewrite set_last. cbn [th_call StorageSys.execs StorageSys.exec]. rewrite nth_last. unfold next. cbn [th_pc th_call w_mem forget_past]. rewrite F. cbn [th_call]. rewrite set_last. reflexivity. }
  destruct (sh_call w' ts' (CWait k) 2 _ RNil S' Logic.I X) as (w2 & ts2 & [= <- <-] & S2 & D2 & X2 & _). eexists _, _. split; [exact X|]. split; [exact S2|auto].
Qed.
Lemma sh_done w ts : SH w ts -> (forall k, 0 <= k < n -> member (advertised w) k) -> exists c', content cfg (w_fs w) = Some c' /\ whole sha1 cfg c'.
Proof using All.
  intros S A. destruct (sh_facts _ _ S) as (I & (es & Hh) & _). assert (CO : content cfg (w_fs w) <> None).
  { pose proof I as (_ & (MI & MA & MT) & _). apply MT. apply Hh. intros k p P. apply (MA _ _ P). apply (bitfield_exact sha1 cfg env ok f w ts I), A.
    pose proof (nth_error_Some_lt _ _ _ P) as L. destruct MI as (ML & _). rewrite ML in L. unfold num_pieces, zlen. lia. }
  destruct (content cfg (w_fs w)) as [c'|] eqn:C; [|contradiction]. exists c'. split; [reflexivity|]. destruct (sh_facts _ _ S) as (_ & _ & _ & ls & es' & E). exact (content_always_whole sha1 cfg env ok f tick ls _ _ c' U E C).
Qed.
Lemma ext_bits w ts w' ts' k : SH w ts -> SH w' ts' -> ext cfg (w_fs w) (w_fs w') -> member (advertised w) k -> member (advertised w') k.
Proof using All.
  intros S S' X M. destruct (sh_facts _ _ S) as (I & _). destruct (sh_facts _ _ S') as (I' & _). apply (bitfield_exact sha1 cfg env ok f w ts I) in M as [Hk M]. apply (bitfield_exact sha1 cfg env ok f w' ts' I'). split; [exact Hk|].
  destruct (on_disk cfg (w_fs w) k) as [b|] eqn:E; [|contradiction]. rewrite (proj1 X _ _ Hk E). discriminate.
Qed.
Lemma sh_bits w ts : SH w ts -> forall k, member (advertised w) k -> 0 <= k < n.
Proof using All. intros S k M. destruct (sh_facts _ _ S) as (I & _). exact (proj1 (proj1 (bitfield_exact sha1 cfg env ok f w ts I k) M)). Qed.
End Store.
