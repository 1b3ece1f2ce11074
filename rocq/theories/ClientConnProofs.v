(** What one step of a goroutine does to a connection, as far as the composition with the
    server needs it. *)
From Verif Require Import GoBase GoBaseProofs GoMap PeerWire P2PConn P2PConnSpec P2PConnProofs.
From Verif Require P2PServerProofs.
Import P2PServerProofs.

(** RemoteChoked, Choked, Interested. *)
Definition flags (K : kstate) : bool * bool * bool := (k_rchoked K, k_choked K, k_interested K).
Definition after_msg (K : kstate) (m : message) : P2PConn.hpc :=
  if (m_type m =? HAVE) || (m_type m =? BITFIELD) then CHaves
  else if m_type m =? REQUEST then if k_choked K then CEnd else CCheck (asked m)
  else if m_type m =? PIECE then CPut else CRead.
Definition flags_msg (K : kstate) (m : message) : bool * bool * bool :=
  (if m_type m =? CHOKE then true else if m_type m =? UNCHOKE then false else k_rchoked K, k_choked K, k_interested K).
(** A step of serve: where it goes, the flags afterwards, what is seen. *)
Inductive smove (K : kstate) : P2PConn.hpc -> kchoice -> P2PConn.hpc -> bool * bool * bool -> list kevent -> Prop :=
| SmFail : smove K CRead KErr CEnd (flags K) []
| SmRead m : smove K CRead (KMsg m) (CTake m) (flags K) []
| SmTake m : smove K (CTake m) KOk (CHandle m) (flags K) [KRecv m]
| SmHandle m : smove K (CHandle m) KOk (after_msg K m) (flags_msg K m) [KHandled m]
| SmHaves : smove K CHaves KOk CRead (flags K) []
| SmBroken : smove K CHaves KErr CEnd (flags K) []
| SmKnown : k_interested K = true -> smove K CHaves KMore CHaves (flags K) []
| SmMore : k_interested K = false -> smove K CHaves KMore (CInterest SLock) (k_rchoked K, k_choked K, true) [KChange FInterest]
| SmLockI : smove K (CInterest SLock) KOk (CInterest SWrite) (flags K) []
| SmTold : smove K (CInterest SWrite) KOk CHaves (flags K) [KSent (flag_message FInterest)]
| SmUntold : smove K (CInterest SWrite) KErr CEnd (flags K) [KFailed (flag_message FInterest)]
| SmDropped r : smove K (CCheck r) KOk CRead (flags K) [KSuppressed r]
| SmWanted r : smove K (CCheck r) KOk (CBlock r) (flags K) []
| SmFound r d : smove K (CBlock r) (KData d) (CPiece r d SLock) (flags K) [KLooked r]
| SmMissing r : smove K (CBlock r) KErr CEnd (flags K) [KLooked r]
| SmLockP r d : smove K (CPiece r d SLock) KOk (CPiece r d SWrite) (flags K) []
| SmServed i b x d : smove K (CPiece (i, b, x) d SWrite) KOk CRead (flags K) [KSent (mk_piece i b d)]
| SmLost i b x d : smove K (CPiece (i, b, x) d SWrite) KErr CEnd (flags K) [KFailed (mk_piece i b d)]
| SmPut : smove K CPut KOk CRead (flags K) []
| SmNotPut : smove K CPut KErr CEnd (flags K) [].
(** ... of another goroutine: what it becomes. *)
Inductive omove (K : kstate) : kthread -> kchoice -> kthread -> bool * bool * bool -> list kevent -> Prop :=
| OmPull todo kids ch todo' kids' : omove K (TPull todo kids) ch (TPull todo' kids') (flags K) []
| OmOver todo kids ch t : omove K (TPull todo kids) ch TOver (flags K) [KPullEnd t]
| OmAsk r q ch q' e : (forall m, In (KSent m) e -> m = request_of r) -> (forall m, ~ In (KHandled m) e) -> omove K (TAsk r q) ch (TAsk r q') (flags K) e
| OmFlag f K1 : swap f K = Some K1 -> omove K (TFlag f None) KOk (TFlag f (Some SLock)) (flags K1) [KChange f]
| OmSame f : swap f K = None -> omove K (TFlag f None) KOk TOver (flags K) []
| OmLockF f : omove K (TFlag f (Some SLock)) KOk (TFlag f (Some SWrite)) (flags K) []
| OmTold f : omove K (TFlag f (Some SWrite)) KOk TOver (flags K) [KSent (flag_message f)]
| OmUntold f : omove K (TFlag f (Some SWrite)) KErr TOver (flags K) [KFailed (flag_message f)]
| OmLockS m : omove K (TSend m SLock) KOk (TSend m SWrite) (flags K) []
| OmBits m m' : m_type m = BITFIELD -> m_type m' = BITFIELD -> omove K (TSend m SWrite) (KMsg m') TOver (flags K) [KSent m']
| OmSent m : omove K (TSend m SWrite) KOk TOver (flags K) [KSent m]
| OmLost m : omove K (TSend m SWrite) KErr TOver (flags K) [KFailed m].
Lemma complete_flags o s r : futs_ok s -> flags (complete o s r) = flags s.
Proof. intros F. unfold complete. destruct (mget breq_eqb r (k_inflight s)) as [f|]; [|reflexivity]. destruct (nth_error (k_futs s) f) as [[|]|]; reflexivity. Qed.
Lemma choke_flags l : forall s, flags (fold_left (complete (Some EChoked)) l s) = flags s.
Proof.
  induction l as [|r l IH]; intros s; [reflexivity|]. cbn [fold_left]. rewrite IH. unfold complete. destruct (mget breq_eqb r (k_inflight s)) as [f|]; [|reflexivity]. destruct (nth_error (k_futs s) f) as [[|]|]; reflexivity.
Qed.
Ltac fin := match goal with |- _ ?K _ _ _ (flags ?x) _ => first [change (flags x) with (flags K); constructor; assumption|change (flags x) with (flags K); constructor|change (flags x) with (k_rchoked K, k_choked K, true); constructor; assumption|constructor; assumption|constructor] | _ => constructor end.
Lemma serve_step K ch K' e h : base_ok K -> nth_error (k_threads K) 0 = Some (TServe h) -> kexec K (KGo 0 ch) = Some (K', e) ->
  exists h', k_threads K' = list_set 0 (TServe h') (k_threads K) /\ smove K h ch h' (flags K') e.
Proof.
  intros (F & Cr & W & _ & _) T H. unfold kexec in H. rewrite Cr, T in H.
  pose proof (fun m => proj1 (complete_threads None K (brought m) F)) as CC. pose proof (proj1 (choke_all_threads K F)) as CA. cbv zeta in CA.
  assert (forall x : P2PConn.hpc, nth_error (k_threads K) 0 = Some (TServe x) -> list_set 0 (TServe x) (k_threads K) = k_threads K) as SM by (intros x X; destruct (k_threads K); [discriminate|]; cbn in *; now injection X as ->).
  unfold step_serve, take_lock, finish_write in H. destruct h as [|m|m| |p|r|r|r d p| |].
  - brk H; injection H as <- <-; eexists; (split; [reflexivity|]); fin.
  - destruct ch; try discriminate H.
    destruct (m_type m =? PIECE); [brk H; injection H as <- <-; exists (CHandle m); kfields; rewrite CC; (split; [reflexivity|]); match goal with |- context [flags ?x] => change (flags x) with (flags (complete None K (brought m))) end; rewrite complete_flags by exact F; fin|].
    destruct (m_type m =? CHOKE); [brk H; injection H as <- <-; exists (CHandle m); kfields; rewrite CA; (split; [reflexivity|])|injection H as <- <-; eexists; split; [reflexivity|fin]].
    match goal with |- context [flags ?x] => change (flags x) with (flags (fold_left (complete (Some EChoked)) (map fst (k_inflight K)) K)) end. rewrite choke_flags. fin.
  - destruct ch; try discriminate H. exists (after_msg K m). assert (e = [KHandled m] /\ flags K' = flags_msg K m /\ k_threads K' = list_set 0 (TServe (after_msg K m)) (k_threads K)) as (-> & -> & ->); [|split; [reflexivity|fin]].
    revert H. unfold handle_message, after_msg, flags_msg. destruct (Z.eqb_spec (m_type m) CHOKE) as [E|_]; [rewrite E; intros [= <- <-]; repeat split|].
    destruct (Z.eqb_spec (m_type m) UNCHOKE) as [E|_]; [rewrite E; intros [= <- <-]; repeat split|]. destruct ((m_type m =? HAVE) || (m_type m =? BITFIELD)); [intros [= <- <-]; repeat split|].
    destruct (Z.eqb_spec (m_type m) REQUEST) as [E|_]; [destruct (k_choked K) eqn:CK; intros [= <- <-]; repeat split; unfold flags; cbn; now rewrite CK|].
    destruct (Z.eqb_spec (m_type m) CANCEL) as [E|_]; [rewrite E; destruct (k_mu K); [discriminate|]; intros [= <- <-]; repeat split|]. destruct (m_type m =? PIECE); intros [= <- <-]; repeat split.
  - brk H; injection H as <- <-.
    + exists CRead. split; [reflexivity|fin].
    + exists CEnd. split; [reflexivity|fin].
    + exists CHaves. split; [now rewrite SM|fin].
    + eexists. split; [reflexivity|fin].
  - destruct p; brk H; injection H as <- <-; eexists; (split; [reflexivity|]); fin.
  - brk H; injection H as <- <-; eexists; (split; [reflexivity|]); fin.
  - brk H; injection H as <- <-; eexists; (split; [reflexivity|]); fin.
  - destruct p; [brk H; injection H as <- <-; eexists; (split; [reflexivity|]); fin|]. destruct r as [[i b] x]. destruct ch; try discriminate H; injection H as <- <-; eexists; (split; [reflexivity|]); fin.
  - brk H; injection H as <- <-; eexists; (split; [reflexivity|]); fin.
  - discriminate H.
Qed.
Lemma other_step K k ch K' e th : base_ok K -> nth_error (k_threads K) k = Some th -> k <> O -> kexec K (KGo k ch) = Some (K', e) ->
  exists th' more, k_threads K' = list_set k th' (k_threads K) ++ more /\ omove K th ch th' (flags K') e.
Proof.
  intros (F & Cr & W & _ & S0) T N H. unfold kexec in H. rewrite Cr, T in H. destruct th as [h|todo kids|r q|f p|m p|].
  - destruct N. exact (S0 _ _ T).
  - unfold step_pull in H. brk H; injection H as <- <-.
    + eexists. exists []. split; [kfields; now rewrite app_nil_r|]. fin.
    + eexists. eexists. split; [kfields; reflexivity|]. fin.
  - unfold step_ask, finish_write in H. brk H; injection H as <- <-; eexists; exists []; (split; [kfields; now rewrite app_nil_r|]); match goal with |- context [flags ?x] => change (flags x) with (flags K) end; apply OmAsk; try (intros m0 I; cbn [In] in I; repeat match type of I with _ \/ _ => destruct I as [I|I] end; try discriminate I; try contradiction; congruence).
  - unfold step_flag, take_lock, finish_write in H. brk H; injection H as <- <-.
    + eexists. exists []. split; [kfields; now rewrite app_nil_r|]. fin.
    + eexists. exists []. split; [kfields; now rewrite app_nil_r|]. fin.
    + eexists. exists []. split; [kfields; now rewrite app_nil_r|]. fin.
    + eexists. exists []. split; [|match goal with X : swap f K = Some ?k |- context [flags ?x] => change (flags x) with (flags k) end; now apply OmFlag].
      kfields. rewrite app_nil_r. match goal with X : swap ?f _ = Some ?k |- _ => assert (k_threads k = k_threads K) as -> by (destruct f; cbn in X; brk X; injection X as <-; reflexivity) end. reflexivity.
    + eexists. exists []. split; [kfields; now rewrite app_nil_r|]. fin.
  - unfold step_send, take_lock, finish_write in H. destruct p; [brk H; injection H as <- <-; eexists; exists []; (split; [kfields; now rewrite app_nil_r|]); fin|].
    destruct ch as [| |m'| |]; try discriminate H; [| |destruct ((m_type m =? BITFIELD) && (m_type m' =? BITFIELD)) eqn:E; [apply andb_true_iff in E as [E1 E2]; apply Z.eqb_eq in E1, E2|discriminate H]]; injection H as <- <-;
      eexists; exists []; (split; [kfields; now rewrite app_nil_r|]); fin.
  - discriminate H.
Qed.
