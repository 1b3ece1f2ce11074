(** A run in which the whole torrent is downloaded from one seeder. *)
From Verif Require Import GoBase GoBaseProofs GoMap Bitfield BitfieldSpec BitfieldProofs PeerWire Requests Metainfo MetainfoSpec Fs Storage StorageSpec StorageSysSpec StorageSys StorageSysProofs Node NodeSpec P2PConn P2PPeer P2PServer Client ClientSpec DownloadSpec PairSpec.
From Verif Require StorageHealthSpec StorageMoreProofs P2PSortProofs DownloadStoreProofs.

Lemma nth_mid {A} (X : list A) a Y : nth_error (X ++ a :: Y) (List.length X) = Some a.
Proof. rewrite nth_error_app2 by lia. now rewrite Nat.sub_diag. Qed.
Lemma set_mid {A} (X : list A) a b Y : list_set (List.length X) b (X ++ a :: Y) = X ++ b :: Y.
Proof. induction X; cbn; [reflexivity|]. now rewrite IHX. Qed.

Section Down.
Variable sha1 : bytes -> bytes.
Variable cfg : config.
Variable env : nat -> Fs.choice.
Variable own_hash own_id blank : bytes.
Notation uexec := (uexec sha1 cfg env own_hash own_id blank).
Notation uruns := (uruns sha1 cfg env own_hash own_id blank).

Variables (ip rid : bytes) (port : Z).
Definition goes (c c' : client) (tr : list kevent) : Prop := exists l ev, uruns c l = Some (c', ev) /\ traffic 0 ev = tr /\ Forall (reads_handshake own_hash rid) l.
Lemma traffic_app p a b : traffic p (a ++ b) = traffic p a ++ traffic p b.
Proof. unfold traffic, conn_events. now rewrite flat_map_app, filter_app. Qed.
Lemma goes_refl c : goes c c [].
Proof. exists [], []. repeat split. constructor. Qed.
Lemma uruns_app c l1 c1 e1 l2 c2 e2 : uruns c l1 = Some (c1, e1) -> uruns c1 l2 = Some (c2, e2) -> uruns c (l1 ++ l2) = Some (c2, e1 ++ e2).
Proof.
  revert c e1. induction l1 as [|a l1 IH]; intros c e1 H1 H2; cbn in H1 |- *; [injection H1 as -> <-; exact H2|].
  destruct (uexec c a) as [[c' e]|] eqn:X; [|discriminate]. destruct (uruns c' l1) as [[c'' e']|] eqn:Y; [|discriminate]. injection H1 as -> <-.
  rewrite (IH _ _ Y H2). now rewrite app_assoc.
Qed.
Lemma goes_trans c c1 c2 t1 t2 : goes c c1 t1 -> goes c1 c2 t2 -> goes c c2 (t1 ++ t2).
Proof. intros (l1 & e1 & H1 & <- & R1) (l2 & e2 & H2 & <- & R2). exists (l1 ++ l2), (e1 ++ e2). split; [eapply uruns_app; eassumption|]. split; [apply traffic_app|now apply Forall_app]. Qed.
Lemma goes_one c a c' e : uexec c a = Some (c', e) -> reads_handshake own_hash rid a -> goes c c' (traffic 0 e).
Proof. intros X R. exists [a], e. cbn. rewrite X, app_nil_r. repeat split. constructor; [exact R|constructor]. Qed.
Lemma quiet c a c1 e c' t : uexec c a = Some (c1, e) -> reads_handshake own_hash rid a -> traffic 0 e = [] -> goes c1 c' t -> goes c c' t.
Proof. intros X R E G. change t with ([] ++ t). rewrite <- E. eapply goes_trans; [eapply goes_one; [exact X|exact R]|exact G]. Qed.
Lemma via c c1 c2 t : goes c c1 [] -> goes c1 c2 t -> goes c c2 t.
Proof. intros A B. exact (goes_trans _ _ _ _ _ A B). Qed.
Lemma viae c c1 c2 t1 t : goes c c1 t1 -> goes c1 c2 t -> goes c c2 (t1 ++ t).
Proof. intros A B. exact (goes_trans _ _ _ _ _ A B). Qed.
Lemma goes_eq c c' d t : c = c' -> goes c' d t -> goes c d t.
Proof. now intros ->. Qed.

(** The client with one peer. *)
Definition peer_at (b : bytes) (rch int : bool) : remote :=
  {| q_id := rid; q_ip := ip; q_port := port; q_bits := b; q_rchoked := rch; q_rinterested := false; q_closed := false; q_choked := true; q_interested := int |}.
Definition conn_at (rch int : bool) (mu : option nat) (infl : list (breq * nat)) (F : list (option (option cerr))) (L : list kthread) : kstate :=
  {| k_rchoked := rch; k_choked := true; k_interested := int; k_mu := mu; k_inflight := infl; k_cancelled := []; k_futs := F; k_threads := L; k_crashed := false |}.
Definition sy (q : remote) (T : list thread) (mu : option nat) (g : registry) (have : bytes) : sys :=
  {| s_peers := [q]; s_threads := T; s_mu := mu; s_slots := 1; s_queue := []; s_reg := g; s_have := have; s_serving := true; s_dialing := true; s_taken := None;
     s_requesting := true; s_cancelled := false; s_crashed := false |}.
Definition cl (q : remote) (T : list thread) (mu : option nat) (g : registry) (have : bytes) (sto : proc) (jobs : list (nat * job)) (msgs : list (nat * message)) (K : kstate) (calls : list (nat * (nat * nat))) : client :=
  {| u_node := {| n_srv := sy q T mu g have; n_sto := sto; n_jobs := jobs; n_msgs := msgs |}; u_conns := [K]; u_calls := calls; u_errs := [] |}.
Definition reg_at (H : list (Z * list nat)) (Q : list nat) (I : list (Z * nat)) : registry :=
  {| g_known := []; g_addrs := [(idip_of rid ip, [addr_of ip port])]; g_idips := [(addr_of ip port, idip_of rid ip)]; g_blocked := []; g_active := [(idip_of rid ip, 0%nat)];
     g_holders := H; g_queued := Q; g_inflight := I |}.

(** * One step at a time *)
Definition noted (t : nat) (ch : choice) (msgs : list (nat * message)) : list (nat * message) := match ch with CMsg m => mput Nat.eqb t m msgs | _ => msgs end.
Definition left_call (t : nat) (T : list thread) (calls : list (nat * (nat * nat))) : list (nat * (nat * nat)) := if in_call (nth_error T t) then calls else mdel Nat.eqb t calls.
Definition wire_ok (ch : choice) : bool := match ch with CMsg m => on_wire m | CHand _ r => bytes_eqb (concat r) (hs_encode {| hs_info := own_hash; hs_peer := rid |}) | _ => true end.
Lemma wire_on x ch : x && wire_ok ch = true -> x && match ch with CMsg m => on_wire m | _ => true end = true.
Proof. destruct ch, x; cbn; congruence. Qed.
Lemma wire_hand x t ch : x && wire_ok ch = true -> reads_handshake own_hash rid (UNode (NServer (AGo t ch))).
Proof. intros E t' wr r [= _ ->]. apply bytes_eqb_eq. destruct x; [exact E|discriminate E]. Qed.
Ltac no_hand := intros ? ? ? Q; discriminate Q.
Definition seen (e : list kevent) : list kevent := filter (fun x => match x with KRecv _ | KSent _ => true | _ => false end) e.
Lemma traffic_conn e : traffic 0 (map (UK 0) e) = seen e.
Proof. unfold traffic, seen. f_equal. induction e as [|x e IH]; cbn; [reflexivity|]. f_equal. exact IH. Qed.
Lemma traffic_node e : traffic 0 (map UN e) = [].
Proof. unfold traffic. induction e as [|x e IH]; cbn; [reflexivity|]. exact IH. Qed.
Lemma traffic_both e e' : traffic 0 (map UN e ++ map (UK 0) e') = seen e'.
Proof. now rewrite traffic_app, traffic_node, traffic_conn. Qed.
Section Steps.
Variables (q q' : remote) (T T' : list thread) (mu mu' : option nat) (g g' : registry) (have have' : bytes) (sto : proc) (jobs : list (nat * job)) (msgs : list (nat * message)) (K K' : kstate) (calls : list (nat * (nat * nat))).
Notation c0 := (cl q T mu g have sto jobs msgs K calls).
Lemma srv_alone t th ch e : nth_error T t = Some th -> without th (mget Nat.eqb t jobs) ch && wire_ok ch = true -> step_thread own_hash own_id blank (sy q T mu g have) t ch = Some (sy q' T' mu' g' have', e) ->
  beside_server c0 t th ch = Alone -> goes c0 (cl q' T' mu' g' have' sto (mdel Nat.eqb t jobs) (noted t ch msgs) K (left_call t T' calls)) [].
Proof.
  intros N F S B. eapply (quiet _ (UNode (NServer (AGo t ch)))); [|eapply wire_hand, F|apply traffic_node|apply goes_refl]. unfold Client.uexec. cbn [cl srv u_node n_srv sy s_crashed]. unfold nexec. cbn [n_srv sy s_crashed].
  unfold free_to. cbn [n_srv sy s_threads n_jobs]. rewrite N, (wire_on _ _ F). unfold Node.serve, P2PServer.exec. cbn [n_srv sy s_crashed n_sto]. fold (sy q T mu g have). rewrite S.
  cbn [app]. unfold beside_node, thread_of. cbn [srv u_node n_srv s_threads cl sy]. rewrite N, B. reflexivity.
Qed.
Lemma srv_with t th ch e k kc ek : nth_error T t = Some th -> without th (mget Nat.eqb t jobs) ch && wire_ok ch = true -> step_thread own_hash own_id blank (sy q T mu g have) t ch = Some (sy q' T' mu' g' have', e) ->
  beside_server c0 t th ch = With 0 k kc -> kexec K (KGo k kc) = Some (K', ek) -> errs_after 0 K ek [] = [] ->
  goes c0 (cl q' T' mu' g' have' sto (mdel Nat.eqb t jobs) (noted t ch msgs) K' (left_call t T' calls)) (seen ek).
Proof.
  intros N F S B X R. rewrite <- (traffic_both (map NEv e) ek). eapply (goes_one _ (UNode (NServer (AGo t ch)))); [|eapply wire_hand, F]. unfold Client.uexec. cbn [cl srv u_node n_srv sy s_crashed]. unfold nexec. cbn [n_srv sy s_crashed].
  unfold free_to. cbn [n_srv sy s_threads n_jobs]. rewrite N, (wire_on _ _ F). unfold Node.serve, P2PServer.exec. cbn [n_srv sy s_crashed n_sto]. fold (sy q T mu g have). rewrite S.
  cbn [app]. unfold beside_node, thread_of. cbn [srv u_node n_srv s_threads cl sy]. rewrite N, B. unfold conn_step. cbn [cl u_conns nth_error u_errs]. rewrite X, R. reflexivity.
Qed.
Lemma conn_go k th ch ek : nth_error (k_threads K) k = Some th -> inside c0 0 th ch = true -> kexec K (KGo k ch) = Some (K', ek) -> errs_after 0 K ek [] = [] ->
  goes c0 (cl q T mu g have sto jobs msgs K' calls) (seen ek).
Proof.
  intros N B X R. rewrite <- (traffic_conn ek). eapply (goes_one _ (UConn 0 k ch)); [|no_hand]. unfold Client.uexec. cbn [cl srv u_node n_srv sy s_crashed u_conns nth_error]. fold c0. rewrite N, B.
  unfold conn_step. cbn [cl u_conns nth_error u_errs]. rewrite X, R. reflexivity.
Qed.
Lemma conn_call_go t th a ek : nth_error T t = Some th -> mget Nat.eqb t calls = None -> conn_call cfg have th (mget Nat.eqb t jobs) = Some (0%nat, a) -> kexec K a = Some (K', ek) -> errs_after 0 K ek [] = [] ->
  goes c0 (cl q T mu g have sto jobs msgs K' (mput Nat.eqb t (0%nat, List.length (k_threads K)) calls)) (seen ek).
Proof.
  intros N M C X R. rewrite <- (traffic_conn ek). eapply (goes_one _ (UCall t)); [|no_hand]. unfold Client.uexec. cbn [cl srv u_node n_srv sy s_crashed u_conns]. fold (sy q T mu g have). unfold thread_of, job_of. cbn [srv cl u_node n_srv s_threads sy n_jobs s_have u_calls].
  rewrite N, M, C. unfold conn_step. cbn [nth_error cl u_conns u_errs]. rewrite X, R. reflexivity.
Qed.
Lemma call_alone w ts t th c : sto = Running w ts -> nth_error T t = Some th -> call_of th (mget Nat.eqb t msgs) (mget Nat.eqb t jobs) = Some c ->
  beside_node c0 (NCall t) {| n_srv := sy q T mu g have; n_sto := Running w (ts ++ [{| th_call := c; th_pc := Start |}]); n_jobs := mput Nat.eqb t (JCall (List.length ts)) jobs; n_msgs := msgs |} [] = Alone ->
  goes c0 (cl q T mu g have (Running w (ts ++ [{| th_call := c; th_pc := Start |}])) (mput Nat.eqb t (JCall (List.length ts)) jobs) msgs K (left_call t T calls)) [].
Proof.
  intros -> N C B. eapply (quiet _ (UNode (NCall t))); [|no_hand|apply (traffic_node [])|apply goes_refl]. unfold Client.uexec. cbn [cl srv u_node n_srv sy s_crashed]. unfold nexec. cbn [n_srv sy s_crashed].
  unfold at_call. cbn [n_srv sy s_threads n_jobs n_msgs]. rewrite N, C. cbn [n_sto StorageSys.exec num_calls]. unfold cl, sy in *. cbn [n_srv n_sto n_jobs n_msgs] in *. rewrite B. reflexivity.
Qed.
Lemma step_quiet t j w ts w' ts' : sto = Running w ts -> mget Nat.eqb t jobs = Some (JCall j) -> StorageSys.exec sha1 cfg env (Running w ts) (LStep j) = Some (Running w' ts', []) ->
  goes c0 (cl q T mu g have (Running w' ts') jobs msgs K calls) [].
Proof.
  intros -> M X. eapply (quiet _ (UNode (NStep t))); [|no_hand|apply (traffic_node [])|apply goes_refl]. unfold Client.uexec. cbn [cl srv u_node n_srv sy s_crashed]. unfold nexec. cbn [n_srv sy s_crashed n_jobs n_sto].
  rewrite M, X. unfold beside_node. match goal with |- context [thread_of ?a ?b] => destruct (thread_of a b) as [[]|] end; reflexivity.
Qed.
Lemma step_keep t j w ts w' ts' c r jb p i x : sto = Running w ts -> nth_error T t = Some (TPiece p i x) -> mget Nat.eqb t jobs = Some (JCall j) ->
  StorageSys.exec sha1 cfg env (Running w ts) (LStep j) = Some (Running w' ts', [Ret c r]) -> kept c r = Some jb ->
  goes c0 (cl q T mu g have (Running w' ts') (mput Nat.eqb t jb jobs) msgs K calls) [].
Proof.
  intros -> N M X Kp. eapply (quiet _ (UNode (NStep t))); [|no_hand|apply (traffic_node [NRet t c r])|apply goes_refl]. unfold Client.uexec. cbn [cl srv u_node n_srv sy s_crashed]. unfold nexec. cbn [n_srv sy s_crashed n_jobs n_sto].
  rewrite M, X, Kp. unfold beside_node, thread_of. cbn [cl srv u_node n_srv sy s_threads]. rewrite N. reflexivity.
Qed.
Lemma step_wait t j w ts w' ts' i x e : sto = Running w ts -> nth_error T t = Some (TPiece 0 i x) -> mget Nat.eqb t jobs = Some (JCall j) ->
  StorageSys.exec sha1 cfg env (Running w ts) (LStep j) = Some (Running w' ts', [Ret (CWait i) RNil]) ->
  step_thread own_hash own_id blank (sy q T mu g have) t COk = Some (sy q' T' mu' g' have', e) ->
  goes c0 (cl q' T' mu' g' have' (Running w' ts') (mdel Nat.eqb t jobs) msgs K calls) [].
Proof.
  intros -> N M X S. eapply (quiet _ (UNode (NStep t))); [|no_hand|apply (traffic_node (NRet t (CWait i) RNil :: map NEv e))|apply goes_refl]. unfold Client.uexec. cbn [cl srv u_node n_srv sy s_crashed]. unfold nexec. cbn [n_srv sy s_crashed n_jobs n_sto].
  rewrite M, X. cbn [kept answer]. unfold Node.serve, P2PServer.exec. cbn [n_srv sy s_crashed n_sto]. fold (sy q T mu g have). rewrite S. unfold beside_node, thread_of. cbn [cl srv u_node n_srv sy s_threads]. rewrite N. reflexivity.
Qed.
Lemma step_put t j w ts w' ts' i x b d ch e : sto = Running w ts -> nth_error T t = Some (THandler 0 (HPiece x)) -> mget Nat.eqb t jobs = Some (JCall j) ->
  StorageSys.exec sha1 cfg env (Running w ts) (LStep j) = Some (Running w' ts', [Ret (StorageSys.CPut i b d) RNil]) ->
  answer (StorageSys.CPut i b d) RNil (t_bitfield (w_mem w)) (t_bitfield (w_mem w')) = ch ->
  step_thread own_hash own_id blank (sy q T mu g have) t ch = Some (sy q' T' mu' g' have', e) -> nth_error T' t = Some (THandler 0 HLoop) ->
  kexec K (KGo 0 KOk) = Some (K', []) ->
  goes c0 (cl q' T' mu' g' have' (Running w' ts') (mdel Nat.eqb t jobs) msgs K' calls) [].
Proof.
  intros -> N M X A S N' XK. eapply (quiet _ (UNode (NStep t))); [|no_hand|apply (traffic_both (NRet t (StorageSys.CPut i b d) RNil :: map NEv e) [])|apply goes_refl]. unfold Client.uexec. cbn [cl srv u_node n_srv sy s_crashed]. unfold nexec. cbn [n_srv sy s_crashed n_jobs n_sto].
  rewrite M, X. cbn [kept bits]. rewrite A. unfold Node.serve, P2PServer.exec. cbn [n_srv sy s_crashed n_sto]. fold (sy q T mu g have). rewrite S. unfold beside_node, thread_of. cbn [cl srv u_node n_srv sy s_threads app]. rewrite N, N'.
  unfold conn_step. cbn [cl u_conns nth_error u_errs]. rewrite XK. unfold note, answer in *. destruct (bytes_eqb _ _); subst ch; reflexivity.
Qed.
End Steps.
Section Steps2.
Variables (q q' : remote) (T T' : list thread) (mu mu' : option nat) (g g' : registry) (have have' : bytes) (sto : proc) (jobs jobs' : list (nat * job)) (msgs msgs' : list (nat * message)) (K K' : kstate) (calls calls' : list (nat * (nat * nat))) (tr : list kevent).
Notation c0 := (cl q T mu g have sto jobs msgs K calls).
Lemma go1 t ch th e : nth_error T t = Some th -> without th (mget Nat.eqb t jobs) ch && wire_ok ch = true -> step_thread own_hash own_id blank (sy q T mu g have) t ch = Some (sy q' T' mu' g' have', e) ->
  beside_server c0 t th ch = Alone -> mdel Nat.eqb t jobs = jobs' -> noted t ch msgs = msgs' -> left_call t T' calls = calls' -> goes c0 (cl q' T' mu' g' have' sto jobs' msgs' K calls') [].
Proof. intros A B C D <- <- <-. eapply srv_alone; eassumption. Qed.
Lemma go2 t ch k kc ek th e : nth_error T t = Some th -> without th (mget Nat.eqb t jobs) ch && wire_ok ch = true -> step_thread own_hash own_id blank (sy q T mu g have) t ch = Some (sy q' T' mu' g' have', e) ->
  beside_server c0 t th ch = With 0 k kc -> kexec K (KGo k kc) = Some (K', ek) -> errs_after 0 K ek [] = [] -> mdel Nat.eqb t jobs = jobs' -> noted t ch msgs = msgs' -> left_call t T' calls = calls' -> seen ek = tr ->
  goes c0 (cl q' T' mu' g' have' sto jobs' msgs' K' calls') tr.
Proof. intros A B C D E F <- <- <- <-. eapply srv_with; eassumption. Qed.
Lemma go3 k ch ek th : nth_error (k_threads K) k = Some th -> inside c0 0 th ch = true -> kexec K (KGo k ch) = Some (K', ek) -> errs_after 0 K ek [] = [] -> seen ek = tr ->
  goes c0 (cl q T mu g have sto jobs msgs K' calls) tr.
Proof. intros A B C D <-. eapply conn_go; eassumption. Qed.
Lemma go4 t a ek th : nth_error T t = Some th -> mget Nat.eqb t calls = None -> conn_call cfg have th (mget Nat.eqb t jobs) = Some (0%nat, a) -> kexec K a = Some (K', ek) -> errs_after 0 K ek [] = [] ->
  mput Nat.eqb t (0%nat, List.length (k_threads K)) calls = calls' -> seen ek = tr -> goes c0 (cl q T mu g have sto jobs msgs K' calls') tr.
Proof. intros A B C D E <- <-. eapply conn_call_go; eassumption. Qed.
Lemma go6 t j w ts w' ts' c r jb p i x : sto = Running w ts -> nth_error T t = Some (TPiece p i x) -> mget Nat.eqb t jobs = Some (JCall j) ->
  StorageSys.exec sha1 cfg env (Running w ts) (LStep j) = Some (Running w' ts', [Ret c r]) -> kept c r = Some jb -> mput Nat.eqb t jb jobs = jobs' ->
  goes c0 (cl q T mu g have (Running w' ts') jobs' msgs K calls) [].
Proof. intros A B C D E <-. eapply step_keep; eassumption. Qed.
Lemma go7 t j w ts w' ts' i x e : sto = Running w ts -> nth_error T t = Some (TPiece 0 i x) -> mget Nat.eqb t jobs = Some (JCall j) ->
  StorageSys.exec sha1 cfg env (Running w ts) (LStep j) = Some (Running w' ts', [Ret (CWait i) RNil]) ->
  step_thread own_hash own_id blank (sy q T mu g have) t COk = Some (sy q' T' mu' g' have', e) -> mdel Nat.eqb t jobs = jobs' ->
  goes c0 (cl q' T' mu' g' have' (Running w' ts') jobs' msgs K calls) [].
Proof. intros A B C D E <-. eapply step_wait; eassumption. Qed.
End Steps2.
Ltac go1 t ch := eapply (go1 _ _ _ _ _ _ _ _ _ _ _ _ _ _ _ _ _ _ t ch).
Ltac go2 t ch k kc ek := eapply (go2 _ _ _ _ _ _ _ _ _ _ _ _ _ _ _ _ _ _ _ _ t ch k kc ek).
Ltac go3 k kc ek := eapply (go3 _ _ _ _ _ _ _ _ _ _ _ _ k kc ek).
Ltac go4 t a ek := eapply (go4 _ _ _ _ _ _ _ _ _ _ _ _ _ t a ek).
(** The steps of a call before it returns. *)
Hypothesis ok : config_ok cfg.
Notation inv := (StorageSysProofs.inv sha1 cfg).
Lemma steps_quiet base q T mu g have jobs msgs K calls t c r w' ts' m : forall w ts pc ts0, ts = ts0 ++ [{| th_call := c; th_pc := pc |}] -> inv base (Running w ts) -> mget Nat.eqb t jobs = Some (JCall (List.length ts0)) ->
  StorageSys.execs sha1 cfg env (Running w ts) (repeat (LStep (List.length ts0)) m) = Some (Running w' ts', [Ret c r]) ->
  exists w1 ts1 pc1, goes (cl q T mu g have (Running w ts) jobs msgs K calls) (cl q T mu g have (Running w1 ts1) jobs msgs K calls) [] /\
    StorageSys.exec sha1 cfg env (Running w1 ts1) (LStep (List.length ts0)) = Some (Running w' ts', [Ret c r]) /\ t_bitfield (w_mem w1) = t_bitfield (w_mem w) /\ inv base (Running w1 ts1) /\
    nth_error ts1 (List.length ts0) = Some {| th_call := c; th_pc := pc1 |} /\ ts' = ts0 ++ [{| th_call := c; th_pc := Done r |}].
Proof using ok.
  induction m as [|m IH]; intros w ts pc ts0 E I M X; cbn [repeat StorageSys.execs] in X; [discriminate|].
  destruct (StorageSys.exec sha1 cfg env (Running w ts) (LStep (List.length ts0))) as [[p1 e1]|] eqn:X1; [|discriminate].
  destruct (StorageSys.execs sha1 cfg env p1 (repeat (LStep (List.length ts0)) m)) as [[p2 e2]|] eqn:X2; [|discriminate]. injection X as -> EV.
  pose proof X1 as X1'. cbn [StorageSys.exec] in X1'. rewrite E, nth_mid in X1'. destruct (next _ _ _ _ _ _) as [[w2 pc2|w2]|]; [|injection X1' as <- <-; destruct m; discriminate X2|discriminate].
  rewrite set_mid in X1'. injection X1' as <- <-. cbn [th_call] in *.
  assert (N1 : nth_error ts (List.length ts0) = Some {| th_call := c; th_pc := pc |}) by (subst ts; apply nth_mid).
  assert (D : (exists r2, pc2 = Done r2) \/ (forall r2, pc2 <> Done r2)) by (destruct pc2; [right; discriminate..|left; eauto]). destruct D as [[r2 ->]|D].
  - cbn [events_of] in *. destruct m as [|m]; cbn [repeat StorageSys.execs] in X2.
    + injection X2 as <- <- <-. injection EV as <-. exists w, ts, pc. split; [apply goes_refl|]. split; [exact X1|]. split; [reflexivity|]. split; [exact I|]. split; [exact N1|reflexivity].
    + exfalso. cbn [StorageSys.exec] in X2. rewrite nth_mid in X2. cbn in X2. discriminate X2.
  - assert (EE : events_of c pc2 = []) by (destruct pc2; try reflexivity; now destruct (D r0)). rewrite EE in *. cbn [app] in EV. subst e2.
    pose proof (proj1 (exec_ok sha1 cfg env ok _ _ _ _ _ I X1)) as I2.
    destruct (IH w2 _ pc2 ts0 eq_refl I2 M X2) as (w1 & ts1 & pc1 & G & X & B & I1 & N & TS). exists w1, ts1, pc1. split; [|split; [exact X|]; split; [|auto]].
    + change (@nil kevent) with (@nil kevent ++ []). eapply goes_trans; [|exact G]. eapply step_quiet; [reflexivity|exact M|exact X1].
    + rewrite B. destruct (StorageMoreProofs.step_bits sha1 cfg env ok _ _ _ _ _ _ _ _ I X1 N1) as [Q|(? & ? & ? & ? & _ & Q & _)]; [exact Q|discriminate Q].
Qed.

Lemma call_runs base q T mu g have jobs jobs' msgs K calls calls' t th c r w ts w' ts' n : nth_error T t = Some th -> call_of th (mget Nat.eqb t msgs) (mget Nat.eqb t jobs) = Some c ->
  beside_node (cl q T mu g have (Running w ts) jobs msgs K calls) (NCall t) {| n_srv := sy q T mu g have; n_sto := Running w (ts ++ [{| th_call := c; th_pc := Start |}]); n_jobs := mput Nat.eqb t (JCall (List.length ts)) jobs; n_msgs := msgs |} [] = Alone ->
  mput Nat.eqb t (JCall (List.length ts)) jobs = jobs' -> left_call t T calls = calls' -> mget Nat.eqb t jobs' = Some (JCall (List.length ts)) -> inv base (Running w ts) ->
  StorageSys.execs sha1 cfg env (Running w ts) (LCall c :: repeat (LStep (List.length ts)) n) = Some (Running w' ts', [Ret c r]) ->
  exists w1 ts1 pc1, goes (cl q T mu g have (Running w ts) jobs msgs K calls) (cl q T mu g have (Running w1 ts1) jobs' msgs K calls') [] /\
    StorageSys.exec sha1 cfg env (Running w1 ts1) (LStep (List.length ts)) = Some (Running w' ts', [Ret c r]) /\ t_bitfield (w_mem w1) = t_bitfield (w_mem w) /\ inv base (Running w1 ts1) /\
    nth_error ts1 (List.length ts) = Some {| th_call := c; th_pc := pc1 |} /\ ts' = ts ++ [{| th_call := c; th_pc := Done r |}].
Proof using ok.
  intros N C B <- <- M I X. cbn [StorageSys.execs StorageSys.exec] in X. set (ts0 := ts ++ [{| th_call := c; th_pc := Start |}]) in *.
  destruct (StorageSys.execs sha1 cfg env (Running w ts0) (repeat (LStep (List.length ts)) n)) as [[p2 e2]|] eqn:X2; [|discriminate]. cbn [app] in X. injection X as -> ->.
  assert (I0 : inv base (Running w ts0)) by (eapply (exec_ok sha1 cfg env ok _ _ (LCall c)); [exact I|reflexivity]).
  destruct (steps_quiet base q T mu g have _ msgs K (left_call t T calls) t c r w' ts' n w ts0 Start ts eq_refl I0 M X2) as (w1 & ts1 & pc1 & G & R). exists w1, ts1, pc1. split; [|exact R].
  eapply via; [|exact G]. eapply call_alone; [reflexivity|exact N|exact C|exact B].
Qed.
Lemma bits_kept base w ts j w' ts' c r p : inv base (Running w ts) -> StorageSys.exec sha1 cfg env (Running w ts) (LStep j) = Some (Running w' ts', [Ret c r]) -> nth_error ts j = Some {| th_call := c; th_pc := p |} ->
  (forall i b d, c <> StorageSys.CPut i b d) -> t_bitfield (w_mem w') = t_bitfield (w_mem w).
Proof using ok. intros I X N C. destruct (StorageMoreProofs.step_bits sha1 cfg env ok _ _ _ _ _ _ _ _ I X N) as [Q|(? & ? & ? & ? & Q & _)]; [exact Q|]. now destruct (C _ _ _ Q). Qed.

(** * The connection is made *)
Variables (r r' : conn).
Hypothesis heard : concat r = hs_encode {| hs_info := own_hash; hs_peer := rid |}.
Hypothesis shake : peer_handshake own_hash own_id zero_id true r = (rid, Ok r').
Definition reg0 : registry := {| g_known := []; g_addrs := []; g_idips := []; g_blocked := []; g_active := []; g_holders := []; g_queued := []; g_inflight := [] |}.
Lemma connects w : goes (ustart (Running w [])) (cl (peer_at blank true false) [THandler 0 HReceive] None (reg_at [] [] []) (t_bitfield (w_mem w)) (Running w []) [] [] (conn_at true false None [] [] [TServe CRead; TOver]) [])
  [KSent (mk_bitfield (t_bitfield (w_mem w)))].
Proof.
  set (have := t_bitfield (w_mem w)). set (q0 := new_peer blank zero_id ip port).
  eapply (quiet _ (UNode (NServer (AAccept ip port))) (cl q0 [THandler 0 HConnect] None reg0 have (Running w []) [] [] kstart [])); [reflexivity|no_hand|reflexivity|].
  eapply (via _ (cl q0 [THandler 0 HHandshake] None reg0 have (Running w []) [] [] kstart [])). { go1 0%nat COk; reflexivity. }
  eapply (via _ (cl (peer_at blank true false) [THandler 0 HRegister] None reg0 have (Running w []) [] [] kstart [])).
  { go1 0%nat (CHand true r); [reflexivity|cbn; now apply bytes_eqb_eq| |reflexivity..]. cbn [step_thread sy s_threads nth_error step_handler s_peers q_id q0 new_peer]. rewrite shake. reflexivity. }
  eapply (via _ (cl (peer_at blank true false) [THandler 0 HBitfield] (Some 0%nat) (reg_at [] [] []) have (Running w []) [] [] kstart [])). { go1 0%nat COk; reflexivity. }
  eapply (via _ (cl (peer_at blank true false) [THandler 0 HBitfield] (Some 0%nat) (reg_at [] [] []) have (Running w []) [] [] (conn_at true false None [] [] [TServe CRead; TSend (mk_bitfield have) SLock]) [(0%nat, (0%nat, 1%nat))])).
  { go4 0%nat (KSend (mk_bitfield have)) (@nil kevent); reflexivity. }
  eapply (via _ (cl (peer_at blank true false) [THandler 0 HBitfield] (Some 0%nat) (reg_at [] [] []) have (Running w []) [] [] (conn_at true false (Some 1%nat) [] [] [TServe CRead; TSend (mk_bitfield have) SWrite]) [(0%nat, (0%nat, 1%nat))])).
  { go3 1%nat KOk (@nil kevent); reflexivity. }
  eapply (viae _ (cl (peer_at blank true false) [THandler 0 HLoop] None (reg_at [] [] []) have (Running w []) [] [] (conn_at true false None [] [] [TServe CRead; TOver]) []) _ [_] []).
  { go2 0%nat COk 1%nat (KMsg (mk_bitfield have)) [KSent (mk_bitfield have)]; reflexivity. }
  go1 0%nat COk; reflexivity.
Qed.

(** * The bitfield comes *)
Lemma eqb_self (a : bytes) : bytes_eqb a a = true.
Proof. now apply bytes_eqb_eq. Qed.
Lemma haves have sto msgs items : forall bits H int, Forall (fun i => 0 <= i < 8 * zlen bits /\ i < 8 * zlen have) items -> exists bits' H' int' tr,
  goes (cl (peer_at bits true int) [THandler 0 (next_have items)] None (reg_at H [] []) have sto [] msgs (conn_at true int None [] [] [TServe CHaves; TOver]) [])
    (cl (peer_at bits' true int') [THandler 0 HLoop] None (reg_at H' [] []) have sto [] msgs (conn_at true int' None [] [] [TServe CHaves; TOver]) []) tr /\
  zlen bits' = zlen bits /\ (forall j, member bits' j <-> In j items \/ member bits j) /\ ((int = true \/ exists i, In i items /\ ~ member have i) -> int' = true) /\
  tr = (if int then [] else if int' then [KSent (mk_plain INTERESTED)] else []).
Proof.
  induction items as [|i items IH]; intros bits H int F.
  - exists bits, H, int, []. split; [apply goes_refl|]. split; [reflexivity|]. split; [intros j; split; [auto|intros [[]|]; auto]|]. split; [intros [E|(i & [] & _)]; exact E|]. now destruct int.
  - apply Forall_cons_iff in F as [[R1 R2] F]. destruct (bf_add_spec bits i R1) as (b1 & A1 & Z1 & M1). destruct (bf_has_spec have i) as (h & A2 & M2); [lia|]. rewrite <- Z1 in F.
    set (H1 := mput Z.eqb i (sadd Nat.eqb 0%nat (holders_of (reg_at H [] []) i)) H).
    assert (G : goes (cl (peer_at bits true int) [THandler 0 (next_have (i :: items))] None (reg_at H [] []) have sto [] msgs (conn_at true int None [] [] [TServe CHaves; TOver]) [])
                     (cl (peer_at b1 true int) [THandler 0 (if h then next_have items else HQueue (Some items))] None (reg_at H1 [] []) have sto [] msgs (conn_at true int None [] [] [TServe CHaves; TOver]) []) []).
    { eapply (via _ (cl (peer_at b1 true int) [THandler 0 (HRecord i items)] None (reg_at H [] []) have sto [] msgs (conn_at true int None [] [] [TServe CHaves; TOver]) [])).
      { go1 0%nat COk; [reflexivity|reflexivity| |reflexivity..]. cbn [step_thread next_have sy s_threads nth_error step_handler s_peers peer_at q_bits]. rewrite A1. reflexivity. }
      eapply (via _ (cl (peer_at b1 true int) [THandler 0 (HCheck i items)] None (reg_at H1 [] []) have sto [] msgs (conn_at true int None [] [] [TServe CHaves; TOver]) [])). { go1 0%nat COk; reflexivity. }
      go1 0%nat COk; [reflexivity|reflexivity| |reflexivity|reflexivity|reflexivity|destruct h; [destruct items|]; reflexivity]. cbn [step_thread sy s_threads nth_error step_handler s_peers s_have]. rewrite A2. destruct h; reflexivity. }
    destruct h.
    + destruct (IH b1 H1 int F) as (bits' & H' & int' & tr & G' & Z' & M' & I' & T'). exists bits', H', int', tr. split; [eapply via; [exact G|exact G']|]. split; [congruence|].
      split; [intros j; rewrite M', M1; cbn; intuition congruence|]. split; [|auto]. intros [E|(i' & [->|Hi] & Hm)]; apply I'; [auto| |right; eauto]. exfalso. apply Hm, M2. reflexivity.
    + assert (G2 : exists tr, goes (cl (peer_at b1 true int) [THandler 0 (HQueue (Some items))] None (reg_at H1 [] []) have sto [] msgs (conn_at true int None [] [] [TServe CHaves; TOver]) [])
                     (cl (peer_at b1 true true) [THandler 0 (next_have items)] None (reg_at H1 [] []) have sto [] msgs (conn_at true true None [] [] [TServe CHaves; TOver]) []) tr /\ tr = if int then [] else [KSent (mk_plain INTERESTED)]).
      { exists (if int then [] else [KSent (mk_plain INTERESTED)]). split; [|reflexivity].
        eapply (via _ (cl (peer_at b1 true int) [THandler 0 (HInterest items)] None (reg_at H1 [] []) have sto [] msgs (conn_at true int None [] [] [TServe CHaves; TOver]) [])). { go1 0%nat COk; reflexivity. }
        destruct int.
        - go2 0%nat COk 0%nat KMore (@nil kevent); reflexivity.
        - eapply (via _ (cl (peer_at b1 true true) [THandler 0 (HInterested items)] None (reg_at H1 [] []) have sto [] msgs (conn_at true true None [] [] [TServe (CInterest SLock); TOver]) [])).
          { go2 0%nat COk 0%nat KMore [KChange FInterest]; reflexivity. }
          eapply (via _ (cl (peer_at b1 true true) [THandler 0 (HInterested items)] None (reg_at H1 [] []) have sto [] msgs (conn_at true true (Some 0%nat) [] [] [TServe (CInterest SWrite); TOver]) [])).
          { go3 0%nat KOk (@nil kevent); reflexivity. }
          go2 0%nat COk 0%nat KOk [KSent (mk_plain INTERESTED)]; reflexivity. }
      destruct G2 as (tr0 & G2 & T0). destruct (IH b1 H1 true F) as (bits' & H' & int' & tr & G' & Z' & M' & I' & T'). exists bits', H', int', (tr0 ++ tr).
      split; [eapply via; [exact G|eapply viae; [exact G2|exact G']]|]. split; [congruence|]. split; [intros j; rewrite M', M1; cbn; intuition congruence|]. split; [intros _; apply I'; auto|].
      subst tr tr0. rewrite (I' (or_introl eq_refl)). now destruct int.
Qed.
Lemma hears_bitfield have sto full : Forall (fun i => 0 <= i < 8 * zlen blank /\ i < 8 * zlen have) (bf_items full) -> exists bits H int tr,
  goes (cl (peer_at blank true false) [THandler 0 HReceive] None (reg_at [] [] []) have sto [] [] (conn_at true false None [] [] [TServe CRead; TOver]) [])
    (cl (peer_at bits true int) [THandler 0 HReceive] None (reg_at H [] []) have sto [] [(0%nat, mk_bitfield full)] (conn_at true int None [] [] [TServe CRead; TOver]) []) (KRecv (mk_bitfield full) :: tr) /\
  zlen bits = zlen blank /\ (forall j, member bits j <-> member full j \/ member blank j) /\ ((exists i, member full i /\ ~ member have i) -> int = true) /\
  tr = if int then [KSent (mk_plain INTERESTED)] else [].
Proof.
  intros F. set (m := mk_bitfield full). destruct (haves have sto [(0%nat, m)] _ _ [] false F) as (bits & H & int & tr & G & Z & M & I & T). exists bits, H, int, tr.
  split; [|split; [exact Z|]; split; [intros j; rewrite M, (proj2 (bf_items_spec full)); reflexivity|]; split; [intros (i & A & B); apply I; right; exists i; split; [now apply bf_items_spec|exact B]|exact T]].
  eapply (via _ (cl (peer_at blank true false) [THandler 0 HReceive] None (reg_at [] [] []) have sto [] [] (conn_at true false None [] [] [TServe (CTake m); TOver]) [])). { go3 0%nat (KMsg m) (@nil kevent); reflexivity. }
  eapply (viae _ (cl (peer_at blank true false) [THandler 0 HReceive] None (reg_at [] [] []) have sto [] [] (conn_at true false None [] [] [TServe (CHandle m); TOver]) []) _ [_] tr). { go3 0%nat KOk [KRecv m]; reflexivity. }
  eapply (via _ (cl (peer_at blank true false) [THandler 0 (next_have (bf_items full))] None (reg_at [] [] []) have sto [] [(0%nat, m)] (conn_at true false None [] [] [TServe CHaves; TOver]) [])).
  { go2 0%nat (CMsg m) 0%nat KOk [KHandled m]; try reflexivity. cbn. unfold msg_eqb. cbn. now rewrite eqb_self. }
  rewrite <- (app_nil_r tr). eapply viae; [exact G|].
  eapply (via _ (cl (peer_at bits true int) [THandler 0 HReceive] None (reg_at H [] []) have sto [] [(0%nat, m)] (conn_at true int None [] [] [TServe CHaves; TOver]) [])). { go1 0%nat COk; reflexivity. }
  go3 0%nat KOk (@nil kevent); reflexivity.
Qed.
Lemma hears_unchoke have sto bits H int msgs m0 : m0 = mk_plain UNCHOKE -> msgs = [(0%nat, m0)] -> forall old,
  goes (cl (peer_at bits true int) [THandler 0 HReceive] None (reg_at H [] []) have sto [] [(0%nat, old)] (conn_at true int None [] [] [TServe CRead; TOver]) [])
    (cl (peer_at bits false int) [THandler 0 HReceive; TRequester 0 RLock] None (reg_at H [0%nat] []) have sto [] msgs (conn_at false int None [] [] [TServe CRead; TOver]) []) [KRecv m0].
Proof.
  intros E0 -> old. 
  eapply (via _ (cl (peer_at bits true int) [THandler 0 HReceive] None (reg_at H [] []) have sto [] [(0%nat, old)] (conn_at true int None [] [] [TServe (CTake m0); TOver]) [])). { go3 0%nat (KMsg m0) (@nil kevent); subst m0; reflexivity. }
  eapply (viae _ (cl (peer_at bits true int) [THandler 0 HReceive] None (reg_at H [] []) have sto [] [(0%nat, old)] (conn_at true int None [] [] [TServe (CHandle m0); TOver]) []) _ [_] []). { go3 0%nat KOk [KRecv m0]; subst m0; reflexivity. }
  eapply (via _ (cl (peer_at bits false int) [THandler 0 (HQueue None)] None (reg_at H [] []) have sto [] [(0%nat, m0)] (conn_at false int None [] [] [TServe CRead; TOver]) [])).
  { go2 0%nat (CMsg m0) 0%nat KOk [KHandled m0]; subst m0; reflexivity. }
  eapply (via _ (cl (peer_at bits false int) [THandler 0 (HToken None)] (Some 0%nat) (reg_at H [0%nat] []) have sto [] [(0%nat, m0)] (conn_at false int None [] [] [TServe CRead; TOver]) [])). { go1 0%nat COk; reflexivity. }
  eapply (via _ (cl (peer_at bits false int) [THandler 0 HLoop; TRequester 0 RLock] None (reg_at H [0%nat] []) have sto [] [(0%nat, m0)] (conn_at false int None [] [] [TServe CRead; TOver]) [])). { go1 0%nat COk; reflexivity. }
  go1 0%nat COk; reflexivity.
Qed.

(** * A piece is asked for *)
Lemma mput_one {V} (t : nat) (v v' : V) : mput Nat.eqb t v [(t, v')] = [(t, v)].
Proof. unfold mput, mdel. cbn. now rewrite Nat.eqb_refl. Qed.
Lemma mget_one {V} (t : nat) (v : V) : mget Nat.eqb t [(t, v)] = Some v.
Proof. unfold mget. cbn. now rewrite Nat.eqb_refl. Qed.
Lemma mdel_one {V} (t : nat) (v : V) : mdel Nat.eqb t [(t, v)] = [].
Proof. unfold mdel. cbn. now rewrite Nat.eqb_refl. Qed.
Lemma lc_nil t T : left_call t T [] = [].
Proof. unfold left_call. now destruct (in_call _). Qed.
Lemma reorders_self l : reorders l l = true.
Proof. induction l as [|x l IH]; cbn; [reflexivity|]. now rewrite Z.eqb_refl. Qed.
Section Round.
Variables (bits : bytes) (int : bool) (H : list (Z * list nat)).
Notation q := (peer_at bits false int).
Notation hd h := (THandler 0 h).
Lemma picks P have sto m K k0 : member bits k0 -> ~ member have k0 -> exists i,
  member bits i /\ ~ member have i /\
  goes (cl q (P ++ [TRequester 0 RLock]) None (reg_at H [0%nat] []) have sto [] m K [])
       (cl q ((P ++ [TDone]) ++ [TPiece 0 i PRun]) None (reg_at H [0%nat] [(i, 0%nat)]) have sto [] m K []) [].
Proof using.
  intros A B. set (l := bf_items (bf_difference bits have)). assert (Hl : forall j, In j l <-> member bits j /\ ~ member have j).
  { intros j. unfold l. rewrite (proj2 (bf_items_spec _)). apply diff_member. }
  assert (NE : l <> []). { intros E. pose proof (proj2 (Hl k0) (conj A B)) as Q. now rewrite E in Q. }
  set (cnt := fun i => zlen (holders_of (reg_at H [0%nat] []) i)). assert (S : exists i l', sort_slice cnt l [] l = Some (i :: l') /\ In i l).
  { destruct (sort_slice cnt l [] l) as [l1|] eqn:E.
    - pose proof (P2PSortProofs.sort_slice_perm _ _ _ _ _ E) as Pm. destruct l1 as [|i l1]; [apply Permutation.Permutation_nil in Pm; contradiction|]. exists i, l1. split; [reflexivity|]. eapply Permutation.Permutation_in; [exact Pm|now left].
    - unfold sort_slice in E. rewrite reorders_self in E. destruct (_ <=? _)%nat; discriminate. }
  destruct S as (i & l' & S & Hi). exists i. apply Hl in Hi as [Hi1 Hi2]. split; [exact Hi1|]. split; [exact Hi2|]. set (t := List.length P).
  eapply (via _ (cl q (P ++ [TRequester 0 RRead]) (Some t) (reg_at H [0%nat] []) have sto [] m K [])).
  { go1 t COk; [apply nth_mid|reflexivity| |reflexivity|reflexivity|reflexivity|apply lc_nil]. unfold step_thread. cbn [sy s_threads]. unfold t at 1. rewrite nth_mid.
    cbn -[app]. unfold goto, set_threads, set_mu, set_reg, sy. cbn -[app]. unfold t. rewrite set_mid. reflexivity. }
  eapply (via _ (cl q (P ++ [TRequester 0 (RPick (i :: l'))]) (Some t) (reg_at H [0%nat] []) have sto [] m K [])).
  { go1 t (CSort [] l); [apply nth_mid|reflexivity| |reflexivity|reflexivity|reflexivity|apply lc_nil]. unfold step_thread. cbn [sy s_threads]. unfold t at 1. rewrite nth_mid.
    unfold step_requester. cbn [sy s_peers nth_error peer_at q_bits s_have s_reg]. revert S NE. unfold cnt, l. clear. destruct (bf_items (bf_difference bits have)) as [|x l0]; [contradiction|]. intros SS _. match goal with |- context [sort_slice ?f ?x ?y ?z] => replace (sort_slice f x y z) with (Some (i :: l')) by (symmetry; exact SS) end. cbn -[app]. unfold goto, set_threads, set_mu, set_reg, sy. cbn -[app]. unfold t. rewrite set_mid. reflexivity. }
  go1 t COk; [apply nth_mid|reflexivity| |reflexivity|reflexivity|reflexivity|apply lc_nil]. unfold step_thread. cbn [sy s_threads]. unfold t at 1. rewrite nth_mid.
  cbn -[app]. unfold goto, set_threads, set_mu, set_reg, sy. cbn -[app]. unfold t. rewrite set_mid. reflexivity.
Qed.
Lemma resets base P i have w ts m n K w' ts' : inv base (Running w ts) ->
  StorageSys.execs sha1 cfg env (Running w ts) (LCall (CReset i) :: repeat (LStep (List.length ts)) n) = Some (Running w' ts', [Ret (CReset i) RNil]) ->
  goes (cl q (P ++ [TPiece 0 i PRun]) None (reg_at H [0%nat] [(i, 0%nat)]) have (Running w ts) [] m K [])
       (cl q (P ++ [TPiece 0 i PRun]) None (reg_at H [0%nat] [(i, 0%nat)]) have (Running w' ts') [(List.length P, JReset)] m K []) [] /\
  t_bitfield (w_mem w') = t_bitfield (w_mem w) /\ ts' = ts ++ [{| th_call := CReset i; th_pc := Done RNil |}].
Proof using ok.
  intros I X. set (t := List.length P).
  edestruct (call_runs base q (P ++ [TPiece 0 i PRun]) None (reg_at H [0%nat] [(i, 0%nat)]) have [] [(t, JCall (List.length ts))] m K [] []) as (w1 & ts1 & pc1 & G & X1 & B & I1 & N & TS); [apply nth_mid| | | | |apply mget_one|exact I|exact X|].
  - reflexivity.
  - unfold beside_node, thread_of. cbn [cl srv u_node n_srv sy s_threads]. unfold t. rewrite nth_mid. reflexivity.
  - reflexivity.
  - apply lc_nil.
  - split; [|split; [|exact TS]].
    + eapply via; [exact G|]. eapply go6; [reflexivity|apply nth_mid|apply mget_one|exact X1|reflexivity|apply mput_one].
    + rewrite <- B. eapply bits_kept; [exact I1|exact X1|exact N|discriminate].
Qed.
Ltac stp := unfold step_thread; cbn [sy s_threads]; rewrite nth_mid; cbn -[app]; unfold goto, spawn, set_threads, set_mu, set_reg, sy; cbn -[app]; rewrite ?set_mid; reflexivity.
Ltac kst := unfold kexec; cbn [conn_at k_crashed k_threads]; rewrite nth_mid; cbn -[app]; unfold take_lock, finish_write, kgoto, kspawn, set_kthreads, set_kmu, conn_at; cbn -[app]; rewrite ?set_mid; reflexivity.
Lemma mget_none {V} (t : nat) : mget Nat.eqb t (@nil (nat * V)) = None.
Proof. reflexivity. Qed.
Lemma lc_at P th Q v : in_call (Some th) = false -> left_call (List.length P) (P ++ th :: Q) [(List.length P, v)] = [].
Proof. intros I. unfold left_call. rewrite nth_mid, I. apply mdel_one. Qed.
Lemma shares base P i have w ts m n w' ts' F L k : inv base (Running w ts) -> nth_error L k = Some TOver -> bf_has have i = Some true -> have = t_bitfield (w_mem w) ->
  StorageSys.execs sha1 cfg env (Running w ts) (LCall (CWait i) :: repeat (LStep (List.length ts)) n) = Some (Running w' ts', [Ret (CWait i) RNil]) ->
  goes (cl q (P ++ [TPiece 0 i PRun]) None (reg_at H [0%nat] [(i, 0%nat)]) have (Running w ts) [(List.length P, JReset)] m (conn_at false int None [] F L) [(List.length P, (0%nat, k))])
       (cl q (P ++ [TDone; TRequester 0 RLock]) None (reg_at H [0%nat] []) have (Running w' ts') [] m (conn_at false int None [] F (L ++ [TOver])) []) [KSent (mk_have i)] /\
  t_bitfield (w_mem w') = t_bitfield (w_mem w) /\ ts' = ts ++ [{| th_call := CWait i; th_pc := Done RNil |}].
Proof using ok.
  intros I NL HB EH X. set (g := reg_at H [0%nat] [(i, 0%nat)]).
  edestruct (call_runs base q (P ++ [TPiece 0 i PRun]) None g have [(List.length P, JReset)] [(List.length P, JCall (List.length ts))] m (conn_at false int None [] F L) [(List.length P, (0%nat, k))] []) as (w1 & ts1 & pc1 & G & X1 & B & I1 & N & TS); [apply nth_mid| | |apply mput_one|apply lc_at; reflexivity|apply mget_one|exact I|exact X|].
  - rewrite mget_one. reflexivity.
  - unfold beside_node, thread_of, job_of. cbn [cl srv u_node n_srv sy s_threads n_jobs]. rewrite nth_mid, mget_one. unfold pull_over. cbn [cl u_calls u_conns]. rewrite mget_one. cbn [nth_error conn_at k_threads]. rewrite NL. reflexivity.
  - split; [|split; [|exact TS]].
    + set (sto := Running w' ts'). eapply via; [exact G|].
      eapply (via _ (cl q (P ++ [TPiece 0 i PShare]) None g have sto [] m (conn_at false int None [] F L) [])).
      { eapply go7; [reflexivity|apply nth_mid|apply mget_one|exact X1| |apply mdel_one]. unfold step_thread. cbn [sy s_threads]. rewrite nth_mid. cbn -[app]. rewrite HB. unfold goto, set_threads, sy; cbn -[app]; rewrite set_mid; reflexivity. }
      eapply (via _ (cl q (P ++ [TPiece 0 i (PHave [0%nat])]) None g have sto [] m (conn_at false int None [] F L) [])).
      { go1 (List.length P) (COrder [0%nat]); [apply nth_mid|reflexivity|stp|reflexivity|reflexivity|reflexivity|apply lc_nil]. }
      eapply (via _ (cl q (P ++ [TPiece 0 i (PSend 0%nat [])]) None g have sto [] m (conn_at false int None [] F L) [])).
      { go1 (List.length P) COk; [apply nth_mid|reflexivity|stp|reflexivity|reflexivity|reflexivity|apply lc_nil]. }
      eapply (via _ (cl q (P ++ [TPiece 0 i (PSend 0%nat [])]) None g have sto [] m (conn_at false int None [] F (L ++ [TSend (mk_have i) SLock])) [(List.length P, (0%nat, List.length L))])).
      { go4 (List.length P) (KSend (mk_have i)) (@nil kevent); [apply nth_mid|reflexivity|reflexivity|reflexivity|reflexivity|reflexivity|reflexivity]. }
      eapply (via _ (cl q (P ++ [TPiece 0 i (PSend 0%nat [])]) None g have sto [] m (conn_at false int (Some (List.length L)) [] F (L ++ [TSend (mk_have i) SWrite])) [(List.length P, (0%nat, List.length L))])).
      { go3 (List.length L) KOk (@nil kevent); [apply nth_mid|reflexivity|kst|reflexivity|reflexivity]. }
      eapply (viae _ (cl q (P ++ [TPiece 0 i (PHave [])]) None g have sto [] m (conn_at false int None [] F (L ++ [TOver])) []) _ [_] []).
      { go2 (List.length P) COk (List.length L) KOk [KSent (mk_have i)]; [apply nth_mid|reflexivity|stp| |kst|reflexivity|reflexivity|reflexivity|apply lc_at; reflexivity|reflexivity].
        unfold beside_server, called. cbn [cl u_calls u_conns]. rewrite mget_one. cbn [nth_error conn_at k_threads]. rewrite nth_mid. reflexivity. }
      eapply (via _ (cl q (P ++ [TPiece 0 i PToken]) None g have sto [] m (conn_at false int None [] F (L ++ [TOver])) [])).
      { go1 (List.length P) COk; [apply nth_mid|reflexivity|stp|reflexivity|reflexivity|reflexivity|apply lc_nil]. }
      eapply (via _ (cl q (P ++ [TPiece 0 i PDelete; TRequester 0 RLock]) None g have sto [] m (conn_at false int None [] F (L ++ [TOver])) [])).
      { go1 (List.length P) COk; [apply nth_mid|reflexivity| |reflexivity|reflexivity|reflexivity|apply lc_nil]. unfold step_thread; cbn [sy s_threads]; rewrite nth_mid; cbn -[app]; unfold goto, spawn, set_threads, sy; cbn -[app]. rewrite <- app_assoc. cbn [app]. rewrite set_mid. reflexivity. }
      go1 (List.length P) COk; [apply nth_mid|reflexivity| |reflexivity|reflexivity|reflexivity|apply lc_nil]. unfold step_thread; cbn [sy s_threads]; rewrite nth_mid; cbn -[app]; unfold goto, set_reg, set_threads, sy; cbn -[app]; rewrite set_mid. unfold mdel, g, reg_at, set_inflight. cbn. rewrite Z.eqb_refl. reflexivity.
    + rewrite <- B. eapply bits_kept; [exact I1|exact X1|exact N|discriminate].
Qed.

(** * A block is asked for and brought *)
Lemma breq_refl r1 : breq_eqb r1 r1 = true.
Proof. destruct r1 as [[a b] c]. unfold breq_eqb. now rewrite !Z.eqb_refl. Qed.
Section Ask.
Variables (rq : breq) (F : list (option (option cerr))) (A : list kthread).
Notation k := (List.length A).
Lemma ask1 : kexec (conn_at false int None [] F (A ++ [TAsk rq QFirst])) (KGo k KOk) = Some (conn_at false int None [] F (A ++ [TAsk rq QJoin]), []).
Proof. kst. Qed.
Lemma ask2 : kexec (conn_at false int None [] F (A ++ [TAsk rq QJoin])) (KGo k KOk) = Some (conn_at false int None [(rq, List.length F)] (F ++ [None]) (A ++ [TAsk rq (QSend (List.length F) SLock)]), [KPending k rq]).
Proof. kst. Qed.
Lemma ask3 I f : kexec (conn_at false int None I F (A ++ [TAsk rq (QSend f SLock)])) (KGo k KOk) = Some (conn_at false int (Some k) I F (A ++ [TAsk rq (QSend f SWrite)]), []).
Proof. kst. Qed.
Lemma ask4 I f : kexec (conn_at false int (Some k) I F (A ++ [TAsk rq (QSend f SWrite)])) (KGo k KOk) = Some (conn_at false int None I F (A ++ [TAsk rq (QWait f)]), [KSent (request_of rq)]).
Proof. kst. Qed.
Lemma ask5 : kexec (conn_at false int None [] (F ++ [Some None]) (A ++ [TAsk rq (QWait (List.length F))])) (KGo k KOk) = Some (conn_at false int None [] (F ++ [Some None]) (A ++ [TAsk rq (QLeave None)]), []).
Proof. unfold kexec. cbn [conn_at k_crashed k_threads]. rewrite nth_mid. cbn -[app]. rewrite nth_mid. unfold kgoto, set_kthreads, conn_at. cbn -[app]. now rewrite set_mid. Qed.
Lemma ask6 : kexec (conn_at false int None [] F (A ++ [TAsk rq (QLeave None)])) (KGo k KOk) = Some (conn_at false int None [] F (A ++ [TAsk rq QDone]), [KReturned k rq None]).
Proof. kst. Qed.
Lemma takes L m : m_type m = PIECE -> brought m = rq -> kexec (conn_at false int None [(rq, List.length F)] (F ++ [None]) (TServe (CTake m) :: L)) (KGo 0 KOk) = Some (conn_at false int None [] (F ++ [Some None]) (TServe (CHandle m) :: L), [KRecv m]).
Proof.
  intros T B. assert (G : mget breq_eqb rq [(rq, List.length F)] = Some (List.length F)) by (unfold mget; cbn; now rewrite breq_refl). assert (E : mdel breq_eqb rq [(rq, List.length F)] = []) by (unfold mdel; cbn; now rewrite breq_refl).
  unfold kexec. cbn [conn_at k_crashed k_threads nth_error step_serve]. rewrite T, B. cbn [Z.eqb PIECE Pos.eqb k_mu]. unfold complete. cbn [conn_at k_inflight k_futs]. rewrite G. cbn [k_futs]. rewrite nth_mid.
  unfold kgoto, set_kinflight, set_kfuts, set_kthreads, conn_at. cbn -[app mdel]. rewrite set_mid, E. reflexivity.
Qed.
End Ask.
Definition asked_done (th : kthread) : Prop := exists rq, th = TAsk rq QDone.
Lemma filter_none {T} (f : T -> bool) l : (forall x, In x l -> f x = false) -> filter f l = [].
Proof. induction l as [|x l IH]; intros E; [reflexivity|]. cbn. rewrite (E x) by now left. apply IH. intros y Hy. apply E. now right. Qed.
Lemma kids_done C I F L0 Y : Forall asked_done Y -> running (conn_at false int C I F (L0 ++ Y)) (seq (List.length L0) (List.length Y)) = [].
Proof.
  intros D. unfold running. cbn [conn_at k_threads]. apply filter_none.
  intros x Hx. apply in_seq in Hx. rewrite nth_error_app2 by lia. destruct (nth_error Y (x - List.length L0)) as [th|] eqn:N; [|reflexivity]. apply nth_error_In in N. rewrite Forall_forall in D. destruct (D _ N) as [rq ->]. reflexivity.
Qed.
Lemma mdel_other {V} u (v : V) : mdel Nat.eqb 0%nat [(S u, v)] = [(S u, v)].
Proof. reflexivity. Qed.
Notation pulling h X todo Y := (TServe h :: X ++ TPull todo (seq (S (S (List.length X))) (List.length Y)) :: Y).
Lemma nth_mid1 {T} (z : T) Z0 a Y : nth_error (z :: Z0 ++ a :: Y) (S (List.length Z0)) = Some a.
Proof. apply nth_mid. Qed.
Lemma set_mid1 {T} (z : T) Z0 a Y v : list_set (S (List.length Z0)) v (z :: Z0 ++ a :: Y) = z :: Z0 ++ v :: Y.
Proof. apply (set_mid (z :: Z0)). Qed.
Section Block.
Variables (E : list thread) (u : nat) (g : registry) (X : list kthread).
Notation kp := (S (List.length X)).
Notation at_ h have sto m K := (cl q (hd h :: E) None g have sto [(S u, JReset)] m K [(S u, (0%nat, kp))]).
Lemma block_comes base i b d todo Y F have w ts w' ts' n m0 : inv base (Running w ts) -> have = t_bitfield (w_mem w) -> on_wire (mk_piece i b d) = true -> Forall asked_done Y ->
  StorageSys.execs sha1 cfg env (Running w ts) (LCall (StorageSys.CPut i b d) :: repeat (LStep (List.length ts)) n) = Some (Running w' ts', [Ret (StorageSys.CPut i b d) RNil]) ->
  goes (at_ HReceive have (Running w ts) [(0%nat, m0)] (conn_at false int None [] F (pulling CRead X ((i, b, zlen d) :: todo) Y)))
       (at_ HReceive (t_bitfield (w_mem w')) (Running w' ts') [(0%nat, mk_piece i b d)] (conn_at false int None [] (F ++ [Some None]) (pulling CRead X todo (Y ++ [TAsk (i, b, zlen d) QDone]))))
       [KSent (mk_request i b (zlen d)); KRecv (mk_piece i b d)] /\
  ts' = ts ++ [{| th_call := StorageSys.CPut i b d; th_pc := Done RNil |}].
Proof using ok.
  intros I EH OW D X0. set (m := mk_piece i b d) in *. set (rq := (i, b, zlen d)). set (kids := seq (S (S (List.length X))) (S (List.length Y))). set (A h := TServe h :: X ++ TPull todo kids :: Y). set (f := List.length F).
  assert (LA : forall h, S (S (List.length X + List.length Y)) = List.length (A h)) by (intros h; unfold A; cbn; rewrite app_length; cbn; lia).
  set (ka := S (S (List.length X + List.length Y))) in *. assert (QA : forall h z, nth_error (A h ++ [z]) ka = Some z) by (intros h z; rewrite (LA h); apply nth_mid).
  set (K2 := conn_at false int None [] (F ++ [Some None]) (A P2PConn.CPut ++ [TAsk rq (QWait f)])).
  edestruct (call_runs base q (hd (HPiece i) :: E) None g have [(S u, JReset)] [(0%nat, JCall (List.length ts)); (S u, JReset)] [(0%nat, m)] K2 [(S u, (0%nat, kp))] [(S u, (0%nat, kp))] 0%nat) as (w1 & ts1 & pc1 & G & X1 & B & I1 & N & TS); [reflexivity|reflexivity|reflexivity|reflexivity|reflexivity|reflexivity|exact I|exact X0|].
  split; [|exact TS]. set (sto := Running w ts). fold sto in G.
  eapply (via _ (at_ HReceive have sto [(0%nat, m0)] (conn_at false int None [] F (A CRead ++ [TAsk rq QFirst])))).
  { go3 (S (List.length X)) KOk (@nil kevent); [cbn [conn_at k_threads]; apply (nth_mid (TServe CRead :: X))|reflexivity| |reflexivity|reflexivity].
    unfold kexec. cbn [conn_at k_crashed k_threads]. rewrite nth_mid1. cbn [step_pull]. fold rq. 
    assert (R : running (conn_at false int None [] F (pulling CRead X (rq :: todo) Y)) (seq (S (S (List.length X))) (List.length Y)) = []).
    { replace (S (S (List.length X))) with (List.length (TServe CRead :: X ++ [TPull (rq :: todo) (seq (S (S (List.length X))) (List.length Y))])) at 2 by (cbn; rewrite app_length; cbn; lia).
      replace (pulling CRead X (rq :: todo) Y) with ((TServe CRead :: X ++ [TPull (rq :: todo) (seq (S (S (List.length X))) (List.length Y))]) ++ Y) by (cbn; now rewrite <- app_assoc). now apply kids_done. }
    unfold conn_at in R |- *. rewrite R. cbn [zlen List.length Z.of_nat Z.ltb Z.compare]. unfold kspawn, kgoto, set_kthreads, conn_at. cbn -[app list_set seq]. rewrite set_mid1. unfold A, kids. rewrite seq_S. cbn [app]. rewrite <- app_assoc. cbn [app List.length]. rewrite app_length. cbn [List.length]. replace (S (List.length X + S (List.length Y))) with (S (S (List.length X)) + List.length Y)%nat by lia. rewrite <- app_assoc. reflexivity. }
  eapply (via _ (at_ HReceive have sto [(0%nat, m0)] (conn_at false int None [] F (A CRead ++ [TAsk rq QJoin])))).
  { go3 ka KOk (@nil kevent); [apply QA|reflexivity|rewrite (LA CRead); apply ask1|reflexivity|reflexivity]. }
  eapply (via _ (at_ HReceive have sto [(0%nat, m0)] (conn_at false int None [(rq, f)] (F ++ [None]) (A CRead ++ [TAsk rq (QSend f SLock)])))).
  { go3 ka KOk [KPending ka rq]; [apply QA|reflexivity|rewrite (LA CRead); apply ask2|reflexivity|reflexivity]. }
  eapply (via _ (at_ HReceive have sto [(0%nat, m0)] (conn_at false int (Some ka) [(rq, f)] (F ++ [None]) (A CRead ++ [TAsk rq (QSend f SWrite)])))).
  { go3 ka KOk (@nil kevent); [apply QA|reflexivity|rewrite (LA CRead); apply ask3|reflexivity|reflexivity]. }
  eapply (viae _ (at_ HReceive have sto [(0%nat, m0)] (conn_at false int None [(rq, f)] (F ++ [None]) (A CRead ++ [TAsk rq (QWait f)]))) _ [_] [_]).
  { go3 ka KOk [KSent (request_of rq)]; [apply QA|reflexivity|rewrite (LA CRead); apply ask4|reflexivity|reflexivity]. }
  eapply (via _ (at_ HReceive have sto [(0%nat, m0)] (conn_at false int None [(rq, f)] (F ++ [None]) (A (CTake m) ++ [TAsk rq (QWait f)])))).
  { go3 0%nat (KMsg m) (@nil kevent); [reflexivity| |reflexivity|reflexivity|reflexivity]. cbn [inside]. rewrite OW. reflexivity. }
  eapply (viae _ (at_ HReceive have sto [(0%nat, m0)] (conn_at false int None [] (F ++ [Some None]) (A (CHandle m) ++ [TAsk rq (QWait f)]))) _ [_] []).
  { go3 0%nat KOk [KRecv m]; [reflexivity|reflexivity|apply takes; reflexivity|reflexivity|reflexivity]. }
  eapply (via _ (at_ (HPiece i) have sto [(0%nat, m)] K2)).
  { go2 0%nat (CMsg m) 0%nat KOk [KHandled m]; [reflexivity| | | |reflexivity|reflexivity|reflexivity|reflexivity|reflexivity|reflexivity].
    - cbn [without wire_ok]. rewrite OW. reflexivity.
    - cbn [step_thread sy s_threads nth_error step_handler s_peers]. assert (m_index m <? 0 = false) as -> by (unfold on_wire in OW; lia). reflexivity.
    - unfold beside_server, serve_at. cbn [cl u_conns nth_error conn_at k_threads A app]. unfold msg_eqb. cbn. rewrite !Z.eqb_refl, eqb_self. reflexivity. }
  eapply via; [exact G|].
  eapply (via _ (at_ HLoop (t_bitfield (w_mem w')) (Running w' ts') [(0%nat, m)] (conn_at false int None [] (F ++ [Some None]) (A CRead ++ [TAsk rq (QWait f)])))).
  { eapply (step_put _ q _ (hd HLoop :: E) None None g g have _ _ [(0%nat, JCall (List.length ts)); (S u, JReset)] _ _ _ _ 0%nat) with (e := if bytes_eqb (t_bitfield (w_mem w1)) (t_bitfield (w_mem w')) then [] else [EvStored i]); [reflexivity|reflexivity|reflexivity|exact X1|reflexivity| |reflexivity|reflexivity].
    cbn [answer]. destruct (bytes_eqb (t_bitfield (w_mem w1)) (t_bitfield (w_mem w'))) eqn:BE.
    - apply bytes_eqb_eq in BE. rewrite <- BE, B, <- EH. reflexivity.
    - destruct (StorageMoreProofs.step_bits sha1 cfg env ok _ _ _ _ _ _ _ _ I1 X1 N) as [Q|(k' & b' & d' & r'' & Q & _ & _ & Q')]; [rewrite Q, bytes_eqb_refl in BE; discriminate|]. cbn in Q. injection Q as <- <- <-.
      cbn [step_thread sy s_threads nth_error step_handler s_peers s_have]. rewrite EH, <- B, Q'. reflexivity. }
  eapply (via _ (at_ HReceive (t_bitfield (w_mem w')) (Running w' ts') [(0%nat, m)] (conn_at false int None [] (F ++ [Some None]) (A CRead ++ [TAsk rq (QWait f)])))).
  { go1 0%nat COk; reflexivity. }
  eapply (via _ (at_ HReceive (t_bitfield (w_mem w')) (Running w' ts') [(0%nat, m)] (conn_at false int None [] (F ++ [Some None]) (A CRead ++ [TAsk rq (QLeave None)])))).
  { go3 ka KOk (@nil kevent); [apply QA|reflexivity|rewrite (LA CRead); apply ask5|reflexivity|reflexivity]. }
  replace (pulling CRead X todo (Y ++ [TAsk rq QDone])) with (A CRead ++ [TAsk rq QDone]) by (unfold A, kids; cbn [app]; rewrite <- app_assoc; cbn [app]; rewrite app_length, Nat.add_1_r; reflexivity).
  go3 ka KOk [KReturned ka rq None]; [apply QA|reflexivity|rewrite (LA CRead); apply ask6|reflexivity|reflexivity].
Qed.
End Block.

(** * A piece is asked for, block by block *)
Variable c : bytes.
Notation PL := (i_piece_length (c_info cfg)).
(** After a HAVE the next request; after a request for a block its bytes. *)
Inductive answers : list kevent -> Prop :=
| answers_nil : answers []
| answers_have i tr : 0 <= i < num_pieces (c_info cfg) -> answers tr -> answers (KSent (mk_have i) :: tr)
| answers_block k x y tr : 0 <= k < num_pieces (c_info cfg) -> tile (piece_size (c_info cfg) k) x y -> answers tr -> answers (KSent (mk_request k x y) :: KRecv (mk_piece k x (slice c (k * PL + x) y)) :: tr).
Lemma answers_app t1 t2 : answers t1 -> answers t2 -> answers (t1 ++ t2).
Proof. intros A B. induction A; [exact B|constructor; auto..]. Qed.
Lemma answers_said tr : answers tr -> forall before m after, tr = before ++ KRecv m :: after -> exists i x y, In (KSent (mk_request i x y)) before /\ m = mk_piece i x (slice c (i * PL + x) y).
Proof.
  induction 1 as [|i tr Hi A IH|k x y tr Hk T A IH]; intros before m after E.
  - destruct before; discriminate E.
  - destruct before as [|b before]; [discriminate E|]. injection E as <- E. destruct (IH _ _ _ E) as (i0 & x & y & Hin & Hm). exists i0, x, y. split; [now right|exact Hm].
  - destruct before as [|b [|b' before]]; [discriminate E|injection E as <- <- _; exists k, x, y; split; [now left|reflexivity]|]. injection E as <- <- E. destruct (IH _ _ _ E) as (i0 & x' & y' & Hin & Hm). exists i0, x', y'. split; [now right; right|exact Hm].
Qed.
Hypothesis W : StorageHealthSpec.works env.
Hypothesis FF : StorageHealthSpec.files_fit cfg.
Hypothesis Wc : whole sha1 cfg c.
Variables (f : fs) (tick : nat) (ls0 : list label) (d : fs) (t : nat) (es0 : list StorageSys.event) (w0 : world) (es1 : list StorageSys.event).
Hypothesis U : untouched cfg f.
Hypothesis Rm : StorageHealthSpec.roomy cfg env f.
Hypothesis E0 : StorageSys.execs sha1 cfg env (Dead f tick) ls0 = Some (Dead d t, es0).
Hypothesis E1 : StorageSys.exec sha1 cfg env (Dead d t) LStart = Some (Running w0 [], es1).
Notation SH := (DownloadStoreProofs.SH sha1 cfg env c w0).
Hypothesis small : num_pieces (c_info cfg) <= 2 ^ 32 /\ PL <= 2 ^ 32.
Notation n := (num_pieces (c_info cfg)).
Notation puts := (DownloadStoreProofs.puts cfg c).
Lemma sh_inv w ts : SH w ts -> inv f (Running w ts).
Proof using All. intros S. apply (DownloadStoreProofs.sh_facts sha1 cfg env ok W FF c Wc f tick ls0 d t es0 w0 es1 U Rm E0 E1 _ _ S). Qed.
Lemma pulls E u g X k blocks : 0 <= k < n -> (forall x y, In (x, y) blocks -> tile (piece_size (c_info cfg) k) x y) -> Forall (DownloadStoreProofs.right_call cfg c) (puts k blocks) ->
  forall Y F w ts m0 w' ts', SH w ts -> Forall asked_done Y -> one_by_one sha1 cfg env (Running w ts) (puts k blocks) (repeat RNil (List.length blocks)) (Running w' ts') ->
  exists m0' Y' F' tr, answers tr /\ Forall asked_done Y' /\
  goes (cl q (hd HReceive :: E) None g (t_bitfield (w_mem w)) (Running w ts) [(S u, JReset)] [(0%nat, m0)] (conn_at false int None [] F (pulling CRead X (map (fun xy => (k, fst xy, snd xy)) blocks) Y)) [(S u, (0%nat, S (List.length X)))])
       (cl q (hd HReceive :: E) None g (t_bitfield (w_mem w')) (Running w' ts') [(S u, JReset)] [(0%nat, m0')] (conn_at false int None [] F' (pulling CRead X [] Y')) [(S u, (0%nat, S (List.length X)))]) tr.
Proof using All.
  intros Hk. induction blocks as [|[x y] blocks IH]; intros T R Y F w ts m0 w' ts' Sh D O; cbn [map List.length repeat DownloadStoreProofs.puts fst snd] in *; inversion O; subst.
  - exists m0, Y, F, []. split; [apply answers_nil|]. split; [exact D|]. apply goes_refl.
  - inversion R as [|? ? R1 R2]; subst. destruct (T x y (or_introl eq_refl)) as (T1 & T2 & T3). cbn in R1. destruct R1 as (_ & R1 & _).
    assert (L : zlen (slice c (k * PL + x) y) = y) by (destruct R1 as (_ & _ & ->); lia).
    match goal with E2 : StorageSys.execs _ _ _ _ _ = Some _ |- _ => rename E2 into X1 end. match goal with O2 : one_by_one _ _ _ p _ _ _ |- _ => rename O2 into O1 end.
    destruct (DownloadStoreProofs.sh_call sha1 cfg env ok W FF c Wc f tick ls0 d t es0 w0 es1 U Rm E0 E1 w ts (StorageSys.CPut k x (slice c (k * PL + x) y)) _ _ _ Sh ltac:(inversion R; assumption) X1) as (w1 & ts1 & -> & Sh1 & _).
    destruct (IH (fun a b Hin => T a b (or_intror Hin)) R2 (Y ++ [TAsk (k, x, zlen (slice c (k * PL + x) y)) QDone]) (F ++ [Some None]) w1 ts1 (mk_piece k x (slice c (k * PL + x) y)) w' ts' Sh1) as (m0' & Y' & F' & tr & A & D' & G); [apply Forall_app; split; [exact D|constructor; [eexists; reflexivity|constructor]]|exact O1|].
    exists m0', Y', F', ([KSent (mk_request k x y); KRecv (mk_piece k x (slice c (k * PL + x) y))] ++ tr). split; [cbn [app]; constructor; [exact Hk|exact (T x y (or_introl eq_refl))|exact A]|]. split; [exact D'|].
    eapply viae; [|exact G]. destruct (block_comes E u g X f k x (slice c (k * PL + x) y) (map (fun xy => (k, fst xy, snd xy)) blocks) Y F (t_bitfield (w_mem w)) w ts w1 ts1 m m0 (sh_inv _ _ Sh) eq_refl) as [G1 _]; [|exact D|exact X1|].
    + unfold on_wire. cbn. assert (piece_size (c_info cfg) k <= PL) by (unfold piece_size; lia). lia.
    + rewrite L in G1 |- *. exact G1.
Qed.
Lemma has_member b k : member b k -> bf_has b k = Some true.
Proof.
  intros M. assert (R : 0 <= k < 8 * zlen b). { destruct M as (P & x & N & _). split; [exact P|]. apply nth_error_Some_lt in N. unfold zlen. pose proof (Z.div_mod k 8 ltac:(lia)). pose proof (Z.mod_pos_bound k 8 ltac:(lia)). lia. }
  destruct (bf_has_spec b k R) as (h & E & Q). rewrite E. f_equal. now apply Q.
Qed.
Hypothesis all : forall k, member bits k <-> 0 <= k < n.
Notation bw w := (t_bitfield (w_mem w)).
Notation ready_at D X F w ts m := (cl q (hd HReceive :: D ++ [TRequester 0 RLock]) None (reg_at H [0%nat] []) (bw w) (Running w ts) [] [(0%nat, m)] (conn_at false int None [] F (TServe CRead :: X)) []).
Lemma round D X F w ts m k0 : SH w ts -> idle ts -> 0 <= k0 < n -> ~ member (bw w) k0 ->
  exists i D' X' F' w' ts' m' tr, SH w' ts' /\ idle ts' /\ answers tr /\ 0 <= i < n /\ ~ member (bw w) i /\ member (bw w') i /\ (forall k, member (bw w) k -> member (bw w') k) /\ (forall k, 0 <= k < n -> k <> i -> member (bw w') k -> member (bw w) k) /\
    StorageFsProofs.ext cfg (w_fs w) (w_fs w') /\ on_disk cfg (w_fs w') i = Some (slice c (i * PL) (piece_size (c_info cfg) i)) /\
    goes (ready_at D X F w ts m) (ready_at D' X' F' w' ts' m') tr.
Proof using All.
  intros Sh Id Hk0 M0. destruct (picks (hd HReceive :: D) (bw w) (Running w ts) [(0%nat, m)] (conn_at false int None [] F (TServe CRead :: X)) k0) as (i & Mi & Ni & G1); [now apply all|exact M0|]. apply all in Mi.
  assert (PLb : get_piece_length (c_info cfg) i <= 2 ^ 63 - 16384) by (destruct (StorageFsProofs.piece_size_eq cfg ok _ Mi) as [PQ PR]; rewrite PQ; lia).
  destruct (DownloadStoreProofs.piece_run sha1 cfg env ok W FF c Wc f tick ls0 d t es0 w0 es1 U Rm E0 E1 w ts i Sh Id Mi Ni PLb) as (blocks & w1 & ts1 & PR & T & RC & O & Sh1 & Id1 & X1 & OD & Mi1 & Oth & w2 & ts2 & XW & Sh2 & Id2 & X2).
  inversion O; subst. match goal with E2 : StorageSys.execs _ _ _ (Running w ts) _ = Some _ |- _ => rename E2 into XR end. match goal with O2 : one_by_one _ _ _ p _ _ _ |- _ => rename O2 into OP end.
  destruct (DownloadStoreProofs.sh_call sha1 cfg env ok W FF c Wc f tick ls0 d t es0 w0 es1 U Rm E0 E1 w ts (CReset i) _ _ _ Sh I XR) as (wr & tsr & -> & Shr & _).
  set (P1 := (hd HReceive :: D) ++ [TDone]) in *. set (K0 := conn_at false int None [] F (TServe CRead :: X)) in *.
  destruct (resets f P1 i (bw w) w ts [(0%nat, m)] m0 K0 wr tsr (sh_inv _ _ Sh) XR) as (G2 & B2 & _).
  set (L := map (fun xy => (i, fst xy, snd xy)) blocks).
  assert (G3 : goes (cl q (P1 ++ [TPiece 0 i PRun]) None (reg_at H [0%nat] [(i, 0%nat)]) (bw w) (Running wr tsr) [(List.length P1, JReset)] [(0%nat, m)] K0 [])
    (cl q (P1 ++ [TPiece 0 i PRun]) None (reg_at H [0%nat] [(i, 0%nat)]) (bw w) (Running wr tsr) [(List.length P1, JReset)] [(0%nat, m)] (conn_at false int None [] F (pulling CRead X L (@nil kthread))) [(List.length P1, (0%nat, S (List.length X)))]) []).
  { go4 (List.length P1) (KPull L) [KPulled (S (List.length X)) L]; [apply nth_mid|reflexivity| |reflexivity|reflexivity|reflexivity|reflexivity]. cbn [conn_call]. rewrite mget_one, PR. reflexivity. }
  rewrite <- B2 in G3 at 2.
  destruct (pulls ((D ++ [TDone]) ++ [TPiece 0 i PRun]) (List.length (D ++ [TDone])) (reg_at H [0%nat] [(i, 0%nat)]) X i blocks Mi T RC [] F wr tsr m w1 ts1 Shr (Forall_nil _) OP) as (m1 & Y & F1 & tr & A & AD & G4).
  assert (G5 : goes (cl q (P1 ++ [TPiece 0 i PRun]) None (reg_at H [0%nat] [(i, 0%nat)]) (bw w1) (Running w1 ts1) [(List.length P1, JReset)] [(0%nat, m1)] (conn_at false int None [] F1 (pulling CRead X [] Y)) [(List.length P1, (0%nat, S (List.length X)))])
    (cl q (P1 ++ [TPiece 0 i PRun]) None (reg_at H [0%nat] [(i, 0%nat)]) (bw w1) (Running w1 ts1) [(List.length P1, JReset)] [(0%nat, m1)] (conn_at false int None [] F1 (TServe CRead :: X ++ TOver :: Y)) [(List.length P1, (0%nat, S (List.length X)))]) []).
  { go3 (S (List.length X)) KOk [KPullEnd (S (List.length X))]; [apply nth_mid1|reflexivity| |reflexivity|reflexivity]. unfold kexec. cbn [conn_at k_crashed k_threads]. rewrite nth_mid1. cbn [step_pull].
    assert (R : running (conn_at false int None [] F1 (pulling CRead X [] Y)) (seq (S (S (List.length X))) (List.length Y)) = []).
    { replace (S (S (List.length X))) with (List.length (TServe CRead :: X ++ [TPull [] (seq (S (S (List.length X))) (List.length Y))])) at 2 by (cbn; rewrite app_length; cbn; lia).
      replace (pulling CRead X [] Y) with ((TServe CRead :: X ++ [TPull [] (seq (S (S (List.length X))) (List.length Y))]) ++ Y) by (cbn; now rewrite <- app_assoc). now apply kids_done. }
    unfold conn_at in R |- *. rewrite R. unfold kgoto, set_kthreads. cbn -[app list_set seq]. rewrite set_mid1. reflexivity. }
  destruct (shares f P1 i (bw w1) w1 ts1 [(0%nat, m1)] 2 w2 ts2 F1 (TServe CRead :: X ++ TOver :: Y) (S (List.length X)) (sh_inv _ _ Sh1) (nth_mid1 _ _ _ _) (has_member _ _ Mi1) eq_refl XW) as (G6 & B6 & _).
  exists i, ((D ++ [TDone]) ++ [TDone]), ((X ++ TOver :: Y) ++ [TOver]), F1, w2, ts2, m1, (tr ++ [KSent (mk_have i)]).
  split; [exact Sh2|]. split; [exact Id2|]. split; [apply answers_app; [exact A|constructor; [exact Mi|constructor]]|]. split; [exact Mi|]. split; [exact Ni|]. 
  assert (XX : StorageFsProofs.ext cfg (w_fs w) (w_fs w2)) by (eapply StorageFsProofs.ext_trans; eassumption).
  split; [rewrite B6; exact Mi1|]. split; [|split; [rewrite B6; exact Oth|split; [exact XX|split; [apply X2; assumption|]]]].
  { intros k. apply (DownloadStoreProofs.ext_bits sha1 cfg env ok W FF c Wc f tick ls0 d t es0 w0 es1 U Rm E0 E1 w ts w2 ts2 k Sh Sh2 XX). }
  eapply via; [exact G1|]. eapply via; [exact G2|]. eapply via; [exact G3|]. eapply viae; [exact G4|]. eapply via; [exact G5|]. rewrite B6. eapply goes_eq; [|]. 2:{ replace (hd HReceive :: ((D ++ [TDone]) ++ [TDone]) ++ [TRequester 0 RLock]) with (P1 ++ [TDone; TRequester 0 RLock]) by (unfold P1; cbn; now rewrite <- !app_assoc). exact G6. } reflexivity.
Qed.
Lemma rounds N : forall todo D X F w ts m, (List.length todo <= N)%nat -> SH w ts -> idle ts -> (forall k, 0 <= k < n -> member (bw w) k \/ In k todo) ->
  exists D' X' F' w' ts' m' tr, SH w' ts' /\ answers tr /\ (forall k, 0 <= k < n -> member (bw w') k) /\ StorageFsProofs.ext cfg (w_fs w) (w_fs w') /\
    (forall k, 0 <= k < n -> ~ member (bw w) k -> on_disk cfg (w_fs w') k = Some (slice c (k * PL) (piece_size (c_info cfg) k))) /\
    goes (ready_at D X F w ts m) (ready_at D' X' F' w' ts' m') tr.
Proof using All.
  assert (dec : forall w ts, SH w ts -> forall k, 0 <= k < n -> member (bw w) k \/ ~ member (bw w) k).
  { intros w ts Sh k Hk. destruct (sh_inv _ _ Sh) as (_ & (MI & _) & _). destruct MI as (_ & _ & _ & _ & ML & _). destruct (bf_has_spec (bw w) k) as ([] & _ & Q); [lia|left; now apply Q|right; rewrite <- Q; discriminate]. }
  assert (fin : forall w ts todo, SH w ts -> (forall k, 0 <= k < n -> member (bw w) k \/ In k todo) -> (forall k, 0 <= k < n -> member (bw w) k) \/ exists k, 0 <= k < n /\ ~ member (bw w) k).
  { intros w ts todo Sh. induction todo as [|x todo IH]; intros A; [left; intros k Hk; destruct (A k Hk) as [?|[]]; assumption|].
    destruct (Z_le_dec 0 x) as [L1|L1]; [destruct (Z_lt_dec x n) as [L2|L2]|].
    - destruct (dec _ _ Sh x (conj L1 L2)) as [M|M]; [|right; eauto]. apply IH. intros k Hk. destruct (A k Hk) as [?|[->|?]]; auto.
    - apply IH. intros k Hk. destruct (A k Hk) as [?|[->|?]]; [auto|lia|auto].
    - apply IH. intros k Hk. destruct (A k Hk) as [?|[->|?]]; [auto|lia|auto]. }
  induction N as [|N IH]; intros todo D X F w ts m LN Sh Id A.
  - destruct todo; [|cbn in LN; lia]. exists D, X, F, w, ts, m, []. split; [exact Sh|]. split; [apply answers_nil|]. split; [intros k Hk; destruct (A k Hk) as [?|[]]; assumption|]. split; [apply StorageFsProofs.ext_refl|].
    split; [intros k Hk M; destruct (A k Hk) as [?|[]]; contradiction|apply goes_refl].
  - destruct (fin _ _ _ Sh A) as [Al|(k0 & Hk0 & M0)].
    + exists D, X, F, w, ts, m, []. split; [exact Sh|]. split; [apply answers_nil|]. split; [exact Al|]. split; [apply StorageFsProofs.ext_refl|]. split; [intros k Hk M; exfalso; auto|apply goes_refl].
    + destruct (round D X F w ts m k0 Sh Id Hk0 M0) as (i & D1 & X1 & F1 & w1 & ts1 & m1 & t1 & Sh1 & Id1 & A1 & Hi & Ni & Mi & Mo & Oi & Ex & Od & G).
      destruct (IH (List.remove Z.eq_dec i todo) D1 X1 F1 w1 ts1 m1) as (D2 & X2 & F2 & w2 & ts2 & m2 & t2 & Sh2 & A2 & Al & Ex2 & Od2 & G2); [|exact Sh1|exact Id1| |].
      * destruct (A i Hi) as [?|Ti]; [contradiction|]. pose proof (remove_length_lt Z.eq_dec todo i Ti). lia.
      * intros k Hk. destruct (Z.eq_dec k i) as [->|NE]; [auto|]. destruct (A k Hk) as [?|T]; [auto|]. right. now apply in_in_remove.
      * exists D2, X2, F2, w2, ts2, m2, (t1 ++ t2). split; [exact Sh2|]. split; [now apply answers_app|]. split; [exact Al|]. split; [eapply StorageFsProofs.ext_trans; eassumption|]. split; [|eapply viae; eassumption].
        intros k Hk M. destruct (dec _ _ Sh1 k Hk) as [M1|M1]; [|now apply Od2]. destruct (Z.eq_dec k i) as [->|NE]; [now apply Ex2|]. elim M. now apply Oi.
Qed.
End Round.
End Down.
