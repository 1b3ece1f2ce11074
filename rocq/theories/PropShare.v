(** C88, C89: what follows when a request for a piece returns. *)
From Verif Require Import GoBase GoMap Bitfield BitfieldSpec PeerWire Metainfo MetainfoSpec NetIP P2PPeer P2PServer P2PServerSpec P2PHaveSpec Fs Storage StorageSpec StorageSysSpec Node NodeSpec.
From Verif Require P2PHaveProofs NodeWaitProofs PropServer PropNode PropStorage.
Import StorageSys.

(** ** C88 *)
(** When a piece was fetched (a request for it has returned nil), no HAVE of it failed and
    none is still to be sent, then every connected peer has been told of it. *)
Theorem C88_told_partial :
  forall hash id n have l s ev i p, run_of hash id n have l s ev -> fetched hash id n have l i -> ~ unsent hash id n have l i ->
  (forall t, ~ announcing s t i) -> joined s ev p -> told ev p i.
Proof. exact P2PHaveProofs.all_told. Qed.
Print Assumptions C88_told_partial.
(** The announcing ends: the goroutine that does it can come to its end by steps of its own,
    once the server's lock is free; without a failure, unless the connection it is just going
    to write to has been closed since it was found open. *)
Theorem C88_finishes :
  forall hash id n have l s ev t i, run_of hash id n have l s ev -> s_crashed s = false -> s_mu s = None -> announcing s t i ->
  exists l' s' ev', (forall a, In a l' -> turn_of t a /\ (a = AGo t CErr -> too_late s t i)) /\ goes_on hash id n s l' s' ev' /\ ~ announcing s' t i.
Proof. exact P2PHaveProofs.can_finish. Qed.
Print Assumptions C88_finishes.
(** In the whole program: when the storage reports to the requesting goroutine that the piece is
    complete, that goroutine begins to announce it. *)
Theorem C88_begins :
  forall sha1 cfg env hash id, config_ok cfg -> forall f l n ev blank t n' i e, node_run sha1 cfg env hash id f l n ev -> bf_new (num_pieces (c_info cfg)) = Some blank ->
  nexec sha1 cfg env hash id blank n (NStep t) = Some (n', NRet t (CWait i) RNil :: e) -> announcing (n_srv n') t i.
Proof. exact NodeWaitProofs.complete_announces. Qed.
Print Assumptions C88_begins.
(** Peer 0 is asked for piece 0, peer 1 connects, peer 0 sends the piece. *)
Definition ex_asked : list action := PropServer.ex_request ++ AAccept PropServer.ex_ip 2000 :: PropServer.ex_connect 3 PropServer.ex_b.
Definition ex_sent : list action := PropServer.ex_hear 0 (mk_piece 0 0 (bs "ab")) ++ [AGo 0 (CStored true)].
Definition ex_two : list action := ex_asked ++ ex_sent.
Ltac joins k := split; [eexists; vm_compute; k|split; [do 2 eexists; PropServer.among|eexists; split; vm_compute; reflexivity]].
Ltac nobody := let t := fresh in let r := fresh in let X := fresh in let Y := fresh in
  intros t (? & r & X & Y); do 5 (destruct t as [|t]; [vm_compute in X; try discriminate X; injection X as <- <-; destruct Y as [Y|[[? Y]|(? & ? & Y)]]; discriminate Y|]); destruct t; vm_compute in X; discriminate X.
Lemma ex_fetched l2 : fetched PropServer.ex_hash PropServer.ex_self 2 PropServer.ex_none (ex_two ++ AGo 2 COk :: l2) 0.
Proof. exists ex_two, 2%nat, l2. do 3 eexists. split; [reflexivity|]. split; [apply PropServer.ex_runs; vm_compute; reflexivity|vm_compute; reflexivity]. Qed.
Example C88_case : exists l s ev, PropServer.ex_run_of l s ev /\ fetched PropServer.ex_hash PropServer.ex_self 2 PropServer.ex_none l 0 /\
  ~ unsent PropServer.ex_hash PropServer.ex_self 2 PropServer.ex_none l 0 /\ (forall t, ~ announcing s t 0) /\ joined s ev 0 /\ joined s ev 1.
Proof.
  PropServer.run (ex_two ++ AGo 2 COk :: AGo 2 (COrder [0; 1]%nat) :: PropServer.go 2 5). split; [apply ex_fetched|]. split.
  { intros (l1 & t & l2 & ? & ? & ? & ? & ? & E & _). assert (X : In (AGo t CErr) (l1 ++ AGo t CErr :: l2)) by (apply in_or_app; right; now left). rewrite <- E in X. revert X. PropServer.absent. }
  split; [nobody|]. split; joins ltac:(auto).
Qed.
Example C88_finishes_case : exists l s ev, PropServer.ex_run_of l s ev /\ s_crashed s = false /\ s_mu s = None /\ announcing s 2 0 /\ ~ too_late s 2 0 /\ joined s ev 1 /\ ~ In (EvSent 1 (mk_have 0)) ev.
Proof.
  PropServer.run (ex_two ++ [AGo 2 COk]). split; [reflexivity|]. split; [reflexivity|]. split; [do 2 eexists; split; [vm_compute; reflexivity|now left]|]. split; [intros (? & ? & ? & ? & X & _); vm_compute in X; discriminate X|]. split; [joins ltac:(auto)|PropServer.absent].
Qed.
(** What is missing: after one HAVE failed (a peer closed its connection), the peers that
    come after it are not told. *)
Ltac untold := let m := fresh in let X := fresh in let A := fresh in let B := fresh in
  intros (m & X & A); vm_compute in X; repeat (destruct X as [X|X]; [try discriminate X; injection X as <-; unfold announces_piece, member in A; cbn [m_type m_index m_bitfield] in A; destruct A as [[A B]|[A B]]; vm_compute in A; try discriminate A;
    let B1 := fresh in let B2 := fresh in destruct B as (_ & ? & B1 & B2); vm_compute in B1; injection B1 as <-; vm_compute in B2; discriminate B2|]); exact X.
Theorem C88_told_refuted :
  exists l s ev, PropServer.ex_run_of l s ev /\ fetched PropServer.ex_hash PropServer.ex_self 2 PropServer.ex_none l 0 /\
  (forall t, ~ announcing s t 0) /\ joined s ev 1 /\ ~ told ev 1 0.
Proof.
  PropServer.run (ex_two ++ AGo 2 COk :: [AGo 2 (COrder [0; 1]%nat); AGo 2 COk; AGo 2 CErr]). split; [apply ex_fetched|]. split; [nobody|]. split; [joins ltac:(auto)|].
  untold.
Qed.
Print Assumptions C88_told_refuted.
(** A piece that arrives only after the request for it has failed is stored, and nobody is
    told. *)
Theorem C88_late_piece_refuted :
  exists l s ev, PropServer.ex_run_of l s ev /\ In (EvStored 0) ev /\ (forall t, ~ announcing s t 0) /\ joined s ev 1 /\ ~ told ev 1 0 /\ piece_outstanding 0 ev = 0.
Proof.
  PropServer.run (ex_asked ++ [AGo 2 CErr] ++ ex_sent). split; [PropServer.among|]. split; [nobody|]. split; [joins ltac:(auto)|]. split; [untold|reflexivity].
Qed.
Print Assumptions C88_late_piece_refuted.

(** ** C89 *)
(** When the storage reports to a requesting goroutine that the piece failed its check, then
    the piece had been requested of some peer, and that peer has been blocked since, or
    blocking it is the next step of that goroutine, for which it needs the server's lock only. *)
Theorem C89_failed_piece_blocks :
  forall sha1 cfg env hash id, config_ok cfg -> forall f l n ev ev1 t i x g h ev2, node_run sha1 cfg env hash id f l n ev ->
  ev = ev1 ++ NRet t (CWait i) (RErr (EChecksum x g h)) :: ev2 ->
  exists p, In (NEv (EvRequest p i)) ev1 /\ (In (NEv (EvBlocked p)) ev2 \/
   (crashed n = false -> s_mu (n_srv n) = None -> exists n', node_run sha1 cfg env hash id f (l ++ [NServer (AGo t COk)]) n' (ev ++ [NEv (EvBlocked p)]))).
Proof. exact NodeWaitProofs.failed_blocks. Qed.
Print Assumptions C89_failed_piece_blocks.
Example C89_case : exists l n ev, PropNode.ex_run_of l n ev /\ In (NRet 2 (CWait 0) (RErr (EChecksum 0 (bs "xy") (bs "ab")))) ev /\ ~ In (NEv (EvBlocked 0)) ev /\ crashed n = false /\ s_mu (n_srv n) = None.
Proof.
  PropNode.run (removelast PropNode.ex_corrupt). split; [PropNode.among|]. split; [PropNode.absent|]. split; reflexivity.
Qed.
