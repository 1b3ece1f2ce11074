(** C90-C92: locks and tables, one writer, unchoking. *)
From Verif Require Import GoBase GoMap PeerWire NetIP Tracker P2PPeer P2PServer P2PServerSpec P2PConn P2PConnSpec P2PRaceSpec P2PUnchokeSpec.
From Verif Require P2PRaceProofs P2PUnchokeProofs PropServer.

(** ** C90 *)
(** While one goroutine holds the server's lock, the steps of all others neither change the
    server's tables nor depend on them, except that a finished request is taken out of
    inflight. *)
Theorem C90_server_tables_partial :
  forall hash id n have l s ev u a s' e, run_of hash id n have l s ev -> s_mu s = Some u -> ~ turn_of u a -> goes_on hash id n s [a] s' e ->
  leaves_tables hash id n s a s' e \/ exists i, ends_request hash id n s a s' e i.
Proof. exact P2PRaceProofs.locked. Qed.
Print Assumptions C90_server_tables_partial.
(** The tables of a connection: no exception. *)
Theorem C90_peer_tables :
  forall l s ev u a s' e, krun_of l s ev -> k_mu s = Some u -> (forall c, a <> KGo u c) -> kgoes_on s [a] s' e -> kleaves_tables s a s' e.
Proof. exact P2PRaceProofs.klocked. Qed.
Print Assumptions C90_peer_tables.
(** What is missing: two goroutines can be about to write to inflight at the same time, one
    with the lock and one without.  (Go aborts a program that it catches writing to a map
    twice at the same time.)  Here a peer has two pieces; the request for the first has
    ended, the peer has been handed on, and before the first request is taken out of inflight
    the second is entered. *)
Definition ex_two_pieces : list action :=
  AAccept PropServer.ex_ip 1000 :: PropServer.ex_connect 0 PropServer.ex_a ++ PropServer.ex_say 0 0 6 ++ PropServer.ex_say 0 1 5 ++
  PropServer.ex_hear 0 (mk_plain UNCHOKE) ++ PropServer.go 0 2 ++ [AGo 1 COk; AGo 1 (CSort [] []); AGo 1 COk] ++
  [AGo 2 CErr; AGo 2 COk; AGo 3 COk; AGo 3 (CSort [] []); AGo 3 COk].
Theorem C90_inflight_refuted :
  exists l s ev, PropServer.ex_run_of l s ev /\ s_mu s = Some 3%nat /\ s_crashed s = false /\
  writes_inflight PropServer.ex_hash PropServer.ex_self 2 s 2 /\ writes_inflight PropServer.ex_hash PropServer.ex_self 2 s 3.
Proof.
  PropServer.run ex_two_pieces. split; [reflexivity|]. split; [reflexivity|].
  split; exists COk; do 2 eexists; (split; [exists PropServer.ex_none; split; [reflexivity|vm_compute; reflexivity]|vm_compute; discriminate]).
Qed.
Print Assumptions C90_inflight_refuted.
(** A message comes while a requester holds the lock; a CHOKE is called for while a message is
    being written. *)
Example C90_case : exists l s ev s' e, PropServer.ex_run_of l s ev /\ s_mu s = Some 3%nat /\
  goes_on PropServer.ex_hash PropServer.ex_self 2 s [AGo 0 (CMsg (mk_have 1))] s' e /\ e = [EvReceived 0 (mk_have 1)].
Proof.
  exists (ex_two_pieces ++ [AGo 0 COk]). do 4 eexists. split; [apply PropServer.ex_runs; vm_compute; reflexivity|]. split; [reflexivity|].
  split; [exists PropServer.ex_none; split; [reflexivity|vm_compute; reflexivity]|reflexivity].
Qed.
Definition ex_writing : list kaction := [KFlag FUnchoke; KGo 1 KOk; KGo 1 KOk; KFlag FChoke].
Example C90_peer_case : exists l s ev s' e, krun_of l s ev /\ k_mu s = Some 1%nat /\ kgoes_on s [KGo 2 KOk] s' e /\ e = [KChange FChoke].
Proof. exists ex_writing. do 4 eexists. split; [unfold krun_of; vm_compute; reflexivity|]. split; [reflexivity|]. split; [unfold kgoes_on; vm_compute; reflexivity|reflexivity]. Qed.

(** ** C91 *)
(** Messages are written to a connection one after the other: in no reachable state are two
    goroutines writing. *)
Theorem C91_one_writer : forall l s ev t u, krun_of l s ev -> kwrites s t -> kwrites s u -> t = u.
Proof. exact P2PRaceProofs.one_writer. Qed.
Print Assumptions C91_one_writer.
Example C91_case : exists l s ev, krun_of l s ev /\ kwrites s 1 /\ nth_error (k_threads s) 2 = Some (TFlag FChoke (Some SLock)).
Proof.
  exists (ex_writing ++ [KGo 2 KOk]). do 2 eexists. split; [unfold krun_of; vm_compute; reflexivity|]. split; [|reflexivity].
  exists KOk. do 3 eexists. split; [unfold kgoes_on; vm_compute; reflexivity|]. left. now left.
Qed.

(** ** C92 *)
(** When the server goes through its peers to unchoke them, it takes care of every peer that
    is connected: the peer has been unchoked already, or a goroutine is started that, when
    it runs, has the peer unchoked; it then sends the UNCHOKE unless another one did. *)
Theorem C92_unchokes_all :
  forall hash id n have l s ev p, run_of hash id n have l s ev -> s_crashed s = false -> s_mu s = None -> connected s p ->
  exists s1, goes_on hash id n s [AUnchoke] s1 [] /\
  (unchoked s p \/ exists t, forall l2 s2 e2, goes_on hash id n s1 l2 s2 e2 -> s_crashed s2 = false -> (forall a, In a l2 -> ~ turn_of t a) ->
   exists s3, goes_on hash id n s2 [AGo t COk] s3 [] /\ unchoked s3 p /\ (unchoked s2 p \/ exists s4, goes_on hash id n s3 [AGo t COk] s4 [EvSent p (mk_plain UNCHOKE)])).
Proof. exact P2PUnchokeProofs.called. Qed.
Print Assumptions C92_unchokes_all.
(** An unchoked peer stays unchoked, and gets at most one UNCHOKE. *)
Theorem C92_stays : forall hash id n have l s ev p l' s' ev', run_of hash id n have l s ev -> unchoked s p -> goes_on hash id n s l' s' ev' -> unchoked s' p.
Proof. exact P2PUnchokeProofs.stays. Qed.
Print Assumptions C92_stays.
Theorem C92_once : forall hash id n have l s ev p, run_of hash id n have l s ev -> 0 <= count (unchokes p) ev <= 1 /\ (count (unchokes p) ev = 1 -> unchoked s p).
Proof. exact P2PUnchokeProofs.once. Qed.
Print Assumptions C92_once.
Definition ex_joined : list action := AAccept PropServer.ex_ip 1000 :: PropServer.ex_connect 0 PropServer.ex_a.
Example C92_case : exists l s ev, PropServer.ex_run_of l s ev /\ s_crashed s = false /\ s_mu s = None /\ connected s 0 /\ ~ unchoked s 0.
Proof.
  PropServer.run ex_joined. split; [reflexivity|]. split; [reflexivity|]. split; [split; [eexists; vm_compute; left; reflexivity|eexists; split; vm_compute; reflexivity]|].
  intros (q & Q & C). vm_compute in Q. injection Q as <-. discriminate C.
Qed.
Example C92_once_case : exists l s ev, PropServer.ex_run_of l s ev /\ count (unchokes 0) ev = 1.
Proof. PropServer.run (ex_joined ++ [AUnchoke; AGo 1 COk; AUnchoke; AGo 1 COk]). reflexivity. Qed.
