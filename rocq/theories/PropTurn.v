(** C132: requests are answered in turn, each at most once.

    [krun_of l s ev] is a history of a connection (PropConn.v); [requests], [answers],
    [asked_for] and [given] are in P2PTurnSpec.v. *)
From Verif Require Import GoBase GoMap PeerWire P2PConn P2PConnSpec P2PTurnSpec P2PTurnProofs.
From Verif Require PropConn.

(** The answers (a PIECE, or nothing after a CANCEL) are for the requests, in the order in
    which they came; at most the last request has not been answered. *)
Theorem C132_answered_in_order : forall l s ev,
  krun_of l s ev -> exists p, (List.length p <= 1)%nat /\ requests ev = answers ev ++ p.
Proof. exact answered_in_order. Qed.
Print Assumptions C132_answered_in_order.
(** Before the next message is received, everything before it has been answered. *)
Theorem C132_answered_before_the_next : forall l s e1 m e2,
  krun_of l s (e1 ++ KRecv m :: e2) -> requests e1 = answers e1.
Proof. exact answered_before_next. Qed.
Print Assumptions C132_answered_before_the_next.
(** So a block is never sent more often than it was asked for. *)
Theorem C132_never_more_than_asked : forall l s ev p,
  krun_of l s ev -> given p ev <= asked_for p ev.
Proof. exact never_more. Qed.
Print Assumptions C132_never_more_than_asked.
(** Two requests for a block: the first is answered, the second dropped. *)
Example C132_case : exists s e1 m e2,
  krun_of PropConn.cx_stale_cancel s (e1 ++ KRecv m :: e2) /\ requests e1 = [(3, 0)] /\ answers e1 = [(3, 0)] /\
  requests (e1 ++ KRecv m :: e2) = [(3, 0); (3, 0)] /\ answers (e1 ++ KRecv m :: e2) = [(3, 0); (3, 0)] /\
  given (3, 0) (e1 ++ KRecv m :: e2) = 1 /\ asked_for (3, 0) (e1 ++ KRecv m :: e2) = 2.
Proof.
  eexists. exists [KChange FUnchoke; KSent (mk_plain UNCHOKE); KRecv (request_for PropConn.cx_block); KHandled (request_for PropConn.cx_block); KLooked PropConn.cx_block; KSent (mk_piece 3 0 PropConn.cx_data)],
    PropConn.cx_cancel, [KHandled PropConn.cx_cancel; KRecv (request_for PropConn.cx_block); KHandled (request_for PropConn.cx_block); KSuppressed PropConn.cx_block].
  split; [unfold krun_of; vm_compute; reflexivity|]. repeat split; vm_compute; reflexivity.
Qed.
(** A request that is being answered. *)
Example C132_pending_case : exists l s ev,
  krun_of l s ev /\ requests ev = [(3, 0)] /\ answers ev = [].
Proof.
  exists (PropConn.cx_flag 1 FUnchoke ++ PropConn.cx_hear (request_for PropConn.cx_block)). eexists. eexists.
  split; [unfold krun_of; vm_compute; reflexivity|]. split; vm_compute; reflexivity.
Qed.
