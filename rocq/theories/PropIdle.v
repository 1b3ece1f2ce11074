(** C134: a peer is left idle only if others fetch what it has. *)
From Verif Require Import GoBase GoBaseProofs Bitfield BitfieldSpec GoMap PeerWire PeerWireSpec NetIP Tracker P2PPeer P2PServer P2PServerSpec PropServer P2PIdleSpec P2PIdleProofs.

(** False as stated (below).  What holds: when the server leaves a peer alone although it could be asked, then for every piece the
    peer had and the server missed when it last looked, some goroutine was at work on this
    piece at a moment since.  While it looked the server held its lock, so nothing else was
    decided meanwhile. *)
Theorem C134_left_idle_only_if_taken_partial :
  forall hash id n have l s ev p, run_of hash id n have l s ev -> leaves_idle p s ->
  exists l0 l1 s0 f e1 q, l = l0 ++ l1 /\ run_of hash id n have l0 s0 (f ++ [EvLooked p]) /\ ev = (f ++ [EvLooked p]) ++ e1 /\ (forall x, In x e1 -> needs_lock x = false) /\
    nth_error (s_peers s0) p = Some q /\ forall i, member (q_bits q) i -> ~ stored_in have f i -> fetched_between hash id n have l0 l i.
Proof. exact idle_taken. Qed.
Print Assumptions C134_left_idle_only_if_taken_partial.
Definition ex_second : list action := AAccept ex_ip 2000 :: ex_connect 3 ex_b ++ ex_hear 3 (mk_have 0) ++ go 3 6 ++ ex_hear 3 (mk_plain UNCHOKE) ++ go 3 2.
(** Piece 0 is fetched from the first peer; the second one, which has it too, is left idle. *)
Definition ex_idle : list action := ex_request ++ ex_second ++ [AGo 4 COk; AGo 4 (CSort [] []); AGo 4 COk].
Example C134_case : exists l s ev, ex_run_of l s ev /\ leaves_idle 1 s /\ fetching 0 s /\ exists q, nth_error (s_peers s) 1 = Some q /\ member (q_bits q) 0 /\ ~ stored_in ex_none ev 0.
Proof.
  run ex_idle. split; [among|]. split; [exists 0%nat, PRun; among|]. eexists. split; [vm_compute; reflexivity|]. split; [split; [lia|]; eexists; split; vm_compute; reflexivity|].
  intros [[_ [x [X Y]]]|X]; [vm_compute in X; injection X as <-; vm_compute in Y; discriminate Y|revert X; absent].
Qed.
(** "Since" cannot be left out: the first peer may give up in the meantime (it does so
    without the lock), and then nobody is at work on the piece when the second is left idle. *)
Theorem C134_taken_at_the_time_refuted : exists l s ev, ex_run_of l s ev /\ leaves_idle 1 s /\ ~ fetching 0 s /\ exists q, nth_error (s_peers s) 1 = Some q /\ member (q_bits q) 0 /\ ~ stored_in ex_none ev 0.
Proof.
  run (ex_idle ++ [AGo 2 CErr; AGo 2 COk; AGo 2 COk]). split; [among|].
  split; [intros (p & r & X); revert X; absent|]. eexists. split; [vm_compute; reflexivity|]. split; [split; [lia|]; eexists; split; vm_compute; reflexivity|].
  intros [[_ [x [X Y]]]|X]; [vm_compute in X; injection X as <-; vm_compute in Y; discriminate Y|revert X; absent].
Qed.
Print Assumptions C134_taken_at_the_time_refuted.
