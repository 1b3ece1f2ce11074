(** The byte counters of the server (server.go:37-38, 336-342; peer.go:255-256, 272-275),
    on top of the whole program (Node.v).

    The counters are atomic.Int64: Add wraps around.  They are changed by the goroutine that
    got the result of its call, after that; here in the same step.  The counters each Peer
    keeps for itself (peer.go:31-32) are never read and are left out. *)
From Verif Require Import GoBase GoMap PeerWire Metainfo Fs Storage StorageSpec StorageCountSpec Node NodeSpec MetainfoSpec Bitfield StorageSysSpec.
From Verif Require P2PServer StorageSys.

Record counters := { k_up : Z; k_down : Z }.
(** HandleRequest, after the block [d] was written to the peer (peer.go:251-256). *)
Definition add_up (d : bytes) (k : counters) : counters := {| k_up := wrap_s 64 (k_up k + zlen d); k_down := k_down k |}.
(** What goroutine [th] adds when the call [c] returned [r]: HandlePiece, if PutBlock
    returned nil (268-275). *)
Definition add_down (th : option P2PServer.thread) (c : StorageSys.call) (r : StorageSys.result) (k : counters) : counters :=
  match th, c, r with
  | Some (P2PServer.THandler _ (P2PServer.HPiece _)), StorageSys.CPut _ _ d, StorageSys.RNil =>
      {| k_up := k_up k; k_down := wrap_s 64 (k_down k + zlen d) |}
  | _, _, _ => k
  end.

Section Count.
Variable sha1 : bytes -> bytes.
Variable cfg : config.
Variable env : nat -> Fs.choice.
Variable own_hash own_id : bytes.
Variable blank : bytes.

(** The result of the call that goroutine t finishes with this step. *)
Definition returns (n : node) (t : nat) : option (StorageSys.call * StorageSys.result) :=
  match mget Nat.eqb t (n_jobs n) with
  | Some (JCall j) => match StorageSys.exec sha1 cfg env (n_sto n) (StorageSys.LStep j) with
                      | Some (StorageSys.Running _ _, StorageSys.Ret c r :: _) => Some (c, r)
                      | _ => None
                      end
  | _ => None
  end.
Definition cexec (n : node) (k : counters) (a : naction) : option (node * counters * list nevent) :=
  match nexec sha1 cfg env own_hash own_id blank n a with
  | Some (n', ev) =>
      Some (n', match a with
                | NStep t => match returns n t with
                             | Some (c, r) => add_down (nth_error (P2PServer.s_threads (n_srv n)) t) c r k
                             | None => k
                             end
                | NWrite t true => match mget Nat.eqb t (n_jobs n) with Some (JBlock d) => add_up d k | _ => k end
                | _ => k
                end, ev)
  | None => None
  end.
Fixpoint cruns (n : node) (k : counters) (l : list naction) : option (node * counters * list nevent) :=
  match l with
  | [] => Some (n, k, [])
  | a :: l' => match cexec n k a with
               | Some (n1, k1, e1) => match cruns n1 k1 l' with Some (n2, k2, e2) => Some (n2, k2, e1 ++ e2) | None => None end
               | None => None
               end
  end.
End Count.
