(** The whole program: the server (P2PServer.v) together with its storage (StorageSys.v).

    The two models leave open what the other decides: the server's goroutines call
    PutBlock, GetBlock, ResetPiece and Wait with results that are up to the environment,
    the storage gets calls from anywhere.  Here a call of the storage is made by a
    goroutine of the server that has come to it, with the arguments it has; it runs in the
    steps of StorageSys.v, in any order with all others; and its result is what the
    goroutine goes on with.  A panic in a call ends the process.

    One step of a goroutine that got a result covers the return of the call and what the
    goroutine does next in the server; the write of a block to the peer (peer.go:251) is a
    step of its own. *)
From Verif Require Import GoBase GoMap Bitfield PeerWire Metainfo Fs Storage.
From Verif Require P2PServer StorageSys.

(** A goroutine is in a call (the j-th made on this storage), or has returned from
    ResetPiece and asks for blocks (peer.go:283-295), or got a block from GetBlock and sends
    it (251). *)
Inductive job := JCall (j : nat) | JReset | JBlock (d : bytes).
(** [n_msgs]: the message each connection handler received last. *)
Record node := { n_srv : P2PServer.sys; n_sto : StorageSys.proc; n_jobs : list (nat * job); n_msgs : list (nat * message) }.

Inductive naction :=
| NServer (a : P2PServer.action)    (* a step outside storage *)
| NCall (t : nat)                   (* goroutine t of the server makes its call *)
| NStep (t : nat)                   (* ... takes a step in it *)
| NWrite (t : nat) (written : bool). (* the block it found is written, or not *)
Inductive nevent :=
| NEv (e : P2PServer.event)
| NRet (t : nat) (c : StorageSys.call) (r : StorageSys.result)  (* a call returned *)
| NServed (p : nat) (m : message).  (* a PIECE was sent to peer p *)

(** The call goroutine [th] comes to (peer.go:247, 268, 282, 298), after the message [m]. *)
Definition call_of (th : P2PServer.thread) (m : option message) (j : option job) : option StorageSys.call :=
  match th, m, j with
  | P2PServer.THandler _ P2PServer.HRequest, Some m, None => Some (StorageSys.CGet (m_index m) (m_begin m) (m_length m))
  | P2PServer.THandler _ (P2PServer.HPiece _), Some m, None => Some (StorageSys.CPut (m_index m) (m_begin m) (m_piece m))
  | P2PServer.TPiece _ i P2PServer.PRun, _, None => Some (StorageSys.CReset i)
  | P2PServer.TPiece _ i P2PServer.PRun, _, Some JReset => Some (StorageSys.CWait i)
  | _, _, _ => None
  end.
(** What goroutine [th] may do without a call: a REQUEST can be refused or dropped
    (peer.go:235-246), asking for blocks can fail (295-297). *)
Definition without (th : P2PServer.thread) (j : option job) (c : P2PServer.choice) : bool :=
  match th, c, j with
  | P2PServer.THandler _ P2PServer.HRequest, (P2PServer.COk | P2PServer.CErr), None => true
  | P2PServer.THandler _ P2PServer.HRequest, _, _ => false
  | P2PServer.THandler _ (P2PServer.HPiece _), _, _ => false
  | P2PServer.TPiece _ _ P2PServer.PRun, P2PServer.CErr, Some JReset => true
  | P2PServer.TPiece _ _ P2PServer.PRun, _, _ => false
  | _, _, _ => true
  end.
(** Calls after which the goroutine has more to do outside the server: ask for the blocks of
    a piece (283), send a block (251). *)
Definition kept (c : StorageSys.call) (r : StorageSys.result) : option job :=
  match c, r with
  | StorageSys.CReset _, _ => Some JReset
  | StorageSys.CGet _ _ _, StorageSys.RBlock d => Some (JBlock d)
  | _, _ => None
  end.
(** What the goroutine goes on with after another call: [before], [after] are
    Torrent.Bitfield around the last step of the call. *)
Definition answer (c : StorageSys.call) (r : StorageSys.result) (before after : bytes) : P2PServer.choice :=
  match c, r with
  | StorageSys.CGet _ _ _, _ => P2PServer.CErr                                                       (* peer.go:248-250 *)
  | StorageSys.CPut _ _ _, _ =>                                                                      (* 268-277 *)
      if bytes_eqb before after then
        match r with StorageSys.RNil | StorageSys.RErr EBlockExists => P2PServer.COk | _ => P2PServer.CErr end
      else P2PServer.CStored match r with StorageSys.RNil => true | _ => false end
  | _, StorageSys.RNil => P2PServer.COk                                                              (* 298-301, server.go:403-410 *)
  | _, StorageSys.RErr (EChecksum _ _ _) => P2PServer.CBad
  | _, _ => P2PServer.CErr
  end.
Section Node.
Variable sha1 : bytes -> bytes.
Variable cfg : config.
Variable env : nat -> Fs.choice.
Variable own_hash own_id : bytes.
Variable blank : bytes.                 (* bitfield.New(len(Info.Pieces)) *)

Definition bits (p : StorageSys.proc) : bytes := match p with StorageSys.Running w _ => t_bitfield (w_mem w) | StorageSys.Dead _ _ => [] end.
Definition num_calls (p : StorageSys.proc) : nat := match p with StorageSys.Running _ ts => List.length ts | StorageSys.Dead _ _ => O end.
Definition at_call (n : node) (t : nat) : option StorageSys.call :=
  match nth_error (P2PServer.s_threads (n_srv n)) t with
  | Some th => call_of th (mget Nat.eqb t (n_msgs n)) (mget Nat.eqb t (n_jobs n))
  | None => None
  end.
(** The fields of a message are uint32 on the wire (api/peer/peer.go:347-379). *)
Definition on_wire (m : message) : bool :=
  (0 <=? m_index m) && (m_index m <? 2 ^ 32) && (0 <=? m_begin m) && (m_begin m <? 2 ^ 32) && (0 <=? m_length m) && (m_length m <? 2 ^ 32).
Definition free_to (n : node) (a : P2PServer.action) : bool :=
  match a with
  | P2PServer.AGo t c => match nth_error (P2PServer.s_threads (n_srv n)) t with
                         | Some th => without th (mget Nat.eqb t (n_jobs n)) c && match c with P2PServer.CMsg m => on_wire m | _ => true end
                         | None => false
                         end
  | _ => true
  end.
Definition note (a : P2PServer.action) (n : node) : list (nat * message) :=
  match a with P2PServer.AGo t (P2PServer.CMsg m) => mput Nat.eqb t m (n_msgs n) | _ => n_msgs n end.
Definition end_job (a : P2PServer.action) (n : node) : list (nat * job) :=
  match a with P2PServer.AGo t _ => mdel Nat.eqb t (n_jobs n) | _ => n_jobs n end.
(** The server does [a]; the storage is now [sto]. *)
Definition serve (n : node) (sto : StorageSys.proc) (a : P2PServer.action) (ev : list nevent) : option (node * list nevent) :=
  match P2PServer.exec own_hash own_id blank (n_srv n) a with
  | Some (s, e) => Some ({| n_srv := s; n_sto := sto; n_jobs := end_job a n; n_msgs := note a n |}, ev ++ map NEv e)
  | None => None
  end.
Definition nexec (n : node) (a : naction) : option (node * list nevent) :=
  if P2PServer.s_crashed (n_srv n) then None
  else match a with
  | NServer a => if free_to n a then serve n (n_sto n) a [] else None
  | NCall t =>
      match at_call n t with
      | Some c => match StorageSys.exec sha1 cfg env (n_sto n) (StorageSys.LCall c) with
                  | Some (sto, _) => Some ({| n_srv := n_srv n; n_sto := sto; n_jobs := mput Nat.eqb t (JCall (num_calls (n_sto n))) (n_jobs n); n_msgs := n_msgs n |}, [])
                  | None => None
                  end
      | None => None
      end
  | NStep t =>
      match mget Nat.eqb t (n_jobs n) with
      | Some (JCall j) =>
          match StorageSys.exec sha1 cfg env (n_sto n) (StorageSys.LStep j) with
          | Some (StorageSys.Dead f k, _) => serve n (StorageSys.Dead f k) (P2PServer.AGo t P2PServer.CPanic) []
          | Some (sto, []) => Some ({| n_srv := n_srv n; n_sto := sto; n_jobs := n_jobs n; n_msgs := n_msgs n |}, [])
          | Some (sto, StorageSys.Ret c r :: _) =>
              match kept c r with
              | Some jb => Some ({| n_srv := n_srv n; n_sto := sto; n_jobs := mput Nat.eqb t jb (n_jobs n); n_msgs := n_msgs n |}, [NRet t c r])
              | None => serve n sto (P2PServer.AGo t (answer c r (bits (n_sto n)) (bits sto))) [NRet t c r]
              end
          | None => None
          end
      | _ => None
      end
  | NWrite t written =>                       (* peer.go:251-254 *)
      match mget Nat.eqb t (n_jobs n), nth_error (P2PServer.s_threads (n_srv n)) t, mget Nat.eqb t (n_msgs n) with
      | Some (JBlock d), Some (P2PServer.THandler p P2PServer.HRequest), Some m =>
          if written then serve n (n_sto n) (P2PServer.AGo t P2PServer.COk) [NServed p (mk_piece (m_index m) (m_begin m) d)]
          else serve n (n_sto n) (P2PServer.AGo t P2PServer.CErr) []
      | _, _, _ => None
      end
  end.
Fixpoint nruns (n : node) (l : list naction) : option (node * list nevent) :=
  match l with
  | [] => Some (n, [])
  | a :: l' => match nexec n a with
               | Some (n1, e1) => match nruns n1 l' with Some (n2, e2) => Some (n2, e1 ++ e2) | None => None end
               | None => None
               end
  end.
(** Start (server.go:85-106) after a Load that left the storage at [sto]. *)
Definition nstart (sto : StorageSys.proc) : node :=
  {| n_srv := P2PServer.started (bits sto); n_sto := sto; n_jobs := []; n_msgs := [] |}.
End Node.
