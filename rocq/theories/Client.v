(** The client: the server with its storage (Node.v) together with the connections
    (P2PConn.v).

    Node.v leaves open what happens on a connection: whether a message can be written, when a
    message comes, whether the blocks of a piece come.  P2PConn.v leaves open who calls
    Send, Unchoke, NotInterest and requestPiece, and what the server and the storage answer.
    Here every peer of the server has its connection, and each decides what the other leaves
    open: a goroutine of the server that comes to a Send, Unchoke, NotInterest or requestPiece
    makes the call on the connection ([UCall]); the goroutine that runs serve is the same in
    both; what one side does that the other one sees is one step of both ([UNode] with
    [With]); everything else is a step of one of them.  The remote decides what is read from
    the connections. *)
From Verif Require Import GoBase GoMap Bitfield PeerWire Metainfo Storage Requests Node P2PConn.
From Verif Require P2PServer StorageSys.

(** [u_conns]: the connection of each peer, in the order of [s_peers]; [u_calls]: goroutines of
    the server that are in a call on a connection (which peer, which goroutine of P2PConn.v);
    [u_errs]: calls of requestPiece whose errgroup has an error (peer.go:282, 294). *)
Record client := {
  u_node : node;
  u_conns : list kstate;
  u_calls : list (nat * (nat * nat));
  u_errs : list (nat * nat) }.
Inductive uaction :=
| UNode (a : naction)                     (* the server or its storage *)
| UCall (t : nat)                         (* goroutine t of the server makes its call on a connection *)
| UConn (p k : nat) (c : kchoice).        (* goroutine k of the connection of peer p *)
Inductive uevent := UN (e : nevent) | UK (p : nat) (e : kevent).

Definition srv (c : client) : P2PServer.sys := n_srv (u_node c).
Definition thread_of (c : client) (t : nat) : option P2PServer.thread := nth_error (P2PServer.s_threads (srv c)) t.
Definition job_of (c : client) (t : nat) : option job := mget Nat.eqb t (n_jobs (u_node c)).
(** Where the goroutine that runs serve is in the connection of p. *)
Definition serve_at (c : client) (p : nat) : option P2PConn.hpc :=
  match nth_error (u_conns c) p with
  | Some K => match nth_error (k_threads K) 0 with Some (TServe h) => Some h | _ => None end
  | None => None
  end.
(** ... and in the server. *)
Definition handler_at (c : client) (p : nat) (h : P2PServer.hpc -> bool) : bool :=
  existsb (fun th => match th with P2PServer.THandler q h' => Nat.eqb p q && h h' | _ => false end) (P2PServer.s_threads (srv c)).
Definition receiving (h : P2PServer.hpc) : bool := match h with P2PServer.HReceive => true | _ => false end.
(** Equality of messages. *)
Definition msg_eqb (a b : message) : bool :=
  (m_type a =? m_type b) && (m_index a =? m_index b) && (m_begin a =? m_begin b) && (m_length a =? m_length b) &&
  bytes_eqb (m_bitfield a) (m_bitfield b) && bytes_eqb (m_piece a) (m_piece b).

(** What the connections have to do with a step of the server: nothing; goroutine k of the
    connection of p takes a step with it; or the connection is not there yet. *)
Inductive beside := Alone | With (p k : nat) (c : kchoice) | Never.
(** The goroutine that t called, if it is where [f] says. *)
Definition called (c : client) (t : nat) (f : kthread -> option kchoice) : beside :=
  match mget Nat.eqb t (u_calls c) with
  | Some (p, k) =>
      match nth_error (u_conns c) p with
      | Some K => match nth_error (k_threads K) k with
                  | Some th => match f th with Some ch => With p k ch | None => Never end
                  | None => Never
                  end
      | None => Never
      end
  | None => Never
  end.
Definition result_of (ch : P2PServer.choice) : option kchoice :=
  match ch with P2PServer.COk => Some KOk | P2PServer.CErr => Some KErr | _ => None end.
(** requestPiece (peer.go:279-302): eg.Wait has returned, with an error or not. *)
Definition pull_over (c : client) (t : nat) (failed : bool) : bool :=
  match mget Nat.eqb t (u_calls c) with
  | Some (p, k) =>
      match nth_error (u_conns c) p with
      | Some K => match nth_error (k_threads K) k with
                  | Some TOver => Bool.eqb failed (existsb (fun x => Nat.eqb p (fst x) && Nat.eqb k (snd x)) (u_errs c))
                  | _ => false
                  end
      | None => false
      end
  | None => false
  end.
(** Goroutine [th] of the server takes a step with the choice [ch]. *)
Definition beside_server (c : client) (t : nat) (th : P2PServer.thread) (ch : P2PServer.choice) : beside :=
  match th with
  | P2PServer.THandler p h =>
      match h with
      | P2PServer.HBitfield =>                  (* server.go:302 *)
          called c t (fun x => match x, ch with
                               | TSend _ SWrite, P2PServer.COk => Some (KMsg (mk_bitfield (P2PServer.s_have (srv c))))
                               | TSend _ SWrite, P2PServer.CErr => Some KErr
                               | _, _ => None
                               end)
      | P2PServer.HReceive =>                   (* peer.go:183, 188 *)
          match serve_at c p, ch with
          | Some CRead, P2PServer.CErr => With p 0 KErr
          | Some CRead, P2PServer.CPanic => Alone
          | Some (CHandle m), P2PServer.CMsg m' => if msg_eqb m m' then With p 0 KOk else Never
          | _, _ => Never
          end
      | P2PServer.HInterest _ => With p 0 KMore (* 230, 152 *)
      | P2PServer.HInterested _ =>              (* 153 *)
          match serve_at c p, result_of ch with
          | Some (CInterest SWrite), Some x => With p 0 x
          | _, _ => Never
          end
      | P2PServer.HRequest =>                   (* 236-246 *)
          match serve_at c p, ch with
          | Some CRead, P2PServer.COk | Some CEnd, P2PServer.CErr => Alone
          | _, _ => Never
          end
      | _ => Alone
      end
  | P2PServer.TRequester _ P2PServer.RNotInterest  (* 159, 145 *)
  | P2PServer.TUnchoke _ false => called c t (fun x => match x with TFlag _ None => Some KOk | _ => None end)
  | P2PServer.TRequester _ P2PServer.RNotInterested  (* 160, 146 *)
  | P2PServer.TUnchoke _ true => called c t (fun x => match x with TFlag _ (Some SWrite) => result_of ch | _ => None end)
  | P2PServer.TPiece _ _ P2PServer.PRun => if pull_over c t true then Alone else Never  (* 295 *)
  | P2PServer.TPiece _ _ (P2PServer.PSend _ _) => called c t (fun x => match x with TSend _ SWrite => result_of ch | _ => None end)  (* server.go:437 *)
  | _ => Alone
  end.
(** A step of Node.v to the state [n] with the events [e]. *)
Definition beside_node (c : client) (a : naction) (n : node) (e : list nevent) : beside :=
  match a with
  | NServer (P2PServer.AGo t ch) => match thread_of c t with Some th => beside_server c t th ch | None => Alone end
  | NServer _ => Alone
  | NCall t =>
      match thread_of c t, job_of c t with
      | Some (P2PServer.THandler p P2PServer.HRequest), _ => match serve_at c p with Some (CBlock _) => Alone | _ => Never end  (* peer.go:247 *)
      | Some (P2PServer.TPiece _ _ _), Some JReset => if pull_over c t false then Alone else Never  (* 298 *)
      | _, _ => Alone
      end
  | NStep t =>
      match thread_of c t, e with
      | Some (P2PServer.THandler p _), NRet _ (StorageSys.CGet _ _ _) r :: _ =>  (* 247-250 *)
          With p 0 (match r with StorageSys.RBlock d => KData d | _ => KErr end)
      | Some (P2PServer.THandler p _), NRet _ (StorageSys.CPut _ _ _) _ :: _ =>  (* 268-271 *)
          With p 0 (match nth_error (P2PServer.s_threads (n_srv n)) t with Some (P2PServer.THandler _ P2PServer.HLoop) => KOk | _ => KErr end)
      | _, _ => Alone
      end
  | NWrite t written =>                         (* 251 *)
      match thread_of c t with
      | Some (P2PServer.THandler p _) => match serve_at c p with
                                         | Some (CPiece _ _ SWrite) => With p 0 (if written then KOk else KErr)
                                         | _ => Never
                                         end
      | _ => Never
      end
  end.
(** Steps inside a connection.  serve reads when it runs (peer.go:183), and what it has read
    comes back to the server; writes that the server waits for are in [beside_server]. *)
Definition inside (c : client) (p : nat) (th : kthread) (ch : kchoice) : bool :=
  match th, ch with
  | TServe CRead, KMsg m => on_wire m && handler_at c p receiving
  | TServe CHaves, KOk => handler_at c p receiving
  | TServe (CTake _ | CInterest SLock | CCheck _ | CPiece _ _ SLock), _ => true
  | TPull _ _, _ | TAsk _ _, _ => true
  | TFlag _ (Some SLock), _ | TSend _ SLock, _ => true
  | _, _ => false
  end.
(** The call a goroutine of the server comes to: which peer, which call. *)
Definition conn_call (cfg : config) (have : bytes) (th : P2PServer.thread) (j : option job) : option (nat * kaction) :=
  match th with
  | P2PServer.THandler p P2PServer.HBitfield => Some (p, KSend (mk_bitfield have))        (* server.go:302 *)
  | P2PServer.TRequester p P2PServer.RNotInterest => Some (p, KFlag FNotInterest)         (* 388 *)
  | P2PServer.TUnchoke p false => Some (p, KFlag FUnchoke)                                (* 221 *)
  | P2PServer.TPiece p i P2PServer.PRun =>                                                (* peer.go:283-294 *)
      match j, piece_requests (get_piece_length (c_info cfg) i) with
      | Some JReset, Some l => Some (p, KPull (map (fun xy => (i, fst xy, snd xy)) l))
      | _, _ => None
      end
  | P2PServer.TPiece _ i (P2PServer.PSend x _) => Some (x, KSend (mk_have i))             (* server.go:437 *)
  | _ => None
  end.
(** errgroup: the goroutine x of the connection K returned an error (peer.go:287-291). *)
Definition parent_has (x : nat) (th : kthread) : bool := match th with TPull _ kids => existsb (Nat.eqb x) kids | _ => false end.
Definition errs_after (p : nat) (K : kstate) (e : list kevent) (errs : list (nat * nat)) : list (nat * nat) :=
  let failed x := map (fun k => (p, k)) (filter (fun k => match nth_error (k_threads K) k with Some th => parent_has x th | None => false end) (seq 0 (List.length (k_threads K)))) in
  match e with
  | KRefused x _ :: _ | KReturned x _ (Some _) :: _ => errs ++ failed x
  | _ => errs
  end.
Definition set_unode (x : node) (c : client) : client := {| u_node := x; u_conns := u_conns c; u_calls := u_calls c; u_errs := u_errs c |}.
Definition set_uconns (x : list kstate) (c : client) : client := {| u_node := u_node c; u_conns := x; u_calls := u_calls c; u_errs := u_errs c |}.
Definition set_ucalls (x : list (nat * (nat * nat))) (c : client) : client := {| u_node := u_node c; u_conns := u_conns c; u_calls := x; u_errs := u_errs c |}.
Definition set_uerrs (x : list (nat * nat)) (c : client) : client := {| u_node := u_node c; u_conns := u_conns c; u_calls := u_calls c; u_errs := x |}.
(** The connection of p does [a]. *)
Definition conn_step (c : client) (p : nat) (a : kaction) : option (client * list uevent) :=
  match nth_error (u_conns c) p with
  | Some K => match kexec K a with
              | Some (K', e) => Some (set_uerrs (errs_after p K e (u_errs c)) (set_uconns (list_set p K' (u_conns c)) c), map (UK p) e)
              | None => None
              end
  | None => None
  end.
(** New peers get a connection (server.go:471-482). *)
Definition new_conns (n : node) (c : client) : list kstate :=
  u_conns c ++ repeat kstart (List.length (P2PServer.s_peers (n_srv n)) - List.length (u_conns c)).
(** A call has returned when its goroutine goes on, unless it has only changed the flag. *)
Definition in_call (th : option P2PServer.thread) : bool :=
  match th with Some (P2PServer.TRequester _ P2PServer.RNotInterested) | Some (P2PServer.TUnchoke _ true) => true | _ => false end.
Definition calls_after (a : naction) (n : node) (c : client) : list (nat * (nat * nat)) :=
  match a with
  | NServer (P2PServer.AGo t _) | NCall t => if in_call (nth_error (P2PServer.s_threads (n_srv n)) t) then u_calls c else mdel Nat.eqb t (u_calls c)
  | _ => u_calls c
  end.

Section Client.
Variable sha1 : bytes -> bytes.
Variable cfg : config.
Variable env : nat -> Fs.choice.
Variable own_hash own_id : bytes.
Variable blank : bytes.                 (* bitfield.New(len(Info.Pieces)) *)

Definition uexec (c : client) (a : uaction) : option (client * list uevent) :=
  if P2PServer.s_crashed (srv c) then None
  else match a with
  | UNode a =>
      match nexec sha1 cfg env own_hash own_id blank (u_node c) a with
      | Some (n, e) =>
          let after c1 := set_ucalls (calls_after a n c) (set_unode n (set_uconns (new_conns n c1) c1)) in
          match beside_node c a n e with
          | Alone => Some (after c, map UN e)
          | With p k ch => match conn_step c p (KGo k ch) with
                           | Some (c1, ek) => Some (after c1, map UN e ++ ek)
                           | None => None
                           end
          | Never => None
          end
      | None => None
      end
  | UCall t =>
      match thread_of c t, mget Nat.eqb t (u_calls c) with
      | Some th, None =>
          match conn_call cfg (P2PServer.s_have (srv c)) th (job_of c t) with
          | Some (p, a) =>
              match nth_error (u_conns c) p, conn_step c p a with
              | Some K, Some (c1, ek) => Some (set_ucalls (mput Nat.eqb t (p, List.length (k_threads K)) (u_calls c)) c1, ek)
              | _, _ => None
              end
          | None => None
          end
      | _, _ => None
      end
  | UConn p k ch =>
      match nth_error (u_conns c) p with
      | Some K => match nth_error (k_threads K) k with
                  | Some th => if inside c p th ch then conn_step c p (KGo k ch) else None
                  | None => None
                  end
      | None => None
      end
  end.
Fixpoint uruns (c : client) (l : list uaction) : option (client * list uevent) :=
  match l with
  | [] => Some (c, [])
  | a :: l' => match uexec c a with
               | Some (c1, e1) => match uruns c1 l' with Some (c2, e2) => Some (c2, e1 ++ e2) | None => None end
               | None => None
               end
  end.
(** Start (server.go:85-106) after a Load that left the storage at [sto]. *)
Definition ustart (sto : StorageSys.proc) : client := {| u_node := nstart sto; u_conns := []; u_calls := []; u_errs := [] |}.
End Client.
