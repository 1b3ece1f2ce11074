(** Model of one connection (p2p/peer.go): Send, Receive, the changes of the choke and
    interest flags, the handler of messages with requests and cancels, requestPiece and
    requestBlock, as a transition system over the goroutines that use one Peer.

    A step is what a goroutine does between two points where another one could make a
    difference.  Peer.mu is modelled ([k_mu]: the goroutine that holds it): Send keeps it
    from the test of RemoteChoked to the end of the write, the other critical sections are
    one step.  The flags are atomic and not under the lock.  Any number of goroutines may
    call Choke, Unchoke, Interest, NotInterest, Send and requestPiece; one runs serve.
    Left out, because they do not touch the connection: the server's registry
    (P2PServer.v) and the storage (Storage.v), whose answers are choices here; time (a
    timeout may happen at any moment, a deadline is a failing read or write); counters
    and logging. *)
From Verif Require Import GoBase GoMap PeerWire.

(** type blockRequest (peer.go:38-42) *)
Definition breq : Type := Z * Z * Z.
Definition breq_eqb (a b : breq) : bool :=
  let '(i, x, l) := a in let '(j, y, k) := b in (i =? j) && (x =? y) && (l =? k).
(** The block a REQUEST or CANCEL names (215-218), and the one a PIECE brings (119). *)
Definition asked (m : message) : breq := (m_index m, m_begin m, m_length m).
Definition brought (m : message) : breq := (m_index m, m_begin m, zlen (m_piece m)).
Definition request_of (r : breq) : message := let '(i, b, l) := r in mk_request i b l.

(** The errors of requestBlock: ErrChoked, ctx.Err() (an expired or cancelled context), a
    failed write.  [None] is nil. *)
Inductive cerr := EChoked | ECtx | EWrite.
(** Choke, Unchoke, Interest, NotInterest (137-163). *)
Inductive flag := FChoke | FUnchoke | FInterest | FNotInterest.
Definition flag_message (f : flag) : message :=
  mk_plain (match f with FChoke => CHOKE | FUnchoke => UNCHOKE | FInterest => INTERESTED | FNotInterest => NOT_INTERESTED end).
(** Where a Send (96-107) is: before the lock (97), or past 104 with the lock held. *)
Inductive send := SLock | SWrite.
(** Where the goroutine that runs serve is. *)
Inductive hpc :=
| CRead                         (* 111 *)
| CTake (m : message)           (* 116 *)
| CHandle (m : message)         (* 196 *)
| CHaves                        (* in HandleHave for a HAVE or the indices of a BITFIELD (209-214) *)
| CInterest (p : send)          (* 153, from 230 *)
| CCheck (r : breq)             (* 240 *)
| CBlock (r : breq)             (* 247 *)
| CPiece (r : breq) (d : bytes) (p : send)  (* 251 *)
| CPut                          (* 268 *)
| CEnd.                         (* serve returned *)
(** Where a requestBlock (304-330) is; [f] is its future. *)
Inductive qpc :=
| QFirst                        (* 305 *)
| QJoin                         (* 309 *)
| QSend (f : nat) (p : send)    (* 321 *)
| QWait (f : nat)               (* 324 *)
| QLeave (o : option cerr)      (* 317, with the result *)
| QDone.
Inductive kthread :=
| TServe (h : hpc)
| TPull (todo : list breq) (kids : list nat)  (* requestPiece (279-302): blocks left, goroutines started *)
| TAsk (r : breq) (q : qpc)                   (* requestBlock in a goroutine of 287-291 *)
| TFlag (f : flag) (p : option send)          (* one of 137-163; None: before the CompareAndSwap *)
| TSend (m : message) (p : send)              (* Send of another message (HAVE, BITFIELD, keepalive) *)
| TOver.

(** A Peer: RemoteChoked, Choked, Interested, mu, inflightRequests, canceledRequests; all
    futures made for it ([None]: not delivered); the goroutines. *)
Record kstate := {
  k_rchoked : bool;
  k_choked : bool;
  k_interested : bool;
  k_mu : option nat;
  k_inflight : list (breq * nat);
  k_cancelled : list breq;
  k_futs : list (option (option cerr));
  k_threads : list kthread;
  k_crashed : bool }.
Definition set_krchoked (x : bool) (s : kstate) : kstate :=
  {| k_rchoked := x; k_choked := k_choked s; k_interested := k_interested s; k_mu := k_mu s; k_inflight := k_inflight s; k_cancelled := k_cancelled s; k_futs := k_futs s; k_threads := k_threads s; k_crashed := k_crashed s |}.
Definition set_kchoked (x : bool) (s : kstate) : kstate :=
  {| k_rchoked := k_rchoked s; k_choked := x; k_interested := k_interested s; k_mu := k_mu s; k_inflight := k_inflight s; k_cancelled := k_cancelled s; k_futs := k_futs s; k_threads := k_threads s; k_crashed := k_crashed s |}.
Definition set_kinterested (x : bool) (s : kstate) : kstate :=
  {| k_rchoked := k_rchoked s; k_choked := k_choked s; k_interested := x; k_mu := k_mu s; k_inflight := k_inflight s; k_cancelled := k_cancelled s; k_futs := k_futs s; k_threads := k_threads s; k_crashed := k_crashed s |}.
Definition set_kmu (x : option nat) (s : kstate) : kstate :=
  {| k_rchoked := k_rchoked s; k_choked := k_choked s; k_interested := k_interested s; k_mu := x; k_inflight := k_inflight s; k_cancelled := k_cancelled s; k_futs := k_futs s; k_threads := k_threads s; k_crashed := k_crashed s |}.
Definition set_kinflight (x : list (breq * nat)) (s : kstate) : kstate :=
  {| k_rchoked := k_rchoked s; k_choked := k_choked s; k_interested := k_interested s; k_mu := k_mu s; k_inflight := x; k_cancelled := k_cancelled s; k_futs := k_futs s; k_threads := k_threads s; k_crashed := k_crashed s |}.
Definition set_kcancelled (x : list breq) (s : kstate) : kstate :=
  {| k_rchoked := k_rchoked s; k_choked := k_choked s; k_interested := k_interested s; k_mu := k_mu s; k_inflight := k_inflight s; k_cancelled := x; k_futs := k_futs s; k_threads := k_threads s; k_crashed := k_crashed s |}.
Definition set_kfuts (x : list (option (option cerr))) (s : kstate) : kstate :=
  {| k_rchoked := k_rchoked s; k_choked := k_choked s; k_interested := k_interested s; k_mu := k_mu s; k_inflight := k_inflight s; k_cancelled := k_cancelled s; k_futs := x; k_threads := k_threads s; k_crashed := k_crashed s |}.
Definition set_kthreads (x : list kthread) (s : kstate) : kstate :=
  {| k_rchoked := k_rchoked s; k_choked := k_choked s; k_interested := k_interested s; k_mu := k_mu s; k_inflight := k_inflight s; k_cancelled := k_cancelled s; k_futs := k_futs s; k_threads := x; k_crashed := k_crashed s |}.
Definition set_kcrashed (x : bool) (s : kstate) : kstate :=
  {| k_rchoked := k_rchoked s; k_choked := k_choked s; k_interested := k_interested s; k_mu := k_mu s; k_inflight := k_inflight s; k_cancelled := k_cancelled s; k_futs := k_futs s; k_threads := k_threads s; k_crashed := x |}.

(** What the environment decides in a step: a call out of the model succeeds or fails (a
    timeout counts as a failure), a message is read, GetBlock returns data, HandleHave
    gets to Interest. *)
Inductive kchoice := KOk | KErr | KMsg (m : message) | KData (d : bytes) | KMore.
(** What can be seen from outside. *)
Inductive kevent :=
| KRecv (m : message)           (* Receive returns m *)
| KHandled (m : message)        (* HandleMessage(m) starts; flags are read or stored *)
| KChange (f : flag)            (* Choke, Unchoke, Interest, NotInterest changed the flag *)
| KSent (m : message)           (* a message was written *)
| KFailed (m : message)         (* ... could not be written *)
| KSuppressed (r : breq)        (* a request was dropped because of a cancel *)
| KLooked (r : breq)            (* GetBlock was called for a request *)
| KPulled (t : nat) (l : list breq)  (* requestPiece was called (call t) for these blocks *)
| KPullEnd (t : nat)            (* ... all its requestBlock calls have returned *)
| KRefused (t : nat) (r : breq) (* requestBlock (call t) returned ErrChoked at once *)
| KPending (t : nat) (r : breq) (* ... was entered into inflightRequests *)
| KReturned (t : nat) (r : breq) (o : option cerr).  (* ... returned *)
Inductive kaction :=
| KGo (t : nat) (c : kchoice)   (* goroutine t takes a step *)
| KPull (l : list breq)         (* requestPiece is called; l: the blocks of the loop 284-292 *)
| KFlag (f : flag)              (* Choke, Unchoke, Interest or NotInterest is called *)
| KSend (m : message).          (* Send is called with a HAVE, a BITFIELD or a keepalive *)

Definition kgoto (t : nat) (th : kthread) (s : kstate) : kstate := set_kthreads (list_set t th (k_threads s)) s.
Definition kspawn (th : kthread) (s : kstate) : kstate := set_kthreads (k_threads s ++ [th]) s.
(** completeRequest (332-338): Deliver panics on a future that has been delivered. *)
Definition complete (o : option cerr) (s : kstate) (r : breq) : kstate :=
  match mget breq_eqb r (k_inflight s) with
  | None => s
  | Some f =>
      match nth_error (k_futs s) f with
      | Some None => set_kinflight (mdel breq_eqb r (k_inflight s)) (set_kfuts (list_set f (Some o) (k_futs s)) s)
      | _ => set_kcrashed true s
      end
  end.
(** Send: the lock and 99-104 for messages other than requests; the write and the unlock. *)
Definition take_lock (t : nat) (th : kthread) (s : kstate) : option (kstate * list kevent) :=
  match k_mu s with
  | None => Some (kgoto t th (set_kmu (Some t) s), [])
  | Some _ => None
  end.
Definition finish_write (t : nat) (c : kchoice) (m : message) (yes no : kthread) (s : kstate) : option (kstate * list kevent) :=
  match c with
  | KOk => Some (kgoto t yes (set_kmu None s), [KSent m])
  | KErr => Some (kgoto t no (set_kmu None s), [KFailed m])
  | _ => None
  end.

(** HandleMessage (195-223), as far as the connection goes. *)
Definition handle_message (s : kstate) (t : nat) (m : message) : option (kstate * list kevent) :=
  let go h s' := Some (kgoto t (TServe h) s', [KHandled m]) in
  if m_type m =? CHOKE then go CRead (set_krchoked true s)
  else if m_type m =? UNCHOKE then go CRead (set_krchoked false s)
  else if (m_type m =? HAVE) || (m_type m =? BITFIELD) then go CHaves s
  else if m_type m =? REQUEST then                (* 236 *)
    if k_choked s then go CEnd s else go (CCheck (asked m)) s
  else if m_type m =? CANCEL then                 (* 260-265 *)
    match k_mu s with
    | Some _ => None
    | None => go CRead (set_kcancelled (sadd breq_eqb (asked m) (k_cancelled s)) s)
    end
  else if m_type m =? PIECE then go CPut s
  else go CRead s.

(** One step of serve (175-192) with Receive (109-131). *)
Definition step_serve (s : kstate) (t : nat) (h : hpc) (c : kchoice) : option (kstate * list kevent) :=
  let go h' s' := kgoto t (TServe h') s' in
  match h, c with
  | CRead, KErr => Some (go CEnd s, [])           (* 112-114 *)
  | CRead, KMsg m => Some (go (CTake m) s, [])
  | CTake m, KOk =>                               (* 116-130 *)
      if m_type m =? PIECE then
        match k_mu s with
        | Some _ => None
        | None => Some (go (CHandle m) (complete None s (brought m)), [KRecv m])
        end
      else if m_type m =? CHOKE then
        match k_mu s with
        | Some _ => None
        | None => Some (go (CHandle m) (fold_left (complete (Some EChoked)) (map fst (k_inflight s)) s), [KRecv m])
        end
      else Some (go (CHandle m) s, [KRecv m])
  | CHandle m, KOk => handle_message s t m
  | CHaves, KOk => Some (go CRead s, [])
  | CHaves, KErr => Some (go CEnd s, [])          (* 211-213 *)
  | CHaves, KMore =>                              (* 230, 152 *)
      if k_interested s then Some (s, []) else Some (go (CInterest SLock) (set_kinterested true s), [KChange FInterest])
  | CInterest SLock, KOk => take_lock t (TServe (CInterest SWrite)) s
  | CInterest SWrite, _ => finish_write t c (flag_message FInterest) (TServe CHaves) (TServe CEnd) s
  | CCheck r, KOk =>                              (* 240-246 *)
      match k_mu s with
      | Some _ => None
      | None => if smem breq_eqb r (k_cancelled s)
                then Some (go CRead (set_kcancelled (sdel breq_eqb r (k_cancelled s)) s), [KSuppressed r])
                else Some (go (CBlock r) s, [])
      end
  | CBlock r, KData d => Some (go (CPiece r d SLock) s, [KLooked r])  (* 247 *)
  | CBlock r, KErr => Some (go CEnd s, [KLooked r])
  | CPiece r d SLock, KOk => take_lock t (TServe (CPiece r d SWrite)) s
  | CPiece r d SWrite, _ => let '(i, b, _) := r in finish_write t c (mk_piece i b d) (TServe CRead) (TServe CEnd) s
  | CPut, KOk => Some (go CRead s, [])            (* 267-277 *)
  | CPut, KErr => Some (go CEnd s, [])
  | _, _ => None
  end.

(** One step of requestBlock (304-330). *)
Definition step_ask (s : kstate) (t : nat) (r : breq) (q : qpc) (c : kchoice) : option (kstate * list kevent) :=
  let go q' s' := kgoto t (TAsk r q') s' in
  match q, c with
  | QFirst, KOk =>                                (* 305-307 *)
      if k_rchoked s then Some (go QDone s, [KRefused t r]) else Some (go QJoin s, [])
  | QJoin, KOk =>                                 (* 309-315 *)
      match k_mu s with
      | Some _ => None
      | None =>
          match mget breq_eqb r (k_inflight s) with
          | Some f => Some (go (QSend f SLock) s, [KPending t r])
          | None =>
              let f := List.length (k_futs s) in
              Some (go (QSend f SLock) (set_kinflight (mput breq_eqb r f (k_inflight s)) (set_kfuts (k_futs s ++ [None]) s)), [KPending t r])
          end
      end
  | QSend f SLock, KOk =>                         (* 97-104 *)
      match k_mu s with
      | Some _ => None
      | None => if k_rchoked s then Some (go (QLeave (Some EChoked)) s, [])
                else Some (go (QSend f SWrite) (set_kmu (Some t) s), [])
      end
  | QSend f SWrite, _ => finish_write t c (request_of r) (TAsk r (QWait f)) (TAsk r (QLeave (Some EWrite))) s
  | QWait f, KErr => Some (go (QLeave (Some ECtx)) s, [])  (* 325-326 *)
  | QWait f, KOk =>                               (* 327-328 *)
      match nth_error (k_futs s) f with
      | Some (Some o) => Some (go (QLeave o) s, [])
      | _ => None
      end
  | QLeave o, KOk =>                              (* 316-320 *)
      match k_mu s with
      | Some _ => None
      | None => Some (go QDone (set_kinflight (mdel breq_eqb r (k_inflight s)) s), [KReturned t r o])
      end
  | _, _ => None
  end.

(** Goroutines of an errgroup that still run. *)
Definition running (s : kstate) (kids : list nat) : list nat :=
  filter (fun t => match nth_error (k_threads s) t with Some (TAsk _ QDone) | None => false | Some _ => true end) kids.
(** requestPiece (279-302) up to eg.Wait: at most 16 requestBlock at a time (283).
    Simplified: the first error of one cancels the context of the others, which is one of
    the timeouts that may happen at any time. *)
Definition step_pull (s : kstate) (t : nat) (todo : list breq) (kids : list nat) (c : kchoice) : option (kstate * list kevent) :=
  match todo, c with
  | r :: todo', KOk =>                            (* 284-291 *)
      if zlen (running s kids) <? 16
      then Some (kspawn (TAsk r QFirst) (kgoto t (TPull todo' (kids ++ [List.length (k_threads s)])) s), [])
      else None
  | [], KOk =>                                    (* 294 *)
      match running s kids with [] => Some (kgoto t TOver s, [KPullEnd t]) | _ => None end
  | _, _ => None
  end.

(** Choke, Unchoke, Interest, NotInterest (137-163). *)
Definition swap (f : flag) (s : kstate) : option kstate :=
  match f with
  | FChoke => if k_choked s then None else Some (set_kchoked true s)
  | FUnchoke => if k_choked s then Some (set_kchoked false s) else None
  | FInterest => if k_interested s then None else Some (set_kinterested true s)
  | FNotInterest => if k_interested s then Some (set_kinterested false s) else None
  end.
Definition step_flag (s : kstate) (t : nat) (f : flag) (p : option send) (c : kchoice) : option (kstate * list kevent) :=
  match p, c with
  | None, KOk => match swap f s with
                 | Some s' => Some (kgoto t (TFlag f (Some SLock)) s', [KChange f])
                 | None => Some (kgoto t TOver s, [])
                 end
  | Some SLock, KOk => take_lock t (TFlag f (Some SWrite)) s
  | Some SWrite, _ => finish_write t c (flag_message f) TOver TOver s
  | _, _ => None
  end.
(** A BITFIELD shares its bytes with the storage (api/peer/peer.go:177-182): what is written
    is what they are by then. *)
Definition step_send (s : kstate) (t : nat) (m : message) (p : send) (c : kchoice) : option (kstate * list kevent) :=
  match p, c with
  | SLock, KOk => take_lock t (TSend m SWrite) s
  | SWrite, KMsg m' => if (m_type m =? BITFIELD) && (m_type m' =? BITFIELD) then finish_write t KOk m' TOver TOver s else None
  | SWrite, _ => finish_write t c m TOver TOver s
  | _, _ => None
  end.

(** One action; [None]: it is not possible.  After a panic nothing is. *)
Definition kexec (s : kstate) (a : kaction) : option (kstate * list kevent) :=
  if k_crashed s then None
  else match a with
  | KGo t c =>
      match nth_error (k_threads s) t with
      | Some (TServe h) => step_serve s t h c
      | Some (TPull todo kids) => step_pull s t todo kids c
      | Some (TAsk r q) => step_ask s t r q c
      | Some (TFlag f p) => step_flag s t f p c
      | Some (TSend m p) => step_send s t m p c
      | Some TOver | None => None
      end
  | KPull l => Some (kspawn (TPull l []) s, [KPulled (List.length (k_threads s)) l])
  | KFlag f => Some (kspawn (TFlag f None) s, [])
  | KSend m => if existsb (Z.eqb (m_type m)) [HAVE; BITFIELD; KEEPALIVE] then Some (kspawn (TSend m SLock) s, []) else None
  end.
Fixpoint kruns (s : kstate) (l : list kaction) : option (kstate * list kevent) :=
  match l with
  | [] => Some (s, [])
  | a :: l' =>
      match kexec s a with
      | Some (s', e) => match kruns s' l' with Some (s'', e') => Some (s'', e ++ e') | None => None end
      | None => None
      end
  end.
(** newPeer (server.go:471-482), at the start of the loop of serve. *)
Definition kstart : kstate :=
  {| k_rchoked := true; k_choked := true; k_interested := false; k_mu := None; k_inflight := []; k_cancelled := []; k_futs := [];
     k_threads := [TServe CRead]; k_crashed := false |}.
