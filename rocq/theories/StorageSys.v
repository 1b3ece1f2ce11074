(** The locks of storage/ and the life of the process: concurrent calls on one Storage,
    crashes at any point, restarts.

    A call is a thread.  The code between a lock operation and the next is one step (its
    file system calls and their crash points included): every memory access of storage/ is
    under the lock modelled here, except Storage.downloaded, which is atomic, and reads of
    Torrent.Bitfield by other packages.  Torrent.mu is held across steps only by GetBlock
    (shared), a piece's mu only by PutBlock (exclusive), so who holds what can be read off
    the threads.  A pending writer blocks new readers of a sync.RWMutex; steps that this
    could delay are allowed here both before and after the writer.

    Following p2p/server.go:86-89, a process starts with Load and gives up if it fails. *)
From Verif Require Import GoBase Metainfo Fs Storage.

Inductive call :=
| CPut (index begin : Z) (data : bytes)     (* PutBlock *)
| CGet (index begin length : Z)             (* GetBlock *)
| CReset (index : Z)                        (* ResetPiece *)
| CWait (index : Z)                         (* GetPiece(index).Wait() *)
| CWaitAll.                                 (* Torrent.Wait() *)
Inductive result := RNil | RBlock (d : bytes) | RErr (e : serr).
Inductive pc :=
| Start
| PutPiece                                  (* storage.go:123: before piece.mu.Lock() *)
| PutMid                                    (* 129: holds piece.mu, before Torrent.mu.Lock() *)
| GetPiece                                  (* 104: holds Torrent.mu.RLock, before piece.mu.RLock() *)
| Waiting (fut : nat)                       (* future.go:17-20 *)
| Done (r : result).
Record thread := { th_call : call; th_pc : pc }.

Inductive proc :=
| Running (w : world) (ts : list thread)
| Dead (f : fs) (tick : nat).               (* not running; what the disk holds *)
Inductive label :=
| LCall (c : call)                          (* a goroutine makes a call *)
| LStep (t : nat)                           (* thread t takes its next step *)
| LCrash                                    (* the process is killed between steps *)
| LCrashIn (t j : nat)                      (* ... within the next step of t, at its j-th file system state *)
| LStart                                    (* the process is started, Load runs *)
| LStartCrash (j : nat).                    (* ... and is killed within Load *)
(** A call returned. *)
Inductive event := Ret (c : call) (r : result).

Definition call_index (c : call) : Z :=
  match c with CPut i _ _ | CGet i _ _ | CReset i | CWait i => i | CWaitAll => -1 end.
(** piece.mu of piece i is held. *)
Definition piece_locked (i : Z) (ts : list thread) : bool :=
  existsb (fun t => match th_pc t with PutMid => call_index (th_call t) =? i | _ => false end) ts.
(** Torrent.mu is held (shared). *)
Definition torrent_rlocked (ts : list thread) : bool :=
  existsb (fun t => match th_pc t with GetPiece => true | _ => false end) ts.

Section Sys.
Variable sha1 : bytes -> bytes.
Variable cfg : config.
Variable env : nat -> choice.

Inductive outcome := Goes (w : world) (p : pc) | Panics (w : world).
Definition of_unit (r : world * res serr unit) : outcome :=
  match r with
  | (w, Ok _) => Goes w (Done RNil)
  | (w, Err e) => Goes w (Done (RErr e))
  | (w, Panic) => Panics w
  end.
Definition of_bytes (r : world * res serr bytes) : outcome :=
  match r with
  | (w, Ok d) => Goes w (Done (RBlock d))
  | (w, Err e) => Goes w (Done (RErr e))
  | (w, Panic) => Panics w
  end.
(** The next step of a thread; [None]: it is blocked (or has returned). *)
Definition next (w : world) (ts : list thread) (t : thread) : option outcome :=
  match th_pc t, th_call t with
  | Start, CPut i b d =>                          (* storage.go:114-122 *)
      Some (match check_block_size (c_info cfg) i b (zlen d) with
            | Some e => Goes w (Done (RErr e))
            | None => if t_coalesced (w_mem w) then Goes w (Done (RErr EBlockExists)) else Goes w PutPiece
            end)
  | PutPiece, CPut i b d =>                       (* 123-128 *)
      if piece_locked i ts then None
      else Some (match put_in_piece i b d w with
                 | (w', Ok _) => Goes w' PutMid
                 | (w', Err e) => Goes w' (Done (RErr e))
                 | (w', Panic) => Panics w'
                 end)
  | PutMid, CPut i b d =>                         (* 129-139 *)
      if torrent_rlocked ts then None else Some (of_unit (put_finish sha1 cfg env i w))
  | Start, CGet i b n =>                          (* 98-103 *)
      if t_coalesced (w_mem w) then Some (of_bytes (get_block cfg env i b n w))
      else Some (match piece_at i w with (_, Ok _) => Goes w GetPiece | _ => Panics w end)
  | GetPiece, CGet i b n =>                       (* 104-109; Torrent.mu still held *)
      if piece_locked i ts then None else Some (of_bytes (get_block cfg env i b n w))
  | Start, CReset i =>                            (* 88-94 *)
      if piece_locked i ts then None else Some (of_unit (reset_piece i w))
  | Start, CWait i =>                             (* 84-86, torrent.go:97-100 *)
      if piece_locked i ts then None
      else Some (match piece_at i w with (_, Ok p) => Goes w (Waiting (pc_err p)) | _ => Panics w end)
  | Start, CWaitAll =>                            (* torrent.go:45-48 *)
      if torrent_rlocked ts then None else Some (Goes w (Waiting (t_err (w_mem w))))
  | Waiting id, _ =>                              (* future.go:17-20 *)
      match nth_error (t_futures (w_mem w)) id with
      | Some (Some None) => Some (Goes w (Done RNil))
      | Some (Some (Some e)) => Some (Goes w (Done (RErr e)))
      | _ => None
      end
  | _, _ => None
  end.

Definition forget_past (w : world) : world := {| w_fs := w_fs w; w_past := []; w_tick := w_tick w; w_mem := w_mem w |}.
Definition booted (f : fs) (tick : nat) : world := {| w_fs := f; w_past := []; w_tick := tick; w_mem := new_mem (c_info cfg) |}.
Definition events_of (c : call) (p : pc) : list event := match p with Done r => [Ret c r] | _ => [] end.
Definition world_of (o : outcome) : world := match o with Goes w _ | Panics w => w end.
Definition crash_at (w : world) (j : nat) : option (proc * list event) :=
  option_map (fun f => (Dead f (w_tick w), [])) (nth_error (w_past w) j).
(** One step; [None]: the label does not apply. *)
Definition exec (p : proc) (l : label) : option (proc * list event) :=
  match p, l with
  | Running w ts, LCall c => Some (Running w (ts ++ [{| th_call := c; th_pc := Start |}]), [])
  | Running w ts, LStep t =>
      match nth_error ts t with
      | Some th =>
          match next (forget_past w) ts th with
          | Some (Goes w' pc') => Some (Running w' (list_set t {| th_call := th_call th; th_pc := pc' |} ts), events_of (th_call th) pc')
          | Some (Panics w') => Some (Dead (w_fs w') (w_tick w'), [])
          | None => None
          end
      | None => None
      end
  | Running w ts, LCrash => Some (Dead (w_fs w) (w_tick w), [])
  | Running w ts, LCrashIn t j =>
      match nth_error ts t with
      | Some th => match next (forget_past w) ts th with Some o => crash_at (world_of o) j | None => None end
      | None => None
      end
  | Dead f tick, LStart =>
      match load cfg env (booted f tick) with
      | (w, Ok _) => Some (Running w [], [])
      | (w, _) => Some (Dead (w_fs w) (w_tick w), [])
      end
  | Dead f tick, LStartCrash j => crash_at (fst (load cfg env (booted f tick))) j
  | _, _ => None
  end.
Fixpoint execs (p : proc) (ls : list label) : option (proc * list event) :=
  match ls with
  | [] => Some (p, [])
  | l :: ls' =>
      match exec p l with
      | Some (p', es) => match execs p' ls' with Some (p'', es') => Some (p'', es ++ es') | None => None end
      | None => None
      end
  end.
End Sys.
