(** Model of p2p/multitracker.go and of what Server.Start and Server.Announce do with
    a tracker response (p2p/server.go:107-117, 228-241). *)
From Verif Require Import GoBase BencTypes BencDecode Tracker.

Section Tiers.
Context {T : Type}.

(** math/rand.Shuffle(n, swap) (used at multitracker.go:32-34): for i from n-1 down to
    1, swap positions i and j for a random j in [0, i].  [rnd i] stands for the random
    choice; only its value modulo i+1 matters.  The generator itself is not modelled:
    the choices are arbitrary, and separate for each tier in [new_tiers]. *)
Definition swap_nth (d : T) (i j : nat) (l : list T) : list T :=
  let x := nth i l d in let y := nth j l d in
  map (fun k => if Nat.eqb k i then y else if Nat.eqb k j then x else nth k l d) (seq 0 (List.length l)).
Fixpoint shuffle_loop (rnd : nat -> nat) (d : T) (i : nat) (l : list T) : list T :=
  match i with
  | O => l
  | S i' => shuffle_loop rnd d i' (swap_nth d i (rnd i mod S i)%nat l)
  end.
Definition shuffle (rnd : nat -> nat) (l : list T) : list T :=
  match l with [] => [] | d :: _ => shuffle_loop rnd d (List.length l - 1) l end.

(** The tiers built by NewMultitracker (multitracker.go:22-42); a tracker is
    represented by its URL. *)
Definition new_tiers (rnd : nat -> nat -> nat) (announce : T) (announce_list : list (list T)) : list (list T) :=
  let list := match announce_list with [] => [[announce]] | _ => announce_list end in
  map (fun kl => shuffle (rnd (fst kl)) (snd kl)) (combine (seq 0 (List.length list)) list).

(** copy(tier[1:j+1], tier[0:j]); tier[0] = tracker (multitracker.go:65-66). *)
Definition copy_down (j : nat) (tier : list T) : list T := firstn 1 tier ++ firstn j tier ++ skipn (S j) tier.
Definition set_first (x : T) (tier : list T) : list T := match tier with [] => [] | _ :: l => x :: l end.

(** Multitracker.get (multitracker.go:60-73).  [ask n t] is the outcome of the n-th
    request (counted over the whole call), to tracker [t]: a response or an error.
    The result is the trackers asked, in order, the value returned (Go's named results:
    nil response and nil error when nothing was asked) and the tiers afterwards. *)
Context {R E : Type}.
Inductive got := GotNothing | GotRes (r : R) | GotErr (e : E).
Variable ask : nat -> T -> R + E.
Fixpoint tier_loop (n : nat) (tier : list T) (j : nat) (todo : list T) (last : got) (asked : list T) : list T * got * option (list T) :=
  match todo with
  | [] => (asked, last, None)
  | t :: todo' =>
      match ask n t with
      | inl r => (asked ++ [t], GotRes r, Some (set_first t (copy_down j tier)))
      | inr e => tier_loop (S n) tier (S j) todo' (GotErr e) (asked ++ [t])
      end
  end.
Fixpoint tiers_loop (tiers : list (list T)) (last : got) (asked : list T) : list T * got * list (list T) :=
  match tiers with
  | [] => (asked, last, [])
  | tier :: tiers' =>
      match tier_loop (List.length asked) tier 0 tier last asked with
      | (asked', g, Some tier') => (asked', g, tier' :: tiers')
      | (asked', g, None) => match tiers_loop tiers' g asked' with (a, g', ts) => (a, g', tier :: ts) end
      end
  end.
Definition mt_get (tiers : list (list T)) : list T * got * list (list T) := tiers_loop tiers GotNothing [].
End Tiers.
Arguments got : clear implicits.

(** Field [i] of a decoded struct. *)
Definition field_of (i : nat) (v : gval) : gval := match v with VStruct l => nth i l VNil | _ => VNil end.
(** Tracker.get (multitracker.go:103-136) once the HTTP exchange is over: [None] is an
    error of url.Parse, http.Get or io.ReadAll, [Some data] the body.  A Response is
    represented by its struct value.  Simplified: the status code is not looked at (nor
    is it by the code), and the response body is not closed (a leak). *)
Definition tracker_get (body : option bytes) : res unit gval :=
  match body with
  | None => Err tt
  | Some data =>
      match unmarshal_response data with
      | DOk (VPtr v) _ _ => match field_of 0 v with VStr [] => Ok v | _ => Err tt end
      | DErr _ _ => Err tt
      | _ => Panic
      end
  end.
(** Server.Start with the response of Tracker.Start() (server.go:107-117): the loop
    over res.Peers.List and time.NewTicker(time.Duration(res.Interval)*time.Second) in
    [every] (server.go:484-485), which panics unless the duration is positive.
    Simplified: AddPeer (modelled elsewhere) is left out; the ticker is created by
    another goroutine of the same process.  The result is the period of the ticker in
    nanoseconds. *)
Definition use_start (g : got gval unit) : res unit Z :=
  match g with
  | GotErr _ => Err tt
  | GotNothing => Panic
  | GotRes v =>
      match field_of 2 v with
      | VPtr _ => match field_of 1 v with
                  | VInt i => let d := wrap_s 64 (wrap_s 64 i * 1000000000) in if 0 <? d then Ok d else Panic
                  | _ => Panic
                  end
      | _ => Panic
      end
  end.
(** Server.Announce (server.go:228-241). *)
Definition use_announce (g : got gval unit) : res unit unit :=
  match g with
  | GotErr _ => Err tt
  | GotNothing => Panic
  | GotRes v => match field_of 2 v with VPtr _ => Ok tt | _ => Panic end
  end.
(** Both, for a torrent with a single tracker. *)
Definition start_on_body (body : option bytes) : res unit Z :=
  match tracker_get body with
  | Ok v => use_start (GotRes v)
  | Err e => use_start (GotErr e)
  | Panic => Panic
  end.
Definition announce_on_body (body : option bytes) : res unit unit :=
  match tracker_get body with
  | Ok v => use_announce (GotRes v)
  | Err e => use_announce (GotErr e)
  | Panic => Panic
  end.
