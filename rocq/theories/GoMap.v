(** Go maps and sets (map[K]struct{}) as lists without repeated keys, newest first.  The
    order in which Go ranges over a map is arbitrary; where it matters the model takes the
    order as a choice. *)
From Verif Require Import GoBase.

Section Map.
Context {K V : Type} (eqb : K -> K -> bool).
(** m[k] *)
Definition mget (k : K) (m : list (K * V)) : option V :=
  option_map snd (find (fun e => eqb (fst e) k) m).
(** delete(m, k) *)
Definition mdel (k : K) (m : list (K * V)) : list (K * V) := filter (fun e => negb (eqb (fst e) k)) m.
(** m[k] = v *)
Definition mput (k : K) (v : V) (m : list (K * V)) : list (K * V) := (k, v) :: mdel k m.
End Map.
Section Set_.
Context {K : Type} (eqb : K -> K -> bool).
(** _, ok := s[k] *)
Definition smem (k : K) (s : list K) : bool := existsb (eqb k) s.
(** s[k] = struct{}{} *)
Definition sadd (k : K) (s : list K) : list K := if smem k s then s else k :: s.
(** delete(s, k) *)
Definition sdel (k : K) (s : list K) : list K := filter (fun x => negb (eqb k x)) s.
End Set_.
