(** The part of Go's [strconv] used by drip, for base 10 and 64-bit ints. *)
From Verif Require Import GoBase.
From Coq Require Import Decimal.

(** Digits of a decimal number as ASCII. *)
Fixpoint uint_bytes (d : Decimal.uint) : bytes :=
  match d with
  | Nil => []
  | D0 d => "0"%byte :: uint_bytes d
  | D1 d => "1"%byte :: uint_bytes d
  | D2 d => "2"%byte :: uint_bytes d
  | D3 d => "3"%byte :: uint_bytes d
  | D4 d => "4"%byte :: uint_bytes d
  | D5 d => "5"%byte :: uint_bytes d
  | D6 d => "6"%byte :: uint_bytes d
  | D7 d => "7"%byte :: uint_bytes d
  | D8 d => "8"%byte :: uint_bytes d
  | D9 d => "9"%byte :: uint_bytes d
  end.

Fixpoint bytes_uint (s : bytes) : option Decimal.uint :=
  match s with
  | [] => Some Nil
  | c :: s' =>
      match bytes_uint s' with
      | None => None
      | Some d =>
          match c with
          | "0"%byte => Some (D0 d) | "1"%byte => Some (D1 d) | "2"%byte => Some (D2 d)
          | "3"%byte => Some (D3 d) | "4"%byte => Some (D4 d) | "5"%byte => Some (D5 d)
          | "6"%byte => Some (D6 d) | "7"%byte => Some (D7 d) | "8"%byte => Some (D8 d)
          | "9"%byte => Some (D9 d)
          | _ => None
          end
      end
  end.

(** strconv.FormatUint(n, 10). *)
Definition format_N (n : N) : bytes := uint_bytes (N.to_uint n).

(** strconv.FormatInt(z, 10), strconv.Itoa; FormatUint on z >= 0. *)
Definition format_Z (z : Z) : bytes :=
  if z <? 0 then "-"%byte :: format_N (Z.to_N (- z)) else format_N (Z.to_N z).

(** All-digit, non-empty string to its value (no bound). *)
Definition parse_N (s : bytes) : option N :=
  match s with
  | [] => None
  | _ => match bytes_uint s with Some d => Some (N.of_uint d) | None => None end
  end.

(** strconv.ParseUint(s, 10, 64): [None] is any error (syntax or range). *)
Definition parse_uint (s : bytes) : option Z :=
  match parse_N s with
  | Some n => if Z.of_N n <=? max_uint64 then Some (Z.of_N n) else None
  | None => None
  end.

(** strconv.ParseInt(s, 10, 64) and strconv.Atoi(s) on a 64-bit platform:
    one optional sign, then digits, then a range check. *)
Definition parse_int (s : bytes) : option Z :=
  match s with
  | [] => None
  | c :: s' =>
      let neg := beqb c "-"%byte in
      let body := if neg || beqb c "+"%byte then s' else s in
      match parse_N body with
      | None => None
      | Some n =>
          let z := if neg then - Z.of_N n else Z.of_N n in
          if is_int64 z then Some z else None
      end
  end.

Definition atoi : bytes -> option Z := parse_int.
