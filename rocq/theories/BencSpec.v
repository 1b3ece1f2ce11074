(** Specification of bencoding, independent of the codec: the canonical BEP-3
    format ([bep3]) and the larger language the decoder accepts ([lax]).
    Nothing here mentions the model of the code. *)
From Verif Require Import GoBase.
From Coq Require Import Sorting.Sorted.

(** The four kinds of bencoded data. *)
Inductive bval :=
| BInt (z : Z)
| BStr (s : bytes)
| BList (l : list bval)
| BDict (m : list (bytes * bval)).

(** Value of a digit string, most significant digit first. *)
Definition digits_val (s : bytes) : Z := fold_left (fun a c => 10 * a + (b2z c - 48)) s 0.

(** Canonical natural number text: one digit, or digits without a leading zero. *)
Definition canon_nat (s : bytes) : bool :=
  match s with
  | [] => false
  | [c] => is_digit c
  | c :: s' => negb (beqb c "0"%byte) && is_digit c && forallb is_digit s'
  end.

(** [n] is the canonical decimal text of the integer [z] (no leading zeros, no
    plus sign, no negative zero). *)
Definition dec_text (z : Z) (n : bytes) : Prop :=
  (0 <= z /\ canon_nat n = true /\ digits_val n = z) \/
  (z < 0 /\ exists n', n = "-"%byte :: n' /\ canon_nat n' = true /\ digits_val n' = - z).

(** [t] is the bencoding of the byte string [s]: length, colon, bytes. *)
Definition str_text (s t : bytes) : Prop :=
  exists n, dec_text (zlen s) n /\ t = n ++ ":"%byte :: s.

(** Strictly ascending as raw byte strings (so also without duplicates). *)
Definition ascending (ks : list bytes) : Prop :=
  StronglySorted (fun a b => bytes_ltb a b = true) ks.

(** [bep3 v t]: [t] is the canonical bencoding of [v]. *)
Inductive bep3 : bval -> bytes -> Prop :=
| bep3_int z n : dec_text z n -> bep3 (BInt z) ("i"%byte :: n ++ ["e"%byte])
| bep3_str s t : str_text s t -> bep3 (BStr s) t
| bep3_list l ts : Forall2 bep3 l ts -> bep3 (BList l) ("l"%byte :: concat ts ++ ["e"%byte])
| bep3_dict m ks ts :
    ascending (map fst m) ->
    Forall2 str_text (map fst m) ks ->
    Forall2 bep3 (map snd m) ts ->
    bep3 (BDict m)
      ("d"%byte :: concat (map (fun kt => fst kt ++ snd kt) (combine ks ts)) ++ ["e"%byte]).

(** ** The accepted language *)

(** A 64-bit integer as strconv reads it: optional sign, then digits. *)
Definition go_int (z : Z) (n : bytes) : Prop :=
  exists sg ds, n = sg ++ ds /\ ds <> [] /\ forallb is_digit ds = true /\
    ((sg = [] \/ sg = ["+"%byte]) /\ z = digits_val ds \/
     sg = ["-"%byte] /\ z = - digits_val ds) /\
    - 2 ^ 63 <= z <= 2 ^ 63 - 1.

(** "0..." with more digits, or "-0...". *)
Definition zero_padded (n : bytes) : Prop :=
  (exists c n', n = "0"%byte :: c :: n') \/ (exists n', n = "-"%byte :: "0"%byte :: n').

Definition starts_with_digit (n : bytes) : Prop :=
  exists c n', n = c :: n' /\ is_digit c = true.
Definition starts_with (c : byte) (n : bytes) : Prop := exists n', n = c :: n'.

(** A length prefixed string whose length the decoder can parse; at most 2^48
    bytes (no Go slice is longer). *)
Definition lax_str (s t : bytes) : Prop :=
  exists n, go_int (zlen s) n /\ zlen s <= 2 ^ 48 /\ t = n ++ ":"%byte :: s.

(** A 64-bit unsigned integer: digits only. *)
Definition go_uint (z : Z) (n : bytes) : Prop :=
  n <> [] /\ forallb is_digit n = true /\ z = digits_val n /\ z <= 2 ^ 64 - 1.

(** [gram w ord v t]: text [t] spells [v].  Differences to [bep3]: integers are 64
    bit and may have a plus sign, lengths may have leading zeros, lengths of keys
    may have a sign; the keys of every dictionary satisfy [ord] instead of being
    strictly ascending.  With [w] ("wide": typed targets) integers may also be
    unsigned 64 bit and all string lengths may have a sign. *)
Inductive gram (w : bool) (ord : list bytes -> Prop) : bval -> bytes -> Prop :=
| gram_int z n : go_int z n \/ (w = true /\ go_uint z n) -> ~ zero_padded n ->
    gram w ord (BInt z) ("i"%byte :: n ++ ["e"%byte])
| gram_string s t : lax_str s t -> w = true \/ starts_with_digit t -> gram w ord (BStr s) t
| gram_list l ts : Forall2 (gram w ord) l ts ->
    gram w ord (BList l) ("l"%byte :: concat ts ++ ["e"%byte])
| gram_dict m ks ts :
    ord (map fst m) ->
    Forall2 lax_str (map fst m) ks ->
    Forall2 (gram w ord) (map snd m) ts ->
    gram w ord (BDict m)
      ("d"%byte :: concat (map (fun kt => fst kt ++ snd kt) (combine ks ts)) ++ ["e"%byte]).

(** Strictly ascending and non-empty keys. *)
Definition ascending_nonempty (ks : list bytes) : Prop := ascending ([] :: ks).
(** The language of values accepted by the decoder into [any] (or skipped), and the
    language accepted into typed targets. *)
Definition lax : bval -> bytes -> Prop := gram false ascending_nonempty.
Definition lax_typed : bval -> bytes -> Prop := gram true ascending_nonempty.
(** The same syntax without any requirement on key order. *)
Definition any_order : bval -> bytes -> Prop := gram true (fun _ => True).

(** Nesting depth: number of lists and dictionaries on the deepest path. *)
Fixpoint bdepth (v : bval) : nat :=
  match v with
  | BInt _ | BStr _ => O
  | BList l => S (fold_right (fun x a => Nat.max (bdepth x) a) O l)
  | BDict m => S (fold_right (fun p a => Nat.max (bdepth (snd p)) a) O m)
  end.

(** A predicate on integers and one on keys hold throughout. *)
Fixpoint b_all (pi : Z -> Prop) (pk : bytes -> Prop) (v : bval) : Prop :=
  match v with
  | BInt z => pi z
  | BStr _ => True
  | BList l => fold_right (fun x a => b_all pi pk x /\ a) True l
  | BDict m => fold_right (fun p a => pk (fst p) /\ b_all pi pk (snd p) /\ a) True m
  end.

(** Every dictionary has strictly ascending, non-empty keys. *)
Fixpoint b_sorted (v : bval) : Prop :=
  match v with
  | BInt _ | BStr _ => True
  | BList l => fold_right (fun x a => b_sorted x /\ a) True l
  | BDict m => ascending_nonempty (map fst m) /\ fold_right (fun p a => b_sorted (snd p) /\ a) True m
  end.
(** Every string is at most 2^48 bytes long (no Go byte slice is longer). *)
Fixpoint b_small (v : bval) : Prop :=
  match v with
  | BInt _ => True
  | BStr s => zlen s <= 2 ^ 48
  | BList l => fold_right (fun x a => b_small x /\ a) True l
  | BDict m => fold_right (fun p a => zlen (fst p) <= 2 ^ 48 /\ b_small (snd p) /\ a) True m
  end.
