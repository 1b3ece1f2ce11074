(** What a URL query string means, independent of the parser. *)
From Verif Require Import GoBase.

Definition hex_value (c : byte) (v : Z) : Prop :=
  48 <= b2z c <= 57 /\ v = b2z c - 48 \/ 65 <= b2z c <= 70 /\ v = b2z c - 55 \/ 97 <= b2z c <= 102 /\ v = b2z c - 87.
(** [percent e s]: [e] is a percent-encoding of [s], with '+' for a space. *)
Inductive percent : bytes -> bytes -> Prop :=
| pc_nil : percent [] []
| pc_plus e s : percent e s -> percent ("+"%byte :: e) (" "%byte :: s)
| pc_hex a b x y c e s : hex_value a x -> hex_value b y -> b2z c = 16 * x + y -> percent e s ->
    percent ("%"%byte :: a :: b :: e) (c :: s)
| pc_plain c e s : c <> "%"%byte -> c <> "+"%byte -> percent e s -> percent (c :: e) (c :: s).

(** A piece of a query between '&'s that gives key [k] the value [v]. *)
Definition piece_means (seg k v : bytes) : Prop :=
  seg <> [] /\ ~ In ";"%byte seg /\
  ((exists ek ev, seg = ek ++ "="%byte :: ev /\ ~ In "="%byte ek /\ percent ek k /\ percent ev v) \/
   (~ In "="%byte seg /\ percent seg k /\ v = [])).

(** The pieces of a query, in order. *)
Inductive pieces : bytes -> list bytes -> Prop :=
| pieces_last seg : ~ In "&"%byte seg -> pieces seg [seg]
| pieces_more seg q segs : ~ In "&"%byte seg -> pieces q segs -> pieces (seg ++ "&"%byte :: q) (seg :: segs).

(** The pairs a query stands for: those of its well-formed pieces, in order. *)
Inductive pairs_of : list bytes -> list (bytes * bytes) -> Prop :=
| po_nil : pairs_of [] []
| po_good seg segs k v ps : piece_means seg k v -> pairs_of segs ps -> pairs_of (seg :: segs) ((k, v) :: ps)
| po_bad seg segs ps : (forall k v, ~ piece_means seg k v) -> pairs_of segs ps -> pairs_of (seg :: segs) ps.
Definition query_means (q : bytes) (ps : list (bytes * bytes)) : Prop := exists segs, pieces q segs /\ pairs_of segs ps.

(** All values of a key, in order, and the first one ("" if there is none). *)
Fixpoint all_values (k : bytes) (ps : list (bytes * bytes)) : list bytes :=
  match ps with
  | [] => []
  | (k', v) :: ps' => if bytes_eqb k k' then v :: all_values k ps' else all_values k ps'
  end.
Definition first_value (k : bytes) (ps : list (bytes * bytes)) : bytes := hd [] (all_values k ps).
