(** Model of struct field discovery: bencode/encode.go:220-359. *)
From Verif Require Import GoBase BencTypes.

(** type field struct (encode.go:225-234); [typ] and [field] are recomputed from
    [f_index] when needed. *)
Record finfo := {
  f_ignored : bool; f_index : list nat; f_name : bytes; f_tag : bytes;
  f_key : bytes; f_omit : bool }.

(** strings.ToLower, for ASCII names only (simplification: Go lower-cases all of
    Unicode; non-ASCII bytes are left alone here). *)
Definition lower_byte (b : byte) : byte :=
  if (65 <=? b2z b) && (b2z b <=? 90) then z2b (b2z b + 32) else b.
Definition to_lower (s : bytes) : bytes := map lower_byte s.

(** strings.Cut(s, ","): before, after. *)
Fixpoint cut (sep : byte) (s : bytes) : bytes * bytes :=
  match s with
  | [] => ([], [])
  | c :: s' => if beqb c sep then ([], s') else let (a, b) := cut sep s' in (c :: a, b)
  end.

(** The option loop of parseTag (encode.go:245-251). [fuel] bounds the number of
    options by the length of the text. *)
Fixpoint tag_omitempty (fuel : nat) (rest : bytes) : bool :=
  match fuel with
  | O => false
  | S n =>
      match rest with
      | [] => false
      | _ => let (opt, rest') := cut ","%byte rest in
             if bytes_eqb opt (bs "omitempty") then true else tag_omitempty n rest'
      end
  end.

(** parseTag (encode.go:241-253). *)
Definition parse_tag (tag : bytes) : bytes * bool :=
  let (name, rest) := cut ","%byte tag in (name, tag_omitempty (List.length tag) rest).

Fixpoint assoc {A} (k : bytes) (m : list (bytes * A)) : option A :=
  match m with
  | [] => None
  | (k', v) :: m' => if bytes_eqb k k' then Some v else assoc k m'
  end.
(** m[k] = v on a Go map. *)
Fixpoint assoc_set {A} (k : bytes) (v : A) (m : list (bytes * A)) : list (bytes * A) :=
  match m with
  | [] => [(k, v)]
  | (k', v') :: m' => if bytes_eqb k k' then (k', v) :: m' else (k', v') :: assoc_set k v m'
  end.

(** The decision for a field whose key may already be taken (encode.go:318-336). *)
Definition add_field (ktf : list (bytes * finfo)) (f : finfo) : list (bytes * finfo) :=
  match assoc (f_key f) ktf with
  | Some ef =>
      if (List.length (f_index ef) <? List.length (f_index f))%nat || f_ignored ef then ktf
      else if (negb (bytes_eqb (f_tag f) []) && bytes_eqb (f_tag f) (f_tag ef))
              || (bytes_eqb (f_tag ef) [] && bytes_eqb (f_name f) (f_name ef))
      then assoc_set (f_key f)
             {| f_ignored := true; f_index := f_index ef; f_name := f_name ef;
                f_tag := f_tag ef; f_key := f_key ef; f_omit := f_omit ef |} ktf
      else if negb (bytes_eqb (f_tag f) []) && bytes_eqb (f_tag ef) []
      then assoc_set (f_key f) f ktf
      else ktf
  | None => assoc_set (f_key f) f ktf
  end.

(** Element type of a pointer, otherwise the type itself. *)
Definition deref_ty (t : gty) : gty := match under t with TPtr t' => t' | _ => t end.

(** State of the search: keyToField and the [next] queue of embedded structs. *)
Definition bfs_acc := (list (bytes * finfo) * list (list nat * gty))%type.

(** One field [sf] = field [j] of the struct reached by [path]
    (encode.go:277-338). *)
Definition visit_field (path : list nat) (acc : bfs_acc) (j : nat) (sf : fattr * gty) : bfs_acc :=
  let (ktf, next) := acc in
  let (a, fty) := sf in
  let ft := if fa_anon a then deref_ty fty else fty in
  if (if fa_anon a then negb (fa_exp a) && negb (kind_struct ft) else negb (fa_exp a)) then acc
  else if bytes_eqb (fa_tag a) (bs "-") then acc
  else
    let (tn, omit) := parse_tag (fa_tag a) in
    let tag := to_lower tn in
    let name := to_lower (fa_name a) in
    let key := if bytes_eqb tag [] then name else tag in
    let f := {| f_ignored := false; f_index := path ++ [j]; f_name := name;
                f_tag := tag; f_key := key; f_omit := omit |} in
    if bytes_eqb tag [] && fa_anon a && kind_struct ft
    then (ktf, next ++ [(f_index f, fty)])
    else (add_field ktf f, next).

Fixpoint visit_fields (path : list nat) (acc : bfs_acc) (j : nat) (fs : list (fattr * gty)) : bfs_acc :=
  match fs with
  | [] => acc
  | sf :: fs' => visit_fields path (visit_field path acc j sf) (S j) fs'
  end.

Definition struct_fields (t : gty) : list (fattr * gty) :=
  match under t with TStruct _ fs => fs | _ => [] end.

Definition ty_in (t : gty) (l : list gty) : bool := existsb (gty_eqb t) l.

(** One level of the search (encode.go:268-339). *)
Fixpoint visit_level (curr : list (list nat * gty)) (visited : list gty) (acc : bfs_acc)
  : list gty * bfs_acc :=
  match curr with
  | [] => (visited, acc)
  | (path, ty) :: curr' =>
      let t := deref_ty ty in
      if ty_in t visited then visit_level curr' visited acc
      else visit_level curr' (t :: visited) (visit_fields path acc O (struct_fields t))
  end.

(** The level loop (encode.go:265-340).  [fuel] bounds the embedding depth;
    [None] = fuel exhausted (shown unreachable). *)
Fixpoint visit_all (fuel : nat) (next : list (list nat * gty)) (visited : list gty)
  (ktf : list (bytes * finfo)) : option (list (bytes * finfo)) :=
  match next with
  | [] => Some ktf
  | _ =>
      match fuel with
      | O => None
      | S n => let '(visited', (ktf', next')) := visit_level next visited (ktf, []) in
               visit_all n next' visited' ktf'
      end
  end.

(** keyToField of getFieldsForStruct (encode.go:255-340). *)
Definition key_to_field (t : gty) : list (bytes * finfo) :=
  match visit_all (S (tdepth t)) [([], t)] [] [] with Some k => k | None => [] end.

(** slices.SortFunc(_, strings.Compare on keys): insertion sort by key (the keys
    are distinct, so any correct sort gives the same list). *)
Fixpoint insert_by {A} (key : A -> bytes) (x : A) (l : list A) : list A :=
  match l with
  | [] => [x]
  | y :: l' => if bytes_ltb (key y) (key x) then y :: insert_by key x l' else x :: l
  end.
Fixpoint sort_by {A} (key : A -> bytes) (l : list A) : list A :=
  match l with
  | [] => []
  | x :: l' => insert_by key x (sort_by key l')
  end.

(** fields of getFieldsForStruct (encode.go:341-350): the non-ignored entries of
    the map, sorted by key. *)
Definition sorted_fields (t : gty) : list finfo :=
  sort_by f_key (filter (fun f => negb (f_ignored f)) (map snd (key_to_field t))).
