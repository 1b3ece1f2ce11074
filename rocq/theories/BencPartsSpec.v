(** Vocabulary for what Marshal writes for a value made of parts. *)
From Verif Require Import GoBase BencTypes BencSpec BencFieldSpec.

(** The parts of a field tag, between its commas. *)
Fixpoint tag_parts (s : bytes) : list bytes :=
  match s with
  | [] => [[]]
  | c :: s' => if beqb c ","%byte then [] :: tag_parts s'
               else match tag_parts s' with p :: ps => (c :: p) :: ps | [] => [[c]] end
  end.
(** "omitempty" is among the options, which are the parts after the first one. *)
Definition optional (a : fattr) : Prop := In (bs "omitempty") (tl (tag_parts (fa_tag a))).
(** Nothing in it: nil, zero, false, or no element. *)
Inductive empty_value : gval -> Prop :=
| em_nil : empty_value VNil
| em_int : empty_value (VInt 0)
| em_uint : empty_value (VUint 0)
| em_false : empty_value (VBool false)
| em_str : empty_value (VStr [])
| em_bytes : empty_value (VBytes [])
| em_list : empty_value (VSlice [])
| em_map : empty_value (VMap []).
(** A field with value [x] is not written: it is nil, or it is optional and empty. *)
Definition left_out (a : fattr) (x : gval) : Prop := x = VNil \/ (optional a /\ empty_value x).

(** [x] is a value of type [t], as far as its outermost constructor goes. *)
Definition of_kind (t : gty) (x : gval) : Prop :=
  match under t, x with
  | TStr, VStr _ | TInt _, VInt _ | TUint _, VUint _ | TBool, VBool _ | TOther, VOther => True
  | TSlice _, VNil | TMap _ _, VNil | TAny, VNil | TIface, VNil | TPtr _, VNil => True
  | TSlice et, VBytes _ => kind_uint8 et = true
  | TSlice et, VSlice _ => kind_uint8 et = false
  | TArr n _, VSlice l => List.length l = n
  | TMap _ _, VMap _ | TStruct _ _, VStruct _ | TAny, VIface _ _ | TIface, VIface _ _ | TPtr _, VPtr _ => True
  | _, _ => False
  end.

(** Fields of a struct without embedded ones: those that take part are the exported ones
    without the tag "-", and no two of them have the same key. *)
Definition takes_part (a : fattr) : Prop := fa_exp a = true /\ fa_tag a <> bs "-".
Definition flat (fs : list (fattr * gty)) : Prop :=
  (forall a ft, In (a, ft) fs -> fa_anon a = false) /\
  (forall i j a b ft gt, nth_error fs i = Some (a, ft) -> nth_error fs j = Some (b, gt) -> takes_part a -> takes_part b -> field_key a = field_key b -> i = j).

(** Go allows no methods on a defined pointer type. *)
Definition legal (t : gty) : Prop := match t with TNamed _ ms (TPtr _) => m_marsh ms = None | _ => True end.

(** The text of a dictionary with the keys and texts of values [es], in that order. *)
Inductive entries_text : list (bytes * bytes) -> bytes -> Prop :=
| et_nil : entries_text [] []
| et_cons k kt tx es b : str_text k kt -> entries_text es b -> entries_text ((k, tx) :: es) (kt ++ tx ++ b).
Definition dictionary (es : list (bytes * bytes)) (b : bytes) : Prop :=
  ascending (map fst es) /\ exists body, entries_text es body /\ b = "d"%byte :: body ++ ["e"%byte].
