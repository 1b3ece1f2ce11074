(** Vocabulary for the statements about Marshal. *)
From Verif Require Import GoBase BencTypes BencFields BencEncode BencSpec.
From Coq Require Import Permutation.

(** No nil anywhere except directly in a struct field: in particular no nil list
    element and no nil map value. *)
Fixpoint no_nil (v : gval) : Prop :=
  match v with
  | VNil => False
  | VSlice l => fold_right (fun x a => no_nil x /\ a) True l
  | VMap m => fold_right (fun p a => no_nil (snd p) /\ a) True m
  | VStruct l => fold_right (fun x a => (x = VNil \/ no_nil x) /\ a) True l
  | VIface _ v' | VPtr v' => no_nil v'
  | _ => True
  end.

(** Go maps have distinct keys. *)
Fixpoint maps_distinct (v : gval) : Prop :=
  match v with
  | VSlice l | VStruct l => fold_right (fun x a => maps_distinct x /\ a) True l
  | VMap m => NoDup (map fst m) /\ fold_right (fun p a => maps_distinct (snd p) /\ a) True m
  | VIface _ v' | VPtr v' => maps_distinct v'
  | _ => True
  end.

(** User supplied MarshalBencoding methods return canonical bencoding. *)
Definition customs_canonical (C : customs) : Prop :=
  forall id r b, c_marsh C id r = Ok b -> exists bv, bep3 bv b.

(** The same Go value, with every map iterated in a possibly different order. *)
Inductive same_data : gval -> gval -> Prop :=
| sd_refl v : same_data v v
| sd_slice l l' : Forall2 same_data l l' -> same_data (VSlice l) (VSlice l')
| sd_struct l l' : Forall2 same_data l l' -> same_data (VStruct l) (VStruct l')
| sd_iface t v v' : same_data v v' -> same_data (VIface t v) (VIface t v')
| sd_ptr v v' : same_data v v' -> same_data (VPtr v) (VPtr v')
| sd_map m m1 m' : NoDup (map fst m) -> Permutation m m1 ->
    Forall2 (fun p q => fst p = fst q /\ same_data (snd p) (snd q)) m1 m' ->
    same_data (VMap m) (VMap m').

(** User supplied methods do not depend on map iteration order either. *)
Definition customs_order_free (C : customs) : Prop :=
  forall id r r', same_data r r' -> c_marsh C id (Some r) = c_marsh C id (Some r').

(** A value of type [t] is encoded by its own MarshalBencoding method: the type has
    one, or it is addressable and a pointer to it has one. *)
Definition uses_marshaler (t : gty) (fl : flags) : bool :=
  match t with
  | TNamed _ ms u =>
      match m_marsh ms with
      | Some RVal => true
      | Some RPtr => fl_addr fl && negb (is_ptr t)
      | None => false
      end
  | TPtr (TNamed _ ms _) => match m_marsh ms with Some _ => true | None => false end
  | _ => false
  end.

(** [nest n t fl v]: there is a path through the emitted parts of [v] that passes
    through [n] slices, arrays, maps or structs. *)
Inductive nest : nat -> gty -> flags -> gval -> Prop :=
| nest_here t fl v : nest O t fl v
| nest_slice n t fl et l : uses_marshaler t fl = false -> under t = TSlice et -> kind_uint8 et = false ->
    (n = O \/ exists x, In x l /\ nest n et (fl_elem fl) x) -> nest (S n) t fl (VSlice l)
| nest_arr n t fl k et l : uses_marshaler t fl = false -> under t = TArr k et ->
    (n = O \/ exists x, In x l /\ nest n et fl x) -> nest (S n) t fl (VSlice l)
| nest_map n t fl kt et m : uses_marshaler t fl = false -> under t = TMap kt et -> kind_string kt = true ->
    (n = O \/ exists k x, In (k, x) m /\ nest n et (fl_noaddr fl) x) -> nest (S n) t fl (VMap m)
| nest_struct n t fl nm fs l : uses_marshaler t fl = false -> under t = TStruct nm fs ->
    (n = O \/ exists f ft ffl x, In f (sorted_fields t) /\ field_by_index (f_index f) t fl (VStruct l) = Some (ft, ffl, x) /\
        is_nil ft x = false /\ f_omit f && is_empty_value ft x = false /\ nest n ft ffl x) ->
    nest (S n) t fl (VStruct l)
| nest_iface n t fl dt x : uses_marshaler t fl = false -> under t = TAny \/ under t = TIface -> nest n dt (fl_noaddr fl) x ->
    nest n t fl (VIface dt x)
| nest_ptr n t fl t' x : uses_marshaler t fl = false -> under t = TPtr t' -> nest n t' (fl_elem fl) x -> nest n t fl (VPtr x).
