(** What a marshalled value means, and which values survive a round trip. *)
From Verif Require Import GoBase BencTypes BencFields BencEncode BencSpec BencEncSpec BencFieldSpec.
From Coq Require Import Permutation.

(** The receiver a MarshalBencoding method is called with. *)
Definition marsh_recv (t : gty) (v : gval) : option gval :=
  match t, v with
  | TPtr _, VNil => None
  | TPtr _, VPtr v' => Some v'
  | _, _ => Some v
  end.
Definition marsh_id (t : gty) : option nat :=
  match t with
  | TNamed id _ _ | TPtr (TNamed id _ _) => Some id
  | _ => None
  end.

(** Is the value of field [f] of the struct [v] written at all? *)
Definition emitted (t : gty) (fl : flags) (v : gval) (f : finfo) : bool :=
  match field_by_index (f_index f) t fl v with
  | Some (ft, _, x) => negb (is_nil ft x) && negb (f_omit f && is_empty_value ft x)
  | None => false
  end.

(** [denotes C t fl v bv]: the Go value [v] of type [t] stands for the data [bv]:
    integers and strings for themselves, slices and arrays for lists of what their
    elements stand for, maps for dictionaries, structs for dictionaries of their
    emitted fields, pointers and interfaces for what they contain, values with their
    own method for the data that method encodes. *)
Inductive denotes (C : customs) : gty -> flags -> gval -> bval -> Prop :=
| dn_custom t fl v bv id b : uses_marshaler t fl = true -> marsh_id t = Some id ->
    c_marsh C id (marsh_recv t v) = Ok b -> bep3 bv b -> denotes C t fl v bv
| dn_str t fl s : uses_marshaler t fl = false -> under t = TStr -> denotes C t fl (VStr s) (BStr s)
| dn_int t fl w z : uses_marshaler t fl = false -> under t = TInt w -> denotes C t fl (VInt z) (BInt z)
| dn_uint t fl w z : uses_marshaler t fl = false -> under t = TUint w -> denotes C t fl (VUint z) (BInt z)
| dn_bytes t fl et b : uses_marshaler t fl = false -> under t = TSlice et -> kind_uint8 et = true ->
    denotes C t fl (VBytes b) (BStr b)
| dn_slice t fl et l bl : uses_marshaler t fl = false -> under t = TSlice et -> kind_uint8 et = false ->
    Forall2 (denotes C et (fl_elem fl)) l bl -> denotes C t fl (VSlice l) (BList bl)
| dn_arr t fl k et l bl : uses_marshaler t fl = false -> under t = TArr k et ->
    Forall2 (denotes C et fl) l bl -> denotes C t fl (VSlice l) (BList bl)
| dn_map t fl kt et m m1 bm : uses_marshaler t fl = false -> under t = TMap kt et ->
    Permutation m m1 -> ascending (map fst bm) ->
    Forall2 (fun p q => fst p = fst q /\ denotes C et (fl_noaddr fl) (snd p) (snd q)) m1 bm ->
    denotes C t fl (VMap m) (BDict bm)
| dn_struct t fl nm fs l bm : uses_marshaler t fl = false -> under t = TStruct nm fs ->
    ascending (map fst bm) ->
    Forall2 (fun f q => f_key f = fst q /\
               exists ft ffl x, field_by_index (f_index f) t fl (VStruct l) = Some (ft, ffl, x) /\ denotes C ft ffl x (snd q))
            (filter (emitted t fl (VStruct l)) (sorted_fields t)) bm ->
    denotes C t fl (VStruct l) (BDict bm)
| dn_iface t fl dt x bv : uses_marshaler t fl = false -> under t = TAny \/ under t = TIface ->
    denotes C dt (fl_noaddr fl) x bv -> denotes C t fl (VIface dt x) bv
| dn_ptr t fl t' x bv : uses_marshaler t fl = false -> under t = TPtr t' ->
    denotes C t' (fl_elem fl) x bv -> denotes C t fl (VPtr x) bv.

(** Does a value of type [t] decode through an UnmarshalBencoding method (the
    decoder always holds it in addressable memory)? *)
Definition uses_unmarshaler (t : gty) : bool :=
  match t with
  | TNamed _ ms u => match m_unmarsh ms with Some _ => true | None => false end
  | _ => false
  end.

(** The interface contents the decoder itself produces. *)
Definition any_ty (t : gty) : bool :=
  match t with
  | TInt WInt | TStr | TSlice TAny | TMap TStr TAny => true
  | _ => false
  end.

Definition int_fits (w : iw) (z : Z) : Prop := - 2 ^ (iw_bits w - 1) <= z < 2 ^ (iw_bits w - 1).
Definition uint_fits (w : iw) (z : Z) : Prop := 0 <= z < 2 ^ iw_bits w.
(** No Go string or slice is longer. *)
Definition len_fits (s : bytes) : Prop := zlen s <= 2 ^ 48.

(** [survives C t fl v]: [v] is a value of type [t] all of whose parts the format can
    carry and the decoder can put back:
    - numbers are in the range of their type;
    - slices, maps and interfaces are not nil, interfaces hold what the decoder puts
      into an interface, map keys are not empty;
    - a pointer occurs only as a struct field, and is nil (then the key is absent) or
      points to such a value;
    - a struct has no untagged embedded struct; every field is exported, written and
      survives, or is not written and has its zero value;
    - where a type has both methods, they succeed and Unmarshal undoes Marshal on this
      value; where it has only an UnmarshalBencoding method, that method undoes the
      encoding of the value (which may still be nested too deeply to be encoded). *)
Inductive survives (C : customs) : gty -> flags -> gval -> Prop :=
| sv_custom id ms u fl v : uses_marshaler (TNamed id ms u) fl = true -> uses_unmarshaler (TNamed id ms u) = true -> is_ptr u = false ->
    fl_ro fl = false ->
    (exists b v', c_marsh C id (Some v) = Ok b /\ (exists bv, lax bv b /\ bep3 bv b) /\
       c_unmarsh C id (Some (zero u)) b = UOk v' /\ same_data v v') ->
    survives C (TNamed id ms u) fl v
| sv_unmarshaler id ms u fl v : uses_marshaler (TNamed id ms u) fl = false -> uses_unmarshaler (TNamed id ms u) = true -> is_ptr u = false ->
    fl_ro fl = false ->
    (forall n d, (vdepth v < n)%nat ->
       (exists b d', encode C n (TNamed id ms u) fl d v = EErr b d' EDepth) \/
       (exists b bv v', encode C n (TNamed id ms u) fl d v = EOk b /\ lax bv b /\
          c_unmarsh C id (Some (zero u)) b = UOk v' /\ same_data v v')) ->
    survives C (TNamed id ms u) fl v
| sv_str t fl s : uses_marshaler t fl = false -> uses_unmarshaler t = false -> under t = TStr -> len_fits s -> survives C t fl (VStr s)
| sv_int t fl w z : uses_marshaler t fl = false -> uses_unmarshaler t = false -> under t = TInt w -> int_fits w z -> survives C t fl (VInt z)
| sv_uint t fl w z : uses_marshaler t fl = false -> uses_unmarshaler t = false -> under t = TUint w -> uint_fits w z -> survives C t fl (VUint z)
| sv_bytes t fl et b : uses_marshaler t fl = false -> uses_unmarshaler t = false -> under t = TSlice et -> kind_uint8 et = true -> len_fits b ->
    survives C t fl (VBytes b)
| sv_slice t fl et l : uses_marshaler t fl = false -> uses_unmarshaler t = false -> under t = TSlice et -> kind_uint8 et = false ->
    Forall (survives C et (fl_elem fl)) l -> survives C t fl (VSlice l)
| sv_arr t fl k et l : uses_marshaler t fl = false -> uses_unmarshaler t = false -> under t = TArr k et -> List.length l = k ->
    Forall (survives C et fl) l -> survives C t fl (VSlice l)
| sv_map t fl kt et m : uses_marshaler t fl = false -> uses_unmarshaler t = false -> under t = TMap kt et -> kind_string kt = true ->
    NoDup (map fst m) ->
    Forall (fun p => fst p <> [] /\ len_fits (fst p) /\ survives C et (fl_noaddr fl) (snd p)) m -> survives C t fl (VMap m)
| sv_any t fl dt x : uses_marshaler t fl = false -> uses_unmarshaler t = false -> under t = TAny -> any_ty dt = true ->
    survives C dt (fl_noaddr fl) x -> survives C t fl (VIface dt x)
| sv_struct t fl nm fs l : uses_marshaler t fl = false -> uses_unmarshaler t = false -> under t = TStruct nm fs ->
    List.length l = List.length fs ->
    (forall a ft, In (a, ft) fs -> field_embed a ft = false /\ len_fits (field_key a) /\ field_key a <> []) ->
    (forall i a ft x, nth_error fs i = Some (a, ft) -> nth_error l i = Some x ->
       (x = zero ft /\ forall f, In f (sorted_fields t) -> f_index f = [i] -> emitted t fl (VStruct l) f = false) \/
       (fa_exp a = true /\ (exists f, In f (sorted_fields t) /\ f_index f = [i] /\ emitted t fl (VStruct l) f = true) /\
        (is_ptr ft = false /\ survives C ft (fl_field fl a) x \/
         exists t' x', ft = TPtr t' /\ x = VPtr x' /\ survives C t' (fl_elem (fl_field fl a)) x'))) ->
    survives C t fl (VStruct l).
