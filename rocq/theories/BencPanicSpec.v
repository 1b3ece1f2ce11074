(** When decoding cannot panic, and what a struct target looks like afterwards. *)
From Verif Require Import GoBase BencTypes BencFields BencEncode BencSpec BencFieldSpec.

(** Somewhere in the input, a number that is negative or exceeds the address space is
    followed by a colon, as if it were the length of a string. *)
Definition bad_length (inp : bytes) : Prop :=
  exists a l r n, inp = a ++ l ++ ":"%byte :: r /\ go_int n l /\ ~ (0 <= n <= 2 ^ 48).

(** UnmarshalBencoding methods do not panic on addressable receivers. *)
Definition customs_no_panic (C : customs) : Prop :=
  forall id v b, c_unmarsh C id (Some v) b <> UPanic.

Definition has_unmarshaler (t : gty) : bool :=
  match t with
  | TNamed _ ms u => (match m_unmarsh ms with Some _ => true | None => false end) && negb (is_ptr t)
  | _ => false
  end.

(** [ready t v]: [v] is an acceptable content for an addressable variable of type [t]
    that is to be decoded into.  Pointers must not be nil, except directly in a struct
    field; this includes pointers that would be created inside slices and maps.
    Interfaces are nil or hold non-nil pointers; fields that take part are exported.
    Types with an UnmarshalBencoding method take any content, unless they are embedded
    structs, which the codec takes apart. *)
Inductive ready : gty -> gval -> Prop :=
| rd_method t v : has_unmarshaler t = true -> ready t v
| rd_str t v : under t = TStr -> ready t v
| rd_int t v w : under t = TInt w -> ready t v
| rd_uint t v w : under t = TUint w -> ready t v
| rd_bytes t v et : under t = TSlice et -> kind_uint8 et = true -> ready t v
| rd_unsupported t v : match under t with TBool | TOther | TNamed _ _ _ => True | _ => False end -> ready t v
| rd_slice_nil t et : under t = TSlice et -> ready et (zero et) -> ready t VNil
| rd_slice t et l : under t = TSlice et -> ready et (zero et) -> Forall (ready et) l -> ready t (VSlice l)
| rd_arr t k et l : under t = TArr k et -> Forall (ready et) l -> ready t (VSlice l)
| rd_map t kt et v : under t = TMap kt et -> ready et (zero et) -> ready t v
| rd_any_nil t : under t = TAny -> ready t VNil
| rd_iface_nil t : under t = TIface -> ready t VNil
| rd_iface t t' v : under t = TAny \/ under t = TIface -> ready t' v -> ready t (VIface (TPtr t') (VPtr v))
| rd_ptr t t' v : under t = TPtr t' -> ready t' v -> ready t (VPtr v)
| rd_struct t nm fs l : under t = TStruct nm fs -> List.length l = List.length fs ->
    (forall i a ft x, nth_error fs i = Some (a, ft) -> nth_error l i = Some x ->
       field_skipped a ft = true \/
       ((fa_exp a = true \/ field_embed a ft = true /\ is_ptr ft = false) /\
        (field_embed a ft = true -> has_unmarshaler (deref_ty ft) = false) /\
         ((is_ptr ft = false /\ ready ft x) \/
          (exists t' x', under ft = TPtr t' /\ x = VPtr x' /\ ready t' x') \/
          (exists t', under ft = TPtr t' /\ x = VNil /\ ready t' (zero t'))))) ->
    ready t (VStruct l).
