(** Observing the fields of a struct value, to say what decoding into a used target does. *)
From Verif Require Import GoBase BencTypes BencFields BencSpec BencFieldSpec.

(** The value of the field at index path [p]; [None] if an embedded pointer on the way
    is nil. *)
Fixpoint field_at (t : gty) (p : list nat) (v : gval) : option gval :=
  match v with
  | VStruct l =>
      match p with
      | [] => None
      | [i] => nth_error l i
      | i :: p' =>
          match nth_error (struct_fields t) i, nth_error l i with
          | Some (_, ft), Some x =>
              match under ft, x with
              | TPtr t', VPtr x' => field_at t' p' x'
              | TPtr _, _ => None
              | _, _ => field_at ft p' x
              end
          | _, _ => None
          end
      end
  | _ => None
  end.

(** The text of one bencoded value. *)
Definition value_text (t : bytes) : Prop := exists bv, lax_typed bv t.

(** What a field of type [ft] offers to decode into: the pointed-to value for pointers,
    a zero value where there is none. *)
Definition content (ft : gty) (o : option gval) : gval :=
  match under ft with
  | TPtr t' => match o with Some (VPtr x) => x | _ => zero t' end
  | _ => match o with Some x => x | None => zero ft end
  end.
Definition stored (ft : gty) (new : gval) : gval := match under ft with TPtr _ => VPtr new | _ => new end.

(** The field was not touched (an embedded nil pointer above it may have been allocated). *)
Definition untouched (ft : gty) (o o' : option gval) : Prop := o' = o \/ (o = None /\ o' = Some (zero ft)).

(** The field that key [k] stands for: the unique shallowest field with that key. *)
Definition stands_for (t : gty) (p : list nat) (k : bytes) (ft : gty) : Prop :=
  (exists a, leaf_at t p = Some (a, ft) /\ field_key a = k) /\
  forall q, has_key t q k -> q <> p -> (List.length p < List.length q)%nat.
