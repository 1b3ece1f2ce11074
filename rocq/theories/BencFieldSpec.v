(** Specification of which struct fields take part in (un)marshalling, written as a
    walk along index paths through the type, without any search. *)
From Verif Require Import GoBase BencTypes BencFields.

(** Not considered at all: unexported (unless an embedded struct) or tagged "-". *)
Definition field_skipped (a : fattr) (fty : gty) : bool :=
  (if fa_anon a then negb (fa_exp a) && negb (kind_struct (deref_ty fty)) else negb (fa_exp a))
  || bytes_eqb (fa_tag a) (bs "-").
(** Key given by the tag, lower case; empty if there is none. *)
Definition field_tag (a : fattr) : bytes := to_lower (fst (parse_tag (fa_tag a))).
(** The dictionary key of a field. *)
Definition field_key (a : fattr) : bytes :=
  if bytes_eqb (field_tag a) [] then to_lower (fa_name a) else field_tag a.
(** An untagged embedded struct: its fields are searched, it is not a field itself. *)
Definition field_embed (a : fattr) (fty : gty) : bool :=
  bytes_eqb (field_tag a) [] && fa_anon a && kind_struct (deref_ty fty).

(** The field at index path [p] of struct type [t], if every step but the last goes
    through an untagged embedded struct (or pointer to struct) and the last is a
    field that can carry a value. *)
Fixpoint leaf_at (t : gty) (p : list nat) : option (fattr * gty) :=
  match p with
  | [] => None
  | i :: p' =>
      match nth_error (struct_fields (deref_ty t)) i with
      | Some (a, ft) =>
          if field_skipped a ft then None
          else match p' with
               | [] => if field_embed a ft then None else Some (a, ft)
               | _ => if field_embed a ft then leaf_at ft p' else None
               end
      | None => None
      end
  end.

(** [p] leads to a field of [t] with key [k]. *)
Definition has_key (t : gty) (p : list nat) (k : bytes) : Prop :=
  exists a ft, leaf_at t p = Some (a, ft) /\ field_key a = k.
