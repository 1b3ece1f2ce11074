(** Deep embedding of the Go types and values that the reflection based codec in
    /repo/bencode walks over.

    Simplifications, all about Go rather than about drip:
    - recursive Go types are not representable (types are finite trees); cyclic
      values are not representable either;
    - aliasing between pointers is not modelled: a pointer owns its target;
    - a slice has no hidden elements between len and cap (they would be zero
      values for slices grown by the decoder itself);
    - method promotion through embedding is not derived: a type's methods are
      given explicitly in [TNamed]. *)
From Verif Require Import GoBase.

(** Integer kinds: reflect.Int, Int8, ... (also used for Uint, Uint8, ...). *)
Inductive iw := WInt | W8 | W16 | W32 | W64.
Definition iw_bits (w : iw) : Z :=
  match w with WInt => 64 | W8 => 8 | W16 => 16 | W32 => 32 | W64 => 64 end.

(** Receiver kind of a MarshalBencoding / UnmarshalBencoding method. *)
Inductive recv := RVal | RPtr.
Record meths := { m_marsh : option recv; m_unmarsh : option recv }.

(** The parts of reflect.StructField the codec looks at
    (bencode/encode.go:278-314): the name, the [bencode] tag text, whether it is
    embedded and whether it is exported. *)
Record fattr := { fa_name : bytes; fa_tag : bytes; fa_anon : bool; fa_exp : bool }.

Inductive gty :=
| TStr
| TInt (w : iw)
| TUint (w : iw)
| TBool
| TOther                                   (* float, chan, func, ...: unsupported kinds *)
| TSlice (t : gty)
| TArr (n : nat) (t : gty)
| TMap (k t : gty)
| TStruct (name : bytes) (fs : list (fattr * gty))
| TAny                                     (* interface{} *)
| TIface                                   (* an interface with methods, not Marshaler *)
| TPtr (t : gty)
| TNamed (id : nat) (ms : meths) (t : gty). (* defined type with methods; t its underlying type *)

Inductive gval :=
| VStr (s : bytes)
| VInt (z : Z)
| VUint (z : Z)
| VBool (b : bool)
| VOther
| VNil                                     (* nil slice, map, interface or pointer *)
| VBytes (b : bytes)                       (* non-nil slice whose element kind is uint8 *)
| VSlice (l : list gval)                   (* non-nil slice, or array *)
| VMap (m : list (bytes * gval))           (* non-nil map, in some iteration order *)
| VStruct (l : list gval)
| VIface (t : gty) (v : gval)              (* non-nil interface: dynamic type and value *)
| VPtr (v : gval).

(** reflect.Value flags that matter: addressable, and obtained through an
    unexported (embedded) field. *)
Record flags := { fl_addr : bool; fl_ro : bool }.
Definition settable (f : flags) : bool := fl_addr f && negb (fl_ro f).
Definition fl_root_val : flags := {| fl_addr := false; fl_ro := false |}.
(** reflect.Value.Elem of a pointer; Index of a slice. *)
Definition fl_elem (f : flags) : flags := {| fl_addr := true; fl_ro := fl_ro f |}.
(** Elem of an interface; MapIndex. *)
Definition fl_noaddr (f : flags) : flags := {| fl_addr := false; fl_ro := fl_ro f |}.
(** Field: inherits addressability; read-only iff the field itself is unexported
    (the embedded-read-only flag of the parent is dropped by reflect.Value.Field). *)
Definition fl_field (f : flags) (a : fattr) : flags :=
  {| fl_addr := fl_addr f; fl_ro := negb (fa_exp a) |}.
(** A value fresh from reflect.New(t).Elem(). *)
Definition fl_new : flags := {| fl_addr := true; fl_ro := false |}.

(** Underlying type: what reflect's Kind() switch sees. *)
Definition under (t : gty) : gty := match t with TNamed _ _ u => u | _ => t end.

Definition is_ptr (t : gty) : bool := match under t with TPtr _ => true | _ => false end.
Definition kind_string (t : gty) : bool := match under t with TStr => true | _ => false end.
Definition kind_uint8 (t : gty) : bool := match under t with TUint W8 => true | _ => false end.
Definition kind_struct (t : gty) : bool := match under t with TStruct _ _ => true | _ => false end.

(** Does type [t] itself implement the interface whose receivers are selected by
    [sel]?  (reflect: v.Type().Implements(...)): value receivers for a defined
    type, value or pointer receivers for a pointer to it. *)
Definition impl (sel : meths -> option recv) (t : gty) : option nat :=
  match t with
  | TNamed id ms _ => match sel ms with Some RVal => Some id | _ => None end
  | TPtr (TNamed id ms _) => match sel ms with Some _ => Some id | _ => None end
  | _ => None
  end.
(** reflect.PointerTo(t).Implements(...), for t not a pointer. *)
Definition ptr_impl (sel : meths -> option recv) (t : gty) : option nat :=
  match t with
  | TNamed id ms _ => match sel ms with Some _ => Some id | _ => None end
  | _ => None
  end.

(** The zero value of a type (reflect.New(t).Elem()). *)
Fixpoint zero (t : gty) : gval :=
  match t with
  | TStr => VStr []
  | TInt _ => VInt 0
  | TUint _ => VUint 0
  | TBool => VBool false
  | TOther => VOther
  | TSlice _ | TMap _ _ | TAny | TIface | TPtr _ => VNil
  | TArr n t' => VSlice (repeat (zero t') n)
  | TStruct _ fs => VStruct (map (fun p => zero (snd p)) fs)
  | TNamed _ _ t' => zero t'
  end.

(** Structural type identity (reflect.Type equality), used for the [visited] set. *)
Definition iw_eqb (a b : iw) : bool :=
  match a, b with
  | WInt, WInt | W8, W8 | W16, W16 | W32, W32 | W64, W64 => true
  | _, _ => false
  end.
Definition orecv_eqb (a b : option recv) : bool :=
  match a, b with
  | None, None | Some RVal, Some RVal | Some RPtr, Some RPtr => true
  | _, _ => false
  end.
Definition meths_eqb (a b : meths) : bool :=
  orecv_eqb (m_marsh a) (m_marsh b) && orecv_eqb (m_unmarsh a) (m_unmarsh b).
Definition fattr_eqb (a b : fattr) : bool :=
  bytes_eqb (fa_name a) (fa_name b) && bytes_eqb (fa_tag a) (fa_tag b) &&
  Bool.eqb (fa_anon a) (fa_anon b) && Bool.eqb (fa_exp a) (fa_exp b).

Fixpoint gty_eqb (a b : gty) {struct a} : bool :=
  match a, b with
  | TStr, TStr | TBool, TBool | TOther, TOther | TAny, TAny | TIface, TIface => true
  | TInt w, TInt w' | TUint w, TUint w' => iw_eqb w w'
  | TSlice t, TSlice t' | TPtr t, TPtr t' => gty_eqb t t'
  | TArr n t, TArr n' t' => Nat.eqb n n' && gty_eqb t t'
  | TMap k t, TMap k' t' => gty_eqb k k' && gty_eqb t t'
  | TStruct nm fs, TStruct nm' fs' =>
      bytes_eqb nm nm' &&
      (fix go (l l' : list (fattr * gty)) {struct l} : bool :=
         match l, l' with
         | [], [] => true
         | (x, t) :: r, (x', t') :: r' => fattr_eqb x x' && gty_eqb t t' && go r r'
         | _, _ => false
         end) fs fs'
  | TNamed i m t, TNamed i' m' t' => Nat.eqb i i' && meths_eqb m m' && gty_eqb t t'
  | _, _ => false
  end.

(** Nesting depth of types and values: bounds for the recursion fuel. *)
Fixpoint tdepth (t : gty) : nat :=
  match t with
  | TSlice t' | TArr _ t' | TPtr t' | TNamed _ _ t' => S (tdepth t')
  | TMap k t' => S (Nat.max (tdepth k) (tdepth t'))
  | TStruct _ fs => S (fold_right (fun p a => Nat.max (tdepth (snd p)) a) O fs)
  | _ => 1%nat
  end.
Fixpoint vdepth (v : gval) : nat :=
  match v with
  | VSlice l | VStruct l => S (fold_right (fun x a => Nat.max (vdepth x) a) O l)
  | VMap m => S (fold_right (fun p a => Nat.max (vdepth (snd p)) a) O m)
  | VPtr v' => S (vdepth v')
  | VIface t v' => S (2 * tdepth t + vdepth v')%nat
  | _ => 1%nat
  end.
