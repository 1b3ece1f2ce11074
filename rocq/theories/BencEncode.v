(** Model of bencode/encode.go (encoder).  The writer is a bytes.Buffer, whose
    writes never fail (Marshal, encode.go:15-22); failing io.Writers are not
    modelled. *)
From Verif Require Import GoBase Strconv BencTypes BencFields.

(** The user supplied methods.  [None] as receiver is a nil pointer. *)
Inductive ures := UOk (v : gval) | UErr (v : gval) | UPanic.
Record customs := {
  c_marsh : nat -> option gval -> res unit bytes;
  c_unmarsh : nat -> option gval -> bytes -> ures }.

Inductive eerr :=
| EDepth                    (* "maximum pointer depth exceeded" *)
| EUnsupported (t : gty)    (* UnsupportedTypeError *)
| EUser                     (* error from a MarshalBencoding method *)
| EIll.                     (* value does not have its type: not a Go state *)

(** Result of encoding: bytes written; on error also the bytes already written
    and the value of ptrDepth left behind in the Encoder (it is not restored on
    error paths); a panic; or fuel exhaustion (shown unreachable). *)
Inductive eres :=
| EOk (b : bytes)
| EErr (b : bytes) (depth : nat) (e : eerr)
| EPanic
| EFuel.

(** Write [b], then continue. *)
Definition ewrite (b : bytes) (r : eres) : eres :=
  match r with
  | EOk b' => EOk (b ++ b')
  | EErr b' d e => EErr (b ++ b') d e
  | EPanic => EPanic
  | EFuel => EFuel
  end.
(** Run [r1] then [r2]; stop at the first failure. *)
Definition eseq (r1 r2 : eres) : eres :=
  match r1 with EOk b => ewrite b r2 | _ => r1 end.

(** encodeString / encodeBytes (encode.go:110-136). *)
Definition enc_str (s : bytes) : bytes :=
  format_N (N.of_nat (List.length s)) ++ ":"%byte :: s.
(** encodeInt / encodeUint (encode.go:138-164). *)
Definition enc_int (z : Z) : bytes := "i"%byte :: format_Z z ++ ["e"%byte].

(** const ptrDepthLimit = 1000 (encode.go:29). *)
Definition ptr_depth_limit : nat := 1000.

(** encodeMarshaler (encode.go:97-108): v.Interface() panics on a value obtained
    through an unexported field. *)
Definition enc_marshaler (C : customs) (id : nat) (r : option gval) (fl : flags) (d : nat) : eres :=
  if fl_ro fl then EPanic
  else match c_marsh C id r with
       | Ok b => EOk b
       | Err _ => EErr [] d EUser
       | Panic => EPanic
       end.

(** isNil (encode.go:361-368). *)
Definition is_nil (t : gty) (v : gval) : bool :=
  match under t, v with
  | (TSlice _ | TMap _ _ | TAny | TIface | TPtr _), VNil => true
  | _, _ => false
  end.

(** isEmptyValue (encode.go:370-381). *)
Definition is_empty_value (t : gty) (v : gval) : bool :=
  match under t, v with
  | TArr n _, _ => Nat.eqb n 0
  | TMap _ _, VNil => true
  | TMap _ _, VMap m => match m with [] => true | _ => false end
  | TSlice _, VNil => true
  | TSlice _, VBytes b => match b with [] => true | _ => false end
  | TSlice _, VSlice l => match l with [] => true | _ => false end
  | TStr, VStr s => match s with [] => true | _ => false end
  | TBool, VBool b => negb b
  | TInt _, VInt z => z =? 0
  | TUint _, VUint z => z =? 0
  | (TAny | TIface | TPtr _), VNil => true
  | _, _ => false
  end.

(** fieldByIndex (encode.go:383-395): walk an index path; stop at a nil. Returns
    the type, flags and value reached; [None] if the path leaves the value (not a
    Go state). *)
Fixpoint field_by_index (path : list nat) (t : gty) (fl : flags) (v : gval)
  : option (gty * flags * gval) :=
  match path with
  | [] => Some (t, fl, v)
  | i :: path' =>
      if is_nil t v then Some (t, fl, v)
      else
        let '(t1, fl1, v1) :=
          match under t, v with
          | TPtr t', VPtr v' => (t', fl_elem fl, v')
          | _, _ => (t, fl, v)
          end in
        match v1 with
        | VStruct l =>
            match nth_error (struct_fields t1) i, nth_error l i with
            | Some (a, ft), Some x => field_by_index path' ft (fl_field fl1 a) x
            | _, _ => None
            end
        | _ => None
        end
  end.

(** sort.SortFunc(keys) (encode.go:201-204). *)
Definition sort_map (m : list (bytes * gval)) : list (bytes * gval) := sort_by fst m.

Section WithCustoms.
Variable C : customs.

(** encode (encode.go:62-95) with the container encoders inlined
    (encodeSlice 166-186, encodeMap 188-218, encodeStruct 397-424).
    [d] is e.ptrDepth on entry. *)
Fixpoint encode (fuel : nat) (t : gty) (fl : flags) (d : nat) (v : gval) {struct fuel} : eres :=
  match fuel with
  | O => EFuel
  | S n =>
      match (if negb (is_ptr t) && fl_addr fl then ptr_impl m_marsh t else None), impl m_marsh t with
      | Some id, _ => enc_marshaler C id (Some v) fl d
      | None, Some id =>
          match t, v with
          | TPtr _, VNil => enc_marshaler C id None fl d
          | TPtr _, VPtr v' => enc_marshaler C id (Some v') fl d
          | _, _ => enc_marshaler C id (Some v) fl d
          end
      | None, None =>
          match under t, v with
          | TStr, VStr s => EOk (enc_str s)
          | TInt _, VInt z => EOk (enc_int z)
          | TUint _, VUint z => EOk (enc_int z)
          | TSlice et, VNil => if kind_uint8 et then EOk (enc_str []) else EOk []
          | TSlice et, VBytes b => if kind_uint8 et then EOk (enc_str b) else EErr [] d EIll
          | TSlice et, VSlice l =>
              if kind_uint8 et then EErr [] d EIll
              else if (ptr_depth_limit <? S d)%nat then EErr [] (S d) EDepth
              else ewrite ["l"%byte]
                     (eseq (fold_right (fun x k => eseq (encode n et (fl_elem fl) (S d) x) k) (EOk []) l)
                           (EOk ["e"%byte]))
          | TArr _ et, VSlice l =>
              if (ptr_depth_limit <? S d)%nat then EErr [] (S d) EDepth
              else ewrite ["l"%byte]
                     (eseq (fold_right (fun x k => eseq (encode n et fl (S d) x) k) (EOk []) l)
                           (EOk ["e"%byte]))
          | TMap _ _, VNil => EOk []
          | TMap kt et, VMap m =>
              if negb (kind_string kt) then EErr [] d (EUnsupported t)
              else if (ptr_depth_limit <? S d)%nat then EErr [] (S d) EDepth
              else ewrite ["d"%byte]
                     (eseq (fold_right (fun p k => ewrite (enc_str (fst p))
                                           (eseq (encode n et (fl_noaddr fl) (S d) (snd p)) k))
                                       (EOk []) (sort_map m))
                           (EOk ["e"%byte]))
          | TStruct _ _, VStruct _ =>
              if (ptr_depth_limit <? S d)%nat then EErr [] (S d) EDepth
              else ewrite ["d"%byte]
                     (eseq (fold_right
                              (fun f k =>
                                 match field_by_index (f_index f) t fl v with
                                 | None => EErr [] d EIll
                                 | Some (ft, ffl, fv) =>
                                     if is_nil ft fv then k
                                     else if f_omit f && is_empty_value ft fv then k
                                     else ewrite (enc_str (f_key f))
                                            (eseq (encode n ft ffl (S d) fv) k)
                                 end) (EOk []) (sorted_fields t))
                           (EOk ["e"%byte]))
          | (TAny | TIface), VNil => EOk []
          | (TAny | TIface), VIface dt dv => encode n dt (fl_noaddr fl) d dv
          | TPtr _, VNil => EOk []
          | TPtr t', VPtr v' => encode n t' (fl_elem fl) d v'
          | (TBool | TOther), _ => EErr [] d (EUnsupported t)
          | _, _ => EErr [] d EIll
          end
      end
  end.

(** Encoder.Encode on a fresh Encoder / Marshal (encode.go:15-37), on an [any]
    holding a value of type [t]; [Marshal(nil)] calls reflect.Value.Type on the
    zero Value and panics. *)
Definition marshal (x : option (gty * gval)) : eres :=
  match x with
  | None => EPanic
  | Some (t, v) => encode (S (vdepth v)) t fl_root_val O v
  end.
End WithCustoms.
