(** Model of bencode/decode.go.  The reader is a bufio.Reader over the complete
    input held in memory (Unmarshal, decode.go:13-17): ReadByte and ReadString
    fail only at the end of input, UnreadByte directly after ReadByte never fails.
    Stack exhaustion of the Go runtime on extremely deep input and lack of memory
    are not modelled. *)
From Verif Require Import GoBase Strconv BencTypes BencFields BencEncode.

Inductive derr :=
| DEof                        (* io.EOF from ReadByte *)
| DSyntax (off : Z)           (* newSyntaxError: carries d.offset *)
| DUnsorted                   (* "dictionary keys not sorted" *)
| DUnsupported (t : gty)      (* UnsupportedTypeError *)
| DUser                       (* error returned by UnmarshalBencoding *)
| DConsume (e : derr)         (* "decodeUnmarshaler error at offset %d: %w"; the offset is not modelled *)
| DNotPtr                     (* "must decode into non-nil pointer" *)
| DIll.                       (* value does not have its type: not a Go state *)

(** make([]byte, n) panics when n < 0 or n exceeds the address space
    (runtime maxAlloc = 2^48 on amd64). *)
Definition max_alloc : Z := 2 ^ 48.
Definition make_ok (n : Z) : bool := (0 <=? n) && (n <=? max_alloc).

(** d.ReadString(delim): text before the delimiter and what follows it. *)
Fixpoint read_until (delim : byte) (s : bytes) : option (bytes * bytes) :=
  match s with
  | [] => None
  | c :: s' => if beqb c delim then Some ([], s')
               else match read_until delim s' with
                    | Some (a, b) => Some (c :: a, b)
                    | None => None
                    end
  end.

Inductive sres :=
| SOk (lenstr body rest : bytes) (off : Z)
| SErr (e : derr)
| SPanic.

(** The common body of consumeString (decode.go:126-149) and decodeString
    (decode.go:259-274): length prefix, ':', that many bytes. *)
Definition read_str (inp : bytes) (off : Z) : sres :=
  match read_until ":"%byte inp with
  | None => SErr (DSyntax off)
  | Some (lenstr, rest) =>
      match atoi lenstr with
      | None => SErr (DSyntax off)
      | Some n =>
          let off1 := off + zlen lenstr + 1 in
          if negb (make_ok n) then SPanic
          else if zlen rest <? n then SErr (DSyntax off1)
          else SOk lenstr (firstn (Z.to_nat n) rest) (skipn (Z.to_nat n) rest) (off1 + n)
      end
  end.

(** leadingZero (decode.go:283-294). *)
Definition leading_zero (s : bytes) : bool :=
  match s with
  | [] => false
  | c :: s' =>
      if beqb c "0"%byte then match s' with [] => false | _ => true end
      else if beqb c "-"%byte then match s' with [] => false | c' :: _ => beqb c' "0"%byte end
      else false
  end.

Inductive ires :=
| IOk (txt rest : bytes) (z : Z) (off : Z)
| IErr (e : derr).

(** The common body of consumeInt (151-172), decodeInt (296-317) and decodeUint
    (322-343); they differ only in the strconv function [parse]. *)
Definition read_int (parse : bytes -> option Z) (inp : bytes) (off : Z) : ires :=
  match inp with
  | [] => IErr DEof
  | c :: inp' =>
      if negb (beqb c "i"%byte) then IErr (DSyntax off)
      else
        match read_until "e"%byte inp' with
        | None => IErr (DSyntax (off + 1))
        | Some (txt, rest) =>
            if leading_zero txt then IErr (DSyntax (off + 1))
            else match parse txt with
                 | None => IErr (DSyntax (off + 1))
                 | Some z => IOk txt rest z (off + 1 + zlen txt + 1)
                 end
        end
  end.

Inductive cres :=
| COk (out rest : bytes) (off : Z)
| CErr (e : derr)
| CPanic
| CFuel.

(** consume, consumeList and consumeDictionary (decode.go:102-257).  [out] is
    what is written to [buf]; with a nil buf it is simply not used. *)
Fixpoint consume (fuel : nat) (inp : bytes) (off : Z) {struct fuel} : cres :=
  match fuel with
  | O => CFuel
  | S n =>
      match inp with
      | [] => CErr DEof
      | c :: inp' =>
          if beqb c "i"%byte then
            match read_int parse_int inp off with
            | IOk txt rest _ off' => COk ("i"%byte :: txt ++ ["e"%byte]) rest off'
            | IErr e => CErr e
            end
          else if beqb c "l"%byte then consume_list n ["l"%byte] inp' (off + 1)
          else if beqb c "d"%byte then consume_dict n ["d"%byte] [] inp' (off + 1)
          else if is_digit c then
            match read_str inp off with
            | SOk lenstr body rest off' => COk (lenstr ++ ":"%byte :: body) rest off'
            | SErr e => CErr e
            | SPanic => CPanic
            end
          else CErr (DSyntax off)
      end
  end
with consume_list (fuel : nat) (out : bytes) (inp : bytes) (off : Z) {struct fuel} : cres :=
  match fuel with
  | O => CFuel
  | S n =>
      match inp with
      | [] => CErr DEof
      | c :: inp' =>
          if beqb c "e"%byte then COk (out ++ ["e"%byte]) inp' (off + 1)
          else match consume n inp off with
               | COk o rest off' => consume_list n (out ++ o) rest off'
               | r => r
               end
      end
  end
with consume_dict (fuel : nat) (out : bytes) (last_key : bytes) (inp : bytes) (off : Z) {struct fuel} : cres :=
  match fuel with
  | O => CFuel
  | S n =>
      match inp with
      | [] => CErr DEof
      | c :: inp' =>
          if beqb c "e"%byte then COk (out ++ ["e"%byte]) inp' (off + 1)
          else match read_str inp off with
               | SErr e => CErr e
               | SPanic => CPanic
               | SOk lenstr key rest off' =>
                   if negb (bytes_ltb last_key key) then CErr DUnsorted
                   else match consume n rest off' with
                        | COk o rest' off'' =>
                            consume_dict n (out ++ lenstr ++ ":"%byte :: key ++ o) key rest' off''
                        | r => r
                        end
               end
      end
  end.

(** Result of decoding into a value: the new value and the unread input; on
    error the (possibly partly updated) value. *)
Inductive dres :=
| DOk (v : gval) (rest : bytes) (off : Z)
| DErr (v : gval) (e : derr)
| DPanic
| DFuel.

Definition dmap (f : gval -> gval) (r : dres) : dres :=
  match r with
  | DOk v rest off => DOk (f v) rest off
  | DErr v e => DErr (f v) e
  | DPanic => DPanic
  | DFuel => DFuel
  end.

(** The pointer walk of decodeStruct (decode.go:494-503), read part: type, flags
    and current value of the destination, allocating nil pointers on the way.
    [None] is a panic (Set on an unsettable value, Field of a non-struct). *)
Fixpoint path_get (path : list nat) (t : gty) (fl : flags) (v : gval) : option (gty * flags * gval) :=
  match path with
  | [] => Some (t, fl, v)
  | i :: path' =>
      match v with
      | VStruct l =>
          match nth_error (struct_fields t) i, nth_error l i with
          | Some (a, ft), Some x =>
              let ffl := fl_field fl a in
              match under ft, x with
              | TPtr t', VNil => if settable ffl then path_get path' t' (fl_elem ffl) (zero t') else None
              | TPtr t', VPtr x' => path_get path' t' (fl_elem ffl) x'
              | _, _ => path_get path' ft ffl x
              end
          | _, _ => None
          end
      | _ => None
      end
  end.
(** Write part: the struct with the destination replaced by [new]. *)
Fixpoint path_set (path : list nat) (t : gty) (v : gval) (new : gval) : gval :=
  match path with
  | [] => new
  | i :: path' =>
      match v with
      | VStruct l =>
          match nth_error (struct_fields t) i, nth_error l i with
          | Some (_, ft), Some x =>
              VStruct (list_set i
                (match under ft, x with
                 | TPtr t', VNil => VPtr (path_set path' t' (zero t') new)
                 | TPtr t', VPtr x' => VPtr (path_set path' t' x' new)
                 | _, _ => path_set path' ft x new
                 end) l)
          | _, _ => v
          end
      | _ => v
      end
  end.

Definition any_slice : gty := TSlice TAny.
Definition any_map : gty := TMap TStr TAny.

Section WithCustoms.
Variable C : customs.

(** decodeUnmarshaler (decode.go:86-96). [wrapv] rebuilds the decoded-into value
    from the receiver's new target. *)
Definition dec_unmarshaler (fuel : nat) (id : nat) (r : option gval) (fl : flags) (old : gval)
  (wrapv : gval -> gval) (inp : bytes) (off : Z) : dres :=
  if fl_ro fl then DPanic
  else match consume fuel inp off with
       | COk out rest off' =>
           match c_unmarsh C id r out with
           | UOk v' => DOk (wrapv v') rest off'
           | UErr v' => DErr (wrapv v') DUser
           | UPanic => DPanic
           end
       | CErr e => DErr old (DConsume e)
       | CPanic => DPanic
       | CFuel => DFuel
       end.

(** decode (decode.go:52-84) and the container decoders.  [old] is the current
    content of the destination [v]. *)
Fixpoint decode (fuel : nat) (t : gty) (fl : flags) (old : gval) (inp : bytes) (off : Z) {struct fuel} : dres :=
  match fuel with
  | O => DFuel
  | S n =>
      match (if negb (is_ptr t) && fl_addr fl then ptr_impl m_unmarsh t else None), impl m_unmarsh t with
      | Some id, _ => dec_unmarshaler n id (Some old) fl old (fun v => v) inp off
      | None, Some id =>
          match t, old with
          | TPtr _, VNil => dec_unmarshaler n id None fl old (fun _ => VNil) inp off
          | TPtr _, VPtr v' => dec_unmarshaler n id (Some v') fl old VPtr inp off
          | _, _ => dec_unmarshaler n id (Some old) fl old (fun _ => old) inp off
          end
      | None, None =>
          match under t with
          (* decodeString (259-281) *)
          | TStr =>
              match read_str inp off with
              | SOk _ body rest off' => if settable fl then DOk (VStr body) rest off' else DPanic
              | SErr e => DErr old e
              | SPanic => DPanic
              end
          (* decodeInt (296-320): v.SetInt truncates to the width *)
          | TInt w =>
              match read_int parse_int inp off with
              | IOk _ rest z off' =>
                  if settable fl then DOk (VInt (wrap_s (iw_bits w) z)) rest off' else DPanic
              | IErr e => DErr old e
              end
          (* decodeUint (322-346) *)
          | TUint w =>
              match read_int parse_uint inp off with
              | IOk _ rest z off' =>
                  if settable fl then DOk (VUint (wrap_u (iw_bits w) z)) rest off' else DPanic
              | IErr e => DErr old e
              end
          | TSlice et =>
              if kind_uint8 et then
                match read_str inp off with
                | SOk _ body rest off' => if settable fl then DOk (VBytes body) rest off' else DPanic
                | SErr e => DErr old e
                | SPanic => DPanic
                end
              else
                (* decodeSlice (348-359), slice *)
                match inp with
                | [] => DErr old DEof
                | c :: inp' =>
                    if negb (beqb c "l"%byte) then DErr old (DSyntax off)
                    else match old with
                         | VNil => if settable fl then decode_slice n et fl [] [] inp' (off + 1) else DPanic
                         | VSlice l => decode_slice n et fl [] l inp' (off + 1)
                         | _ => DErr old DIll
                         end
                end
          | TArr _ et =>
              (* decodeSlice, array *)
              match inp with
              | [] => DErr old DEof
              | c :: inp' =>
                  if negb (beqb c "l"%byte) then DErr old (DSyntax off)
                  else match old with
                       | VSlice l => decode_array n et fl [] l inp' (off + 1)
                       | _ => DErr old DIll
                       end
              end
          | TMap kt et =>
              (* decodeMap (401-419) *)
              match inp with
              | [] => DErr old DEof
              | c :: inp' =>
                  if negb (beqb c "d"%byte) then DErr old (DSyntax off)
                  else if negb (kind_string kt) then DErr old (DUnsupported t)
                  else match old with
                       | VNil => if settable fl then decode_map n et fl [] [] inp' (off + 1) else DPanic
                       | VMap m => decode_map n et fl m [] inp' (off + 1)
                       | _ => DErr old DIll
                       end
              end
          | TStruct _ _ =>
              (* decodeStruct (457-467) *)
              match inp with
              | [] => DErr old DEof
              | c :: inp' =>
                  if negb (beqb c "d"%byte) then DErr old (DSyntax off)
                  else decode_struct n t fl old [] inp' (off + 1)
              end
          | TAny | TIface =>
              (* decodeInterface (512-546) *)
              match old with
              | VIface dt dv => dmap (VIface dt) (decode n dt (fl_noaddr fl) dv inp off)
              | VNil =>
                  match under t with
                  | TIface => DErr old (DUnsupported t)
                  | _ =>
                      match inp with
                      | [] => DErr old DEof
                      | c :: _ =>
                          let dt :=
                            if beqb c "i"%byte then Some (TInt WInt)
                            else if beqb c "l"%byte then Some any_slice
                            else if beqb c "d"%byte then Some any_map
                            else if is_digit c then Some TStr
                            else None in
                          match dt with
                          | None => DErr old (DSyntax off)
                          | Some dt =>
                              match decode n dt fl_new (zero dt) inp off with
                              | DOk v rest off' => if settable fl then DOk (VIface dt v) rest off' else DPanic
                              | DErr _ e => DErr old e
                              | DPanic => DPanic
                              | DFuel => DFuel
                              end
                          end
                      end
                  end
              | _ => DErr old DIll
              end
          (* case reflect.Pointer: d.decode(v.Elem()); Elem of a nil pointer is the
             zero Value, on which v.Type() panics *)
          | TPtr t' =>
              match old with
              | VPtr v' => dmap VPtr (decode n t' (fl_elem fl) v' inp off)
              | VNil => DPanic
              | _ => DErr old DIll
              end
          | TBool | TOther | TNamed _ _ _ => DErr old (DUnsupported t)
          end
      end
  end
(** The element loop of decodeSlice for slices (decode.go:360-398): [pre] are the
    elements already decoded (v[0:i]), [post] the old elements v[i:]. *)
with decode_slice (fuel : nat) (et : gty) (fl : flags) (pre post : list gval) (inp : bytes) (off : Z) {struct fuel} : dres :=
  match fuel with
  | O => DFuel
  | S n =>
      match inp with
      | [] => DErr (VSlice (pre ++ post)) DEof
      | c :: inp' =>
          if beqb c "e"%byte then DOk (VSlice (pre ++ post)) inp' (off + 1)
          else
            (* i >= v.Len(): Grow/SetLen, which need a settable value *)
            match (match post with
                   | [] => if settable fl then Some (zero et, []) else None
                   | x :: post' => Some (x, post')
                   end) with
            | None => DPanic
            | Some (x, post') =>
                match decode n et (fl_elem fl) x inp off with
                | DOk x' rest off' => decode_slice n et fl (pre ++ [x']) post' rest off'
                | DErr x' e => DErr (VSlice (pre ++ x' :: post')) e
                | DPanic => DPanic
                | DFuel => DFuel
                end
            end
      end
  end
(** The element loop for arrays: surplus elements are consumed and dropped. *)
with decode_array (fuel : nat) (et : gty) (fl : flags) (pre post : list gval) (inp : bytes) (off : Z) {struct fuel} : dres :=
  match fuel with
  | O => DFuel
  | S n =>
      match inp with
      | [] => DErr (VSlice (pre ++ post)) DEof
      | c :: inp' =>
          if beqb c "e"%byte then DOk (VSlice (pre ++ post)) inp' (off + 1)
          else
            match post with
            | x :: post' =>
                match decode n et fl x inp off with
                | DOk x' rest off' => decode_array n et fl (pre ++ [x']) post' rest off'
                | DErr x' e => DErr (VSlice (pre ++ x' :: post')) e
                | DPanic => DPanic
                | DFuel => DFuel
                end
            | [] =>
                match consume n inp off with
                | COk _ rest off' => decode_array n et fl pre [] rest off'
                | CErr e => DErr (VSlice pre) e
                | CPanic => DPanic
                | CFuel => DFuel
                end
            end
      end
  end
(** The key loop of decodeMap (decode.go:420-445). *)
with decode_map (fuel : nat) (et : gty) (fl : flags) (m : list (bytes * gval)) (last_key : bytes) (inp : bytes) (off : Z) {struct fuel} : dres :=
  match fuel with
  | O => DFuel
  | S n =>
      match inp with
      | [] => DErr (VMap m) DEof
      | c :: inp' =>
          if beqb c "e"%byte then DOk (VMap m) inp' (off + 1)
          else match read_str inp off with
               | SErr e => DErr (VMap m) e
               | SPanic => DPanic
               | SOk _ key rest off' =>
                   if negb (bytes_ltb last_key key) then DErr (VMap m) DUnsorted
                   else
                     (* d.decode(elem) with elem a fresh non-nil *et *)
                     match decode n (TPtr et) fl_root_val (VPtr (zero et)) rest off' with
                     | DOk (VPtr x) rest' off'' =>
                         if fl_ro fl then DPanic
                         else decode_map n et fl (assoc_set key x m) key rest' off''
                     | DOk _ _ _ => DErr (VMap m) DIll
                     | DErr _ e => DErr (VMap m) e
                     | DPanic => DPanic
                     | DFuel => DFuel
                     end
               end
      end
  end
(** The key loop of decodeStruct (decode.go:468-507). *)
with decode_struct (fuel : nat) (t : gty) (fl : flags) (v : gval) (last_key : bytes) (inp : bytes) (off : Z) {struct fuel} : dres :=
  match fuel with
  | O => DFuel
  | S n =>
      match inp with
      | [] => DErr v DEof
      | c :: inp' =>
          if beqb c "e"%byte then DOk v inp' (off + 1)
          else match read_str inp off with
               | SErr e => DErr v e
               | SPanic => DPanic
               | SOk _ key rest off' =>
                   if negb (bytes_ltb last_key key) then DErr v DUnsorted
                   else
                     match assoc key (key_to_field t) with
                     | None =>
                         match consume n rest off' with
                         | COk _ rest' off'' => decode_struct n t fl v key rest' off''
                         | CErr e => DErr v e
                         | CPanic => DPanic
                         | CFuel => DFuel
                         end
                     | Some f =>
                         match path_get (f_index f) t fl v with
                         | None => DPanic
                         | Some (ft, ffl, x) =>
                             match decode n ft ffl x rest off' with
                             | DOk x' rest' off'' =>
                                 decode_struct n t fl (path_set (f_index f) t v x') key rest' off''
                             | DErr x' e => DErr (path_set (f_index f) t v x') e
                             | DPanic => DPanic
                             | DFuel => DFuel
                             end
                         end
                     end
               end
      end
  end.

(** Enough fuel for any run from these arguments (proved in BencFuelProofs.v). *)
Definition dec_fuel (t : gty) (old : gval) (inp : bytes) : nat :=
  let k := (24 + 8 * tdepth t + 4 * vdepth old)%nat in
  (S (List.length inp) * k + k)%nat.

(** Decoder.Decode on a pointer to [old] : t (decode.go:31-40), and Unmarshal
    (decode.go:13-17), which ignores whatever follows the first item. *)
Definition unmarshal (t : gty) (old : gval) (inp : bytes) : dres :=
  decode (dec_fuel (TPtr t) (VPtr old) inp) (TPtr t) fl_root_val (VPtr old) inp 0.

(** Several Decode calls on one Decoder (decode.go:31-40), into targets of the given
    types with the given contents: the Decoder keeps its reader position and offset.
    [None] as soon as one call does not succeed. *)
Fixpoint decode_stream (targets : list (gty * gval)) (inp : bytes) (off : Z) : option (list gval * bytes * Z) :=
  match targets with
  | [] => Some ([], inp, off)
  | (t, old) :: more =>
      match decode (dec_fuel (TPtr t) (VPtr old) inp) (TPtr t) fl_root_val (VPtr old) inp off with
      | DOk (VPtr v) rest off' =>
          match decode_stream more rest off' with
          | Some (vs, rest', off'') => Some (v :: vs, rest', off'')
          | None => None
          end
      | _ => None
      end
  end.
End WithCustoms.

(** RawMessage (raw_message.go:3-12): a byte slice whose pointer methods return and
    store the bytes themselves.  UnmarshalBencoding keeps the very slice it is given
    (a nil slice cannot occur: the decoder passes the bytes of a non-empty buffer). *)
Definition raw_message_id : nat := 0.
Definition raw_message : gty :=
  TNamed raw_message_id {| m_marsh := Some RPtr; m_unmarsh := Some RPtr |} (TSlice (TUint W8)).
Definition raw_customs : customs := {|
  c_marsh id r := if Nat.eqb id raw_message_id then
                    match r with
                    | Some (VBytes b) => Ok b
                    | Some VNil => Ok []
                    | _ => Panic
                    end
                  else Panic;
  c_unmarsh id r b := if Nat.eqb id raw_message_id then
                        match r with Some _ => UOk (VBytes b) | None => UPanic end
                      else UPanic |}.
