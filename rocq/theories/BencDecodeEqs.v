(** One-step unfolding equations of the mutually recursive decoder (generated from
    BencDecode.v; each is an instance of conversion). *)
From Verif Require Import GoBase Strconv BencTypes BencFields BencEncode BencDecode.
Section Eqs.
Variable C : customs.
Notation dec_unmarshaler := (dec_unmarshaler C).
Notation decode := (decode C).
Notation decode_slice := (decode_slice C).
Notation decode_array := (decode_array C).
Notation decode_map := (decode_map C).
Notation decode_struct := (decode_struct C).

Lemma decode_S n (t : gty) (fl : flags) (old : gval) (inp : bytes) (off : Z) :
  decode (S n) t fl old inp off =

      match (if negb (is_ptr t) && fl_addr fl then ptr_impl m_unmarsh t else None), impl m_unmarsh t with
      | Some id, _ => dec_unmarshaler n id (Some old) fl old (fun v => v) inp off
      | None, Some id =>
          match t, old with
          | TPtr _, VNil => dec_unmarshaler n id None fl old (fun _ => VNil) inp off
          | TPtr _, VPtr v' => dec_unmarshaler n id (Some v') fl old VPtr inp off
          | _, _ => dec_unmarshaler n id (Some old) fl old (fun _ => old) inp off
          end
      | None, None =>
          match under t with
          
          | TStr =>
              match read_str inp off with
              | SOk _ body rest off' => if settable fl then DOk (VStr body) rest off' else DPanic
              | SErr e => DErr old e
              | SPanic => DPanic
              end
          
          | TInt w =>
              match read_int parse_int inp off with
              | IOk _ rest z off' =>
                  if settable fl then DOk (VInt (wrap_s (iw_bits w) z)) rest off' else DPanic
              | IErr e => DErr old e
              end
          
          | TUint w =>
              match read_int parse_uint inp off with
              | IOk _ rest z off' =>
                  if settable fl then DOk (VUint (wrap_u (iw_bits w) z)) rest off' else DPanic
              | IErr e => DErr old e
              end
          | TSlice et =>
              if kind_uint8 et then
                match read_str inp off with
                | SOk _ body rest off' => if settable fl then DOk (VBytes body) rest off' else DPanic
                | SErr e => DErr old e
                | SPanic => DPanic
                end
              else
                
                match inp with
                | [] => DErr old DEof
                | c :: inp' =>
                    if negb (beqb c "l"%byte) then DErr old (DSyntax off)
                    else match old with
                         | VNil => if settable fl then decode_slice n et fl [] [] inp' (off + 1) else DPanic
                         | VSlice l => decode_slice n et fl [] l inp' (off + 1)
                         | _ => DErr old DIll
                         end
                end
          | TArr _ et =>
              
              match inp with
              | [] => DErr old DEof
              | c :: inp' =>
                  if negb (beqb c "l"%byte) then DErr old (DSyntax off)
                  else match old with
                       | VSlice l => decode_array n et fl [] l inp' (off + 1)
                       | _ => DErr old DIll
                       end
              end
          | TMap kt et =>
              
              match inp with
              | [] => DErr old DEof
              | c :: inp' =>
                  if negb (beqb c "d"%byte) then DErr old (DSyntax off)
                  else if negb (kind_string kt) then DErr old (DUnsupported t)
                  else match old with
                       | VNil => if settable fl then decode_map n et fl [] [] inp' (off + 1) else DPanic
                       | VMap m => decode_map n et fl m [] inp' (off + 1)
                       | _ => DErr old DIll
                       end
              end
          | TStruct _ _ =>
              
              match inp with
              | [] => DErr old DEof
              | c :: inp' =>
                  if negb (beqb c "d"%byte) then DErr old (DSyntax off)
                  else decode_struct n t fl old [] inp' (off + 1)
              end
          | TAny | TIface =>
              
              match old with
              | VIface dt dv => dmap (VIface dt) (decode n dt (fl_noaddr fl) dv inp off)
              | VNil =>
                  match under t with
                  | TIface => DErr old (DUnsupported t)
                  | _ =>
                      match inp with
                      | [] => DErr old DEof
                      | c :: _ =>
                          let dt :=
                            if beqb c "i"%byte then Some (TInt WInt)
                            else if beqb c "l"%byte then Some any_slice
                            else if beqb c "d"%byte then Some any_map
                            else if is_digit c then Some TStr
                            else None in
                          match dt with
                          | None => DErr old (DSyntax off)
                          | Some dt =>
                              match decode n dt fl_new (zero dt) inp off with
                              | DOk v rest off' => if settable fl then DOk (VIface dt v) rest off' else DPanic
                              | DErr _ e => DErr old e
                              | DPanic => DPanic
                              | DFuel => DFuel
                              end
                          end
                      end
                  end
              | _ => DErr old DIll
              end
          
          | TPtr t' =>
              match old with
              | VPtr v' => dmap VPtr (decode n t' (fl_elem fl) v' inp off)
              | VNil => DPanic
              | _ => DErr old DIll
              end
          | TBool | TOther | TNamed _ _ _ => DErr old (DUnsupported t)
          end
      end
  .
Proof. reflexivity. Qed.

Lemma decode_slice_S n (et : gty) (fl : flags) (pre post : list gval) (inp : bytes) (off : Z) :
  decode_slice (S n) et fl pre post inp off =

      match inp with
      | [] => DErr (VSlice (pre ++ post)) DEof
      | c :: inp' =>
          if beqb c "e"%byte then DOk (VSlice (pre ++ post)) inp' (off + 1)
          else
            
            match (match post with
                   | [] => if settable fl then Some (zero et, []) else None
                   | x :: post' => Some (x, post')
                   end) with
            | None => DPanic
            | Some (x, post') =>
                match decode n et (fl_elem fl) x inp off with
                | DOk x' rest off' => decode_slice n et fl (pre ++ [x']) post' rest off'
                | DErr x' e => DErr (VSlice (pre ++ x' :: post')) e
                | DPanic => DPanic
                | DFuel => DFuel
                end
            end
      end
  .
Proof. reflexivity. Qed.

Lemma decode_array_S n (et : gty) (fl : flags) (pre post : list gval) (inp : bytes) (off : Z) :
  decode_array (S n) et fl pre post inp off =

      match inp with
      | [] => DErr (VSlice (pre ++ post)) DEof
      | c :: inp' =>
          if beqb c "e"%byte then DOk (VSlice (pre ++ post)) inp' (off + 1)
          else
            match post with
            | x :: post' =>
                match decode n et fl x inp off with
                | DOk x' rest off' => decode_array n et fl (pre ++ [x']) post' rest off'
                | DErr x' e => DErr (VSlice (pre ++ x' :: post')) e
                | DPanic => DPanic
                | DFuel => DFuel
                end
            | [] =>
                match consume n inp off with
                | COk _ rest off' => decode_array n et fl pre [] rest off'
                | CErr e => DErr (VSlice pre) e
                | CPanic => DPanic
                | CFuel => DFuel
                end
            end
      end
  .
Proof. reflexivity. Qed.

Lemma decode_map_S n (et : gty) (fl : flags) (m : list (bytes * gval)) (last_key : bytes) (inp : bytes) (off : Z) :
  decode_map (S n) et fl m last_key inp off =

      match inp with
      | [] => DErr (VMap m) DEof
      | c :: inp' =>
          if beqb c "e"%byte then DOk (VMap m) inp' (off + 1)
          else match read_str inp off with
               | SErr e => DErr (VMap m) e
               | SPanic => DPanic
               | SOk _ key rest off' =>
                   if negb (bytes_ltb last_key key) then DErr (VMap m) DUnsorted
                   else
                     
                     match decode n (TPtr et) fl_root_val (VPtr (zero et)) rest off' with
                     | DOk (VPtr x) rest' off'' =>
                         if fl_ro fl then DPanic
                         else decode_map n et fl (assoc_set key x m) key rest' off''
                     | DOk _ _ _ => DErr (VMap m) DIll
                     | DErr _ e => DErr (VMap m) e
                     | DPanic => DPanic
                     | DFuel => DFuel
                     end
               end
      end
  .
Proof. reflexivity. Qed.

Lemma decode_struct_S n (t : gty) (fl : flags) (v : gval) (last_key : bytes) (inp : bytes) (off : Z) :
  decode_struct (S n) t fl v last_key inp off =

      match inp with
      | [] => DErr v DEof
      | c :: inp' =>
          if beqb c "e"%byte then DOk v inp' (off + 1)
          else match read_str inp off with
               | SErr e => DErr v e
               | SPanic => DPanic
               | SOk _ key rest off' =>
                   if negb (bytes_ltb last_key key) then DErr v DUnsorted
                   else
                     match assoc key (key_to_field t) with
                     | None =>
                         match consume n rest off' with
                         | COk _ rest' off'' => decode_struct n t fl v key rest' off''
                         | CErr e => DErr v e
                         | CPanic => DPanic
                         | CFuel => DFuel
                         end
                     | Some f =>
                         match path_get (f_index f) t fl v with
                         | None => DPanic
                         | Some (ft, ffl, x) =>
                             match decode n ft ffl x rest off' with
                             | DOk x' rest' off'' =>
                                 decode_struct n t fl (path_set (f_index f) t v x') key rest' off''
                             | DErr x' e => DErr (path_set (f_index f) t v x') e
                             | DPanic => DPanic
                             | DFuel => DFuel
                             end
                         end
                     end
               end
      end
  .
Proof. reflexivity. Qed.

End Eqs.
