(** Model of api/metainfo/metainfo.go.

    The Go types are described to the bencode model as [gty] values; the three
    pointer-receiver method pairs become entries of a [customs] record.  The methods
    call bencode.Marshal / bencode.Unmarshal recursively: [leaf_customs] has the
    methods of Time and Pieces (which recurse into method-free types only) and
    [meta_customs] adds Info.UnmarshalBencoding (which recurses into a type whose only
    methods are those of Pieces).  crypto/sha1.Sum is a parameter [sha1]. *)
From Verif Require Import GoBase BencTypes BencFields BencEncode BencDecode.

Definition mf (name tag : bytes) : fattr := {| fa_name := name; fa_tag := tag; fa_anon := false; fa_exp := true |}.
(** For types without methods: never consulted. *)
Definition plain_customs : customs := {| c_marsh := fun _ _ => Panic; c_unmarsh := fun _ old _ => UErr (match old with Some v => v | None => VNil end) |}.

(** type Time struct{ time.Time } (metainfo.go:23-25).  Simplified: of the embedded
    time.Time only the whole seconds since January 1, year 1 UTC are kept (an int64;
    this is how package time stores them), not nanoseconds or location. *)
Definition time_id : nat := 1.
Definition time_ty : gty := TNamed time_id {| m_marsh := Some RPtr; m_unmarsh := Some RPtr |}
  (TStruct (bs "Time") [({| fa_name := bs "Time"; fa_tag := []; fa_anon := true; fa_exp := true |}, TInt W64)]).
(** Seconds between year 1 and 1970 (package time: unixToInternal). *)
Definition unix_to_internal : Z := 62135596800.
(** time.Unix(i, 0) and t.Unix(). *)
Definition time_unix (i : Z) : gval := VStruct [VInt (wrap_s 64 (i + unix_to_internal))].

(** type Pieces [][20]byte (metainfo.go:85). *)
Definition pieces_id : nat := 2.
Definition hash_ty : gty := TArr 20 (TUint W8).
Definition pieces_ty : gty := TNamed pieces_id {| m_marsh := Some RPtr; m_unmarsh := Some RPtr |} (TSlice hash_ty).
Definition hash_val (h : bytes) : gval := VSlice (map (fun b => VUint (b2z b)) h).
(** nil when empty: [var res [][20]byte] with append (metainfo.go:103-109). *)
Definition pieces_val (hs : list bytes) : gval :=
  match hs with [] => VNil | _ => VSlice (map hash_val hs) end.
(** hash[:] *)
Definition hash_bytes (v : gval) : option bytes :=
  match v with
  | VSlice l => fold_right (fun x k => match x, k with VUint z, Some r => Some (z2b z :: r) | _, _ => None end) (Some []) l
  | _ => None
  end.
Definition pieces_bytes (v : gval) : option bytes :=
  match v with
  | VNil => Some []
  | VSlice l => fold_right (fun x k => match hash_bytes x, k with Some h, Some r => Some (h ++ r) | _, _ => None end) (Some []) l
  | _ => None
  end.
(** The loop of Pieces.UnmarshalBencoding (metainfo.go:104-108). *)
Fixpoint split20 (n : nat) (b : bytes) : list bytes :=
  match n with
  | O => []
  | S n' => firstn 20 b :: split20 n' (skipn 20 b)
  end.

(** Methods of Time (metainfo.go:27-38) and Pieces (87-111). *)
Definition of_marshal (r : eres) : res unit bytes :=
  match r with EOk b => Ok b | EErr _ _ _ => Err tt | EPanic => Panic | EFuel => Panic end.
Definition time_marshal (recv : option gval) : res unit bytes :=
  match recv with
  | Some (VStruct [VInt s]) => of_marshal (marshal plain_customs (Some (TInt W64, VInt (wrap_s 64 (s - unix_to_internal)))))
  | _ => Panic
  end.
Definition time_unmarshal (recv : option gval) (data : bytes) : ures :=
  match recv with
  | Some old =>
      match unmarshal plain_customs (TInt W64) (VInt 0) data with
      | DOk (VPtr (VInt i)) _ _ => UOk (time_unix i)
      | DErr _ _ => UErr old
      | _ => UPanic
      end
  | None => UPanic
  end.
Definition pieces_marshal (recv : option gval) : res unit bytes :=
  match recv with
  | Some v => match pieces_bytes v with
              | Some s => of_marshal (marshal plain_customs (Some (TStr, VStr s)))
              | None => Panic
              end
  | None => Panic
  end.
Definition pieces_unmarshal (recv : option gval) (data : bytes) : ures :=
  match recv with
  | Some old =>
      match unmarshal plain_customs (TSlice (TUint W8)) VNil data with
      | DOk (VPtr (VBytes concat)) _ _ =>
          if negb (zlen concat mod 20 =? 0) then UErr old
          else UOk (pieces_val (split20 (Z.to_nat (zlen concat / 20)) concat))
      | DErr _ _ => UErr old
      | _ => UPanic
      end
  | None => UPanic
  end.
Definition leaf_customs : customs := {|
  c_marsh id r := if Nat.eqb id time_id then time_marshal r
                  else if Nat.eqb id pieces_id then pieces_marshal r else Panic;
  c_unmarsh id r b := if Nat.eqb id time_id then time_unmarshal r b
                      else if Nat.eqb id pieces_id then pieces_unmarshal r b else UErr (match r with Some v => v | None => VNil end) |}.

(** type File (metainfo.go:113-117). *)
Definition file_ty : gty := TStruct (bs "File")
  [(mf (bs "Length") (bs "length"), TInt W64);
   (mf (bs "MD5Sum") (bs "md5sum,omitempty"), TStr);
   (mf (bs "Path") (bs "path"), TSlice TStr)].
(** The fields of type Info (metainfo.go:40-53). *)
Definition info_struct : gty := TStruct (bs "Info")
  [(mf (bs "SHA1") (bs "-"), hash_ty);
   (mf (bs "PieceLength") (bs "piece length"), TInt WInt);
   (mf (bs "Pieces") (bs "pieces"), pieces_ty);
   (mf (bs "Private") (bs "private,omitempty"), TInt WInt);
   (mf (bs "Name") (bs "name"), TStr);
   (mf (bs "Length") (bs "length,omitempty"), TInt W64);
   (mf (bs "MD5Sum") (bs "md5sum,omitempty"), TStr);
   (mf (bs "Files") (bs "files,omitempty"), TSlice (TPtr file_ty))].
(** type info Info: the same fields, no methods (metainfo.go:73). *)
Definition info_copy_ty : gty := TNamed 4 {| m_marsh := None; m_unmarsh := None |} info_struct.
Definition info_id : nat := 3.
Definition info_ty : gty := TNamed info_id {| m_marsh := None; m_unmarsh := Some RPtr |} info_struct.

Section WithSha1.
Variable sha1 : bytes -> bytes.

(** Info.UnmarshalBencoding (metainfo.go:75-83). *)
Definition info_unmarshal (recv : option gval) (data : bytes) : ures :=
  match recv with
  | Some old =>
      match unmarshal leaf_customs info_copy_ty (zero info_copy_ty) data with
      | DOk (VPtr (VStruct (_ :: fields))) _ _ => UOk (VStruct (hash_val (sha1 data) :: fields))
      | DErr _ _ => UErr old
      | _ => UPanic
      end
  | None => UPanic
  end.
Definition meta_customs : customs := {|
  c_marsh := c_marsh leaf_customs;
  c_unmarsh id r b := if Nat.eqb id info_id then info_unmarshal r b else c_unmarsh leaf_customs id r b |}.
End WithSha1.

(** type Metainfo (metainfo.go:12-21). *)
Definition metainfo_ty : gty := TStruct (bs "Metainfo")
  [(mf (bs "Info") (bs "info"), TPtr info_ty);
   (mf (bs "Announce") (bs "announce"), TStr);
   (mf (bs "AnnounceList") (bs "announce-list,omitempty"), TSlice (TSlice TStr));
   (mf (bs "CreationDate") (bs "creation date,omitempty"), TPtr time_ty);
   (mf (bs "Comment") (bs "comment,omitempty"), TStr);
   (mf (bs "CreatedBy") (bs "created by,omitempty"), TStr);
   (mf (bs "Encoding") (bs "encoding,omitempty"), TStr)].

(** The values of these types as the rest of the code sees them. *)
Record file := { f_length : Z; f_md5 : bytes; f_path : list bytes }.
Record info := {
  i_sha1 : bytes; i_piece_length : Z; i_pieces : list bytes; i_private : Z; i_name : bytes;
  i_length : Z; i_md5 : bytes; i_files : list file }.
Record metainfo := {
  m_info : info; m_announce : bytes; m_announce_list : list (list bytes);
  m_creation : option Z;   (* seconds since January 1, year 1 *)
  m_comment : bytes; m_created_by : bytes; m_encoding : bytes }.

Definition strings_val (l : list bytes) : gval := VSlice (map VStr l).
Definition file_val (f : file) : gval := VStruct [VInt (f_length f); VStr (f_md5 f); strings_val (f_path f)].
Definition slice_val (l : list gval) : gval := match l with [] => VNil | _ => VSlice l end.
Definition info_val (i : info) : gval := VStruct
  [hash_val (i_sha1 i); VInt (i_piece_length i); pieces_val (i_pieces i); VInt (i_private i); VStr (i_name i);
   VInt (i_length i); VStr (i_md5 i); slice_val (map (fun f => VPtr (file_val f)) (i_files i))].
Definition metainfo_val (m : metainfo) : gval := VStruct
  [VPtr (info_val (m_info m)); VStr (m_announce m); slice_val (map strings_val (m_announce_list m));
   match m_creation m with None => VNil | Some s => VPtr (VStruct [VInt s]) end;
   VStr (m_comment m); VStr (m_created_by m); VStr (m_encoding m)].

(** Info.GetLength (metainfo.go:55-64); int64 addition wraps. *)
Definition get_length (i : info) : Z :=
  match i_files i with
  | [] => i_length i
  | fs => fold_left (fun sum f => wrap_s 64 (sum + f_length f)) fs 0
  end.
(** Info.GetPieceLength (metainfo.go:66-71). *)
Definition get_piece_length (i : info) (index : Z) : Z :=
  if index =? zlen (i_pieces i) - 1
  then wrap_s 64 (get_length i - wrap_s 64 (index * i_piece_length i))
  else i_piece_length i.
