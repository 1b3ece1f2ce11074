(** Vocabulary for the statements about metainfo. *)
From Verif Require Import GoBase Strconv BencTypes BencEncode BencSpec BencRoundSpec Metainfo.

(** The size of the torrent's content: the files' sizes, or that of the single file. *)
Definition total_size (i : info) : Z :=
  match i_files i with
  | [] => i_length i
  | fs => fold_right Z.add 0 (map f_length fs)
  end.
(** A coherent info: sizes are not negative, the total is an int64, and there are
    exactly as many piece hashes as pieces are needed. *)
Definition well_formed (i : info) : Prop :=
  0 < i_piece_length i < 2 ^ 63 /\ Forall (fun f => 0 <= f_length f) (i_files i) /\
  0 <= total_size i < 2 ^ 63 /\
  (zlen (i_pieces i) - 1) * i_piece_length i < total_size i <= zlen (i_pieces i) * i_piece_length i.
(** The lengths GetPieceLength returns for pieces 0 .. n-1. *)
Definition piece_lengths (i : info) : list Z :=
  map (fun k => get_piece_length i (Z.of_nat k)) (seq 0 (List.length (i_pieces i))).

(** *** The canonical text of a single-file info dictionary *)
Definition entry (key text : bytes) : bytes := enc_str key ++ text.
Definition info_text (i : info) : bytes :=
  "d"%byte ::
    (if i_length i =? 0 then [] else entry (bs "length") (enc_int (i_length i))) ++
    (if match i_md5 i with [] => true | _ => false end then [] else entry (bs "md5sum") (enc_str (i_md5 i))) ++
    entry (bs "name") (enc_str (i_name i)) ++
    entry (bs "piece length") (enc_int (i_piece_length i)) ++
    (if match i_pieces i with [] => true | _ => false end then [] else entry (bs "pieces") (enc_str (concat (i_pieces i)))) ++
    (if i_private i =? 0 then [] else entry (bs "private") (enc_int (i_private i))) ++
  bs "e".

(** Sizes that fit the Go types. *)
Definition is_hash (h : bytes) : Prop := List.length h = 20%nat.
Definition info_fits (i : info) : Prop :=
  int_fits WInt (i_piece_length i) /\ Forall is_hash (i_pieces i) /\ len_fits (concat (i_pieces i)) /\
  int_fits WInt (i_private i) /\ len_fits (i_name i) /\ int_fits W64 (i_length i) /\ len_fits (i_md5 i).
Definition single_file (i : info) : Prop := i_files i = [].
Definition metainfo_fits (m : metainfo) : Prop :=
  info_fits (m_info m) /\ len_fits (m_announce m) /\ Forall (Forall len_fits) (m_announce_list m) /\
  (forall s, m_creation m = Some s -> int_fits W64 s) /\
  len_fits (m_comment m) /\ len_fits (m_created_by m) /\ len_fits (m_encoding m).

Definition with_sha1 (h : bytes) (i : info) : info :=
  {| i_sha1 := h; i_piece_length := i_piece_length i; i_pieces := i_pieces i; i_private := i_private i;
     i_name := i_name i; i_length := i_length i; i_md5 := i_md5 i; i_files := i_files i |}.
Definition with_info (i : info) (m : metainfo) : metainfo :=
  {| m_info := i; m_announce := m_announce m; m_announce_list := m_announce_list m; m_creation := m_creation m;
     m_comment := m_comment m; m_created_by := m_created_by m; m_encoding := m_encoding m |}.
