(** The dictionary a metainfo file holds, by BEP 3 (and the keys in common use). *)
From Verif Require Import GoBase BencSpec Metainfo.

(** An entry that is left out if the field is empty. *)
Definition unless (empty : bool) (key : bytes) (v : bval) : list (bytes * bval) := if empty then [] else [(key, v)].
Definition none {A} (l : list A) : bool := match l with [] => true | _ => false end.
Definition texts (l : list bytes) : bval := BList (map BStr l).
Definition file_dict (f : file) : bval := BDict
  ([(bs "length", BInt (f_length f))] ++ unless (none (f_md5 f)) (bs "md5sum") (BStr (f_md5 f)) ++ [(bs "path", texts (f_path f))]).
Definition info_dict (i : info) : bval := BDict
  (unless (none (i_files i)) (bs "files") (BList (map file_dict (i_files i))) ++
   unless (i_length i =? 0) (bs "length") (BInt (i_length i)) ++
   unless (none (i_md5 i)) (bs "md5sum") (BStr (i_md5 i)) ++
   [(bs "name", BStr (i_name i)); (bs "piece length", BInt (i_piece_length i))] ++
   unless (none (i_pieces i)) (bs "pieces") (BStr (concat (i_pieces i))) ++
   unless (i_private i =? 0) (bs "private") (BInt (i_private i))).
(** Seconds from January 1, year 1 to January 1, 1970. *)
Definition to_1970 : Z := 62135596800.
Definition metainfo_dict (m : metainfo) : bval := BDict
  ([(bs "announce", BStr (m_announce m))] ++
   unless (none (m_announce_list m)) (bs "announce-list") (BList (map texts (m_announce_list m))) ++
   unless (none (m_comment m)) (bs "comment") (BStr (m_comment m)) ++
   unless (none (m_created_by m)) (bs "created by") (BStr (m_created_by m)) ++
   match m_creation m with Some s => [(bs "creation date", BInt (s - to_1970))] | None => [] end ++
   unless (none (m_encoding m)) (bs "encoding") (BStr (m_encoding m)) ++
   [(bs "info", info_dict (m_info m))]).
