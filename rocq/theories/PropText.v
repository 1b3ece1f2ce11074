(** C124: the metainfo files the program writes are standard ones, of one file or of many.

    [metainfo_dict] and [info_dict] (MetainfoTextSpec.v) are the dictionaries of BEP 3;
    [bep3 v b] (BencSpec.v) says that b is the one canonical bencoding of v. *)
From Verif Require Import GoBase BencTypes BencEncode BencSpec Metainfo MetainfoTextSpec MetainfoTextProofs.

(** Marshal of any Metainfo succeeds and gives the canonical text of its dictionary.  The
    seconds of the creation date have to fit an int64 when counted from 1970. *)
Theorem C124_metainfo_file_is_standard :
  forall sha1 m, (forall s, m_creation m = Some s -> - 2 ^ 63 <= s - to_1970 < 2 ^ 63) ->
  exists b, marshal (meta_customs sha1) (Some (TPtr metainfo_ty, VPtr (metainfo_val m))) = EOk b /\ bep3 (metainfo_dict m) b.
Proof. exact metainfo_written. Qed.
Print Assumptions C124_metainfo_file_is_standard.

(** So does Marshal of any Info. *)
Theorem C124_info_text_is_standard :
  forall sha1 i, exists b, marshal (meta_customs sha1) (Some (TPtr info_ty, VPtr (info_val i))) = EOk b /\ bep3 (info_dict i) b.
Proof. exact info_written. Qed.
Print Assumptions C124_info_text_is_standard.

(** A torrent of two files, one of them with an MD5 sum, and two tiers of trackers. *)
Definition ex_two : metainfo := {|
  m_info := {| i_sha1 := repeat "000"%byte 20; i_piece_length := 4; i_pieces := [repeat "a"%byte 20; repeat "b"%byte 20]; i_private := 1; i_name := bs "dir"; i_length := 0; i_md5 := [];
    i_files := [{| f_length := 5; f_md5 := bs "m"; f_path := [bs "x"; bs "y"] |}; {| f_length := 1; f_md5 := []; f_path := [bs "z"] |}] |};
  m_announce := bs "http://t"; m_announce_list := [[bs "u"; bs "v"]; [bs "w"]]; m_creation := Some (to_1970 + 10); m_comment := []; m_created_by := bs "me"; m_encoding := [] |}.
Example C124_case : (forall s, m_creation ex_two = Some s -> - 2 ^ 63 <= s - to_1970 < 2 ^ 63) /\
  forall sha1, marshal (meta_customs sha1) (Some (TPtr metainfo_ty, VPtr (metainfo_val ex_two))) =
    EOk (bs "d8:announce8:http://t13:announce-listll1:u1:vel1:wee10:created by2:me13:creation datei10e4:infod5:filesld6:lengthi5e6:md5sum1:m4:pathl1:x1:yeed6:lengthi1e4:pathl1:zeee4:name3:dir12:piece lengthi4e6:pieces40:aaaaaaaaaaaaaaaaaaaabbbbbbbbbbbbbbbbbbbb7:privatei1eee").
Proof. split; [intros s [= <-]; split; [discriminate|reflexivity]|]. intros sha1. vm_compute. reflexivity. Qed.
