(** C24-C28: metainfo files. *)
From Verif Require Import GoBase Strconv BencTypes BencFields BencEncode BencDecode BencSpec BencReuseSpec BencRoundSpec Metainfo MetainfoSpec MetainfoProofs.

Definition ex_hash (c : byte) : bytes := repeat c 20.
(** A two-file torrent of 10 bytes in pieces of 4. *)
Definition ex_multi : info := {|
  i_sha1 := ex_hash "0"%byte; i_piece_length := 4; i_pieces := [ex_hash "a"%byte; ex_hash "b"%byte; ex_hash "c"%byte];
  i_private := 0; i_name := bs "dir"; i_length := 0; i_md5 := [];
  i_files := [{| f_length := 3; f_md5 := []; f_path := [bs "x"] |}; {| f_length := 7; f_md5 := []; f_path := [bs "y"; bs "z"] |}] |}.
Definition ex_single : info := {|
  i_sha1 := ex_hash "0"%byte; i_piece_length := 4; i_pieces := [ex_hash "a"%byte; ex_hash "b"%byte];
  i_private := 1; i_name := bs "file"; i_length := 8; i_md5 := []; i_files := [] |}.
Definition ex_meta : metainfo := {|
  m_info := ex_single; m_announce := bs "http://t/"; m_announce_list := [[bs "a"; bs "b"]; []];
  m_creation := Some 63000000000; m_comment := []; m_created_by := bs "me"; m_encoding := [] |}.

(** ** C24 *)
Theorem C24_piece_lengths_partition :
  forall i, well_formed i ->
  get_length i = total_size i /\
  (forall k, 0 <= k < zlen (i_pieces i) -> 1 <= get_piece_length i k <= i_piece_length i) /\
  (forall k, 0 <= k < zlen (i_pieces i) - 1 -> get_piece_length i k = i_piece_length i) /\
  fold_right Z.add 0 (piece_lengths i) = get_length i.
Proof. exact piece_partition. Qed.
Print Assumptions C24_piece_lengths_partition.
Example C24_case : well_formed ex_multi /\ well_formed ex_single /\ piece_lengths ex_multi = [4; 4; 2].
Proof.
  assert (forall i, 0 < i_piece_length i < 2 ^ 63 -> Forall (fun f => 0 <= f_length f) (i_files i) -> 0 <= total_size i < 2 ^ 63 ->
    (zlen (i_pieces i) - 1) * i_piece_length i < total_size i <= zlen (i_pieces i) * i_piece_length i -> well_formed i) as W by (unfold well_formed; tauto).
  split; [|split; [|vm_compute; reflexivity]]; apply W; try (cbn; lia); repeat constructor; cbn; try lia; discriminate.
Qed.

(** ** C25 *)
(** The document is a dictionary of the listed keys and values; if one of the keys is
    "info", the decoded Info's SHA1 (its first field) is the hash of exactly the bytes
    of that value; otherwise Info is nil. *)
Theorem C25_info_hash :
  forall sha1 b v rest off, unmarshal (meta_customs sha1) metainfo_ty (zero metainfo_ty) b = DOk (VPtr v) rest off ->
  exists ks kts ts iv others, ascending ks /\ Forall2 lax_str ks kts /\ List.length ts = List.length ks /\ Forall value_text ts /\
    b = "d"%byte :: concat (map (fun kt => fst kt ++ snd kt) (combine kts ts)) ++ "e"%byte :: rest /\
    v = VStruct (iv :: others) /\
    (~ In (bs "info") ks -> iv = VNil) /\
    (forall ib, In (bs "info", ib) (combine ks ts) -> exists fields, iv = VPtr (VStruct (hash_val (sha1 ib) :: fields))).
Proof. exact info_hash. Qed.
Print Assumptions C25_info_hash.
(** A document with an unknown key and a non-canonical number in its info. *)
Definition ex_sha1 (b : bytes) : bytes := firstn 20 (skipn (List.length b - 20) b ++ ex_hash "0"%byte).
Example C25_case : exists v,
  unmarshal (meta_customs ex_sha1) metainfo_ty (zero metainfo_ty) (bs "d8:announce1:a4:infod6:lengthi+5e4:name1:n12:piece lengthi8e7:unknownleee") = DOk v [] 73 /\
  match v with VPtr (VStruct (VPtr (VStruct (h :: _)) :: _)) => h = hash_val (ex_sha1 (bs "d6:lengthi+5e4:name1:n12:piece lengthi8e7:unknownlee")) | _ => False end.
Proof. eexists. split; [vm_compute; reflexivity|vm_compute; reflexivity]. Qed.

(** ** C26 *)
Theorem C26_pieces_round_trip :
  forall hs old, Forall is_hash hs -> len_fits (concat hs) ->
  exists b, c_marsh leaf_customs pieces_id (Some (pieces_val hs)) = Ok b /\ c_unmarsh leaf_customs pieces_id (Some old) b = UOk (pieces_val hs).
Proof. intros hs old F L. exists (enc_str (concat hs)). exact (pieces_round hs old F L). Qed.
Print Assumptions C26_pieces_round_trip.
Theorem C26_pieces_split :
  forall s t rest old, lax_str s t ->
  (zlen s mod 20 = 0 -> exists hs, concat hs = s /\ Forall is_hash hs /\ c_unmarsh leaf_customs pieces_id (Some old) (t ++ rest) = UOk (pieces_val hs)) /\
  (zlen s mod 20 <> 0 -> c_unmarsh leaf_customs pieces_id (Some old) (t ++ rest) = UErr old).
Proof. exact pieces_accept. Qed.
Print Assumptions C26_pieces_split.
Theorem C26_pieces_only_strings :
  forall old data v, c_unmarsh leaf_customs pieces_id (Some old) data = UOk v ->
  exists hs s t rest, data = t ++ rest /\ lax_str s t /\ concat hs = s /\ Forall is_hash hs /\ v = pieces_val hs.
Proof. exact pieces_only. Qed.
Print Assumptions C26_pieces_only_strings.
Example C26_case : Forall is_hash (i_pieces ex_multi) /\ len_fits (concat (i_pieces ex_multi)) /\
  c_unmarsh leaf_customs pieces_id (Some VNil) (bs "40:0123456789012345678901234567890123456789")
    = UOk (pieces_val [bs "01234567890123456789"; bs "01234567890123456789"]) /\
  c_unmarsh leaf_customs pieces_id (Some VNil) (bs "3:abc") = UErr VNil.
Proof. split; [repeat constructor|]. split; [cbv; discriminate|]. split; vm_compute; reflexivity. Qed.

(** ** C27 *)
(** An ordinary two-file document makes Unmarshal panic. *)
Definition ex_multi_doc : bytes :=
  bs "d8:announce1:a4:infod5:filesld6:lengthi3e4:pathl1:xeed6:lengthi5e4:pathl1:yeee4:name3:dir12:piece lengthi8e6:pieces20:01234567890123456789ee".
Theorem C27_multi_file_refuted :
  forall sha1, unmarshal (meta_customs sha1) metainfo_ty (zero metainfo_ty) ex_multi_doc = DPanic.
Proof. intros. vm_compute. reflexivity. Qed.
Print Assumptions C27_multi_file_refuted.
(** No document whatsoever decodes to an Info with files. *)
Theorem C27_files_never_decoded_refuted :
  forall sha1 b v rest off, unmarshal (meta_customs sha1) info_ty (zero info_ty) b = DOk (VPtr v) rest off ->
  exists l, v = VStruct l /\ List.length l = 8%nat /\ (nth_error l 7 = Some VNil \/ nth_error l 7 = Some (VSlice [])).
Proof. exact files_never_decoded. Qed.
Print Assumptions C27_files_never_decoded_refuted.

(** ** C28 *)
Theorem C28_metainfo_round_trip :
  forall sha1 m, metainfo_fits m -> single_file (m_info m) ->
  exists b ib, marshal (meta_customs sha1) (Some (TPtr metainfo_ty, VPtr (metainfo_val m))) = EOk b /\
    marshal (meta_customs sha1) (Some (TPtr info_ty, VPtr (info_val (m_info m)))) = EOk ib /\
    unmarshal (meta_customs sha1) metainfo_ty (zero metainfo_ty) b =
      DOk (VPtr (metainfo_val (with_info (with_sha1 (sha1 ib) (m_info m)) m))) [] (zlen b).
Proof. exact metainfo_round. Qed.
Print Assumptions C28_metainfo_round_trip.
Example C28_case : metainfo_fits ex_meta /\ single_file (m_info ex_meta) /\
  marshal (meta_customs ex_sha1) (Some (TPtr metainfo_ty, VPtr (metainfo_val ex_meta))) =
    EOk (bs "d8:announce9:http://t/13:announce-listll1:a1:belee10:created by2:me13:creation datei864403200e4:infod6:lengthi8e4:name4:file12:piece lengthi4e6:pieces40:aaaaaaaaaaaaaaaaaaaabbbbbbbbbbbbbbbbbbbb7:privatei1eee").
Proof.
  split; [|split; [reflexivity|vm_compute; reflexivity]].
  split; [|split; [cbv; discriminate|split; [repeat constructor; cbv; discriminate|split; [intros s [= <-]; cbv; intuition discriminate|split; [cbv; discriminate|split; cbv; discriminate]]]]].
  split; [cbv; intuition discriminate|]. split; [repeat constructor|]. split; [cbv; discriminate|]. split; [cbv; intuition discriminate|].
  split; [cbv; discriminate|]. split; [cbv; intuition discriminate|cbv; discriminate].
Qed.
(** Through a non-pointer the Pieces method is not used: Marshal of a Metainfo or Info
    passed by value writes the hashes as lists of numbers when they are reached without
    a pointer. *)
Theorem C28_info_by_value_refuted :
  exists i b, single_file i /\ info_fits i /\ marshal leaf_customs (Some (info_ty, info_val i)) = EOk b /\
    forall sha1 v rest off, unmarshal (meta_customs sha1) info_ty (zero info_ty) b <> DOk v rest off.
Proof.
  exists ex_single. eexists. split; [reflexivity|]. split.
  - split; [cbv; intuition discriminate|]. split; [repeat constructor|]. split; [cbv; discriminate|]. split; [cbv; intuition discriminate|].
    split; [cbv; discriminate|]. split; [cbv; intuition discriminate|cbv; discriminate].
  - split; [vm_compute; reflexivity|]. intros. vm_compute. discriminate.
Qed.
Print Assumptions C28_info_by_value_refuted.
