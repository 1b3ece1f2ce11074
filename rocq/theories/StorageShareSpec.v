(** Vocabulary for C136. *)
From Verif Require Import GoBase Metainfo Fs Storage StorageSys StorageSpec StorageShare.

(** Two torrents with the same directories, different names and different info hashes. *)
Definition neighbours (c d : config) : Prop :=
  c_target c = c_target d /\ c_work c = c_work d /\ i_name (c_info c) <> i_name (c_info d) /\ i_sha1 (c_info c) <> i_sha1 (c_info d).
Definition other (x : which) : which := match x with One => Two | Two => One end.
