(** Vocabulary for C121: dictionaries as texts. *)
From Verif Require Import GoBase BencTypes BencFields BencSpec BencFieldSpec.

(** An entry: its key, how the key is spelled, how the value is spelled. *)
Record entry := { en_key : bytes; en_ktext : bytes; en_vtext : bytes }.
(** The key is a string, the value any item the decoder accepts somewhere. *)
Definition entry_ok (e : entry) : Prop := lax_str (en_key e) (en_ktext e) /\ exists b, lax_typed b (en_vtext e).
Definition dict_text (es : list entry) : bytes := "d"%byte :: concat (map (fun e => en_ktext e ++ en_vtext e) es) ++ ["e"%byte].
(** A struct type without an UnmarshalBencoding of its own. *)
Definition plain_struct (t : gty) : Prop := kind_struct t = true /\ ptr_impl m_unmarsh t = None.
(** No field of the struct, also of its embedded structs, goes by this key; the value is
    one that can be decoded into an [any]. *)
Definition foreign (t : gty) (e : entry) : Prop := (forall p, ~ has_key t p (en_key e)) /\ exists b, lax b (en_vtext e).
