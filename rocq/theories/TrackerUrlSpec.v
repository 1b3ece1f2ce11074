(** The URLs of trackers, after RFC 3986. *)
From Verif Require Import GoBase UrlSpec.

Definition letter (c : byte) : Prop := 65 <= b2z c <= 90 \/ 97 <= b2z c <= 122.
Definition digit (c : byte) : Prop := 48 <= b2z c <= 57.
Definition unreserved (c : byte) : Prop := letter c \/ digit c \/ In c (bs "-._~").
(** A name or an IPv4 address, with or without a port. *)
Definition host_text (h : bytes) : Prop :=
  exists name, name <> [] /\ Forall unreserved name /\
  (h = name \/ exists port, port <> [] /\ Forall digit port /\ h = name ++ ":"%byte :: port).
(** What may follow the host before a '?': slashes, characters that stand for themselves
    and percent escapes. *)
Inductive path_chars : bytes -> Prop :=
| pch_nil : path_chars []
| pch_plain c p : unreserved c \/ In c (bs "/!$&'()*+,;=:@") -> path_chars p -> path_chars (c :: p)
| pch_hex a b x y p : hex_value a x -> hex_value b y -> path_chars p -> path_chars ("%"%byte :: a :: b :: p).
Definition path_text (p : bytes) : Prop := p = [] \/ exists p', p = "/"%byte :: p' /\ path_chars p'.
Inductive fragment_text : bytes -> Prop :=
| fr_nil : fragment_text []
| fr_plain c f : c <> "%"%byte -> fragment_text f -> fragment_text (c :: f)
| fr_hex a b x y f : hex_value a x -> hex_value b y -> fragment_text f -> fragment_text ("%"%byte :: a :: b :: f).
(** No control characters and no '#'. *)
Definition query_text (q : bytes) : Prop := Forall (fun c => 32 <= b2z c /\ b2z c <> 127 /\ c <> "#"%byte) q.
Definition scheme_text (s : bytes) : Prop :=
  exists c s', s = c :: s' /\ letter c /\ Forall (fun c => letter c \/ digit c \/ In c (bs "+-.")) s'.
(** An optional part with the character before it. *)
Definition opt (mark : byte) (o : option bytes) : bytes := match o with None => [] | Some t => mark :: t end.
Definition url_text (s h p : bytes) (q f : option bytes) : bytes := s ++ bs "://" ++ h ++ p ++ opt "?"%byte q ++ opt "#"%byte f.
Definition opt_ok (P : bytes -> Prop) (o : option bytes) : Prop := forall t, o = Some t -> P t.
