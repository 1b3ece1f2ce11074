(** Vocabulary for C137. *)
From Verif Require Import GoBase Strconv Metainfo Fs Storage StorageSpec.

(** One white space character, in UTF-8: the code points fmt takes for such, but the newline. *)
Definition white (b : bytes) : Prop :=
  b = [x09] \/ b = [x0b] \/ b = [x0c] \/ b = [x0d] \/ b = [x20] \/ b = [xc2; x85] \/ b = [xc2; xa0] \/ b = [xe1; x9a; x80] \/
  (exists c, b = [xe2; x80; c] /\ (128 <= b2z c <= 138 \/ c = xa8 \/ c = xa9 \/ c = xaf)) \/ b = [xe2; x81; x9f] \/ b = [xe3; x80; x80].
(** A name that starts like that of a piece: white space, an optional sign, digits that make an
    int, ".piece", and anything after it. *)
Definition starts_like (name : bytes) (k : Z) : Prop :=
  exists space sign digits rest, name = concat space ++ sign ++ digits ++ bs ".piece" ++ rest /\ Forall white space /\ (sign = [] \/ sign = bs "-" \/ sign = bs "+") /\
    digits <> [] /\ forallb is_digit digits = true /\ parse_int (sign ++ digits) = Some k.
(** There is something of this name among the pieces. *)
Definition found (cfg : config) (f : fs) (name : bytes) : Prop := lookup (pieces_dir cfg ++ [name]) f <> None.
(** A name among the pieces that is not one piece's alone: the torrent has no such piece, or
    another name starts like the same piece. *)
Definition stray (cfg : config) (f : fs) (name : bytes) : Prop :=
  found cfg f name /\ exists k, starts_like name k /\
    (~ 0 <= k < num_pieces (c_info cfg) \/ exists name', name' <> name /\ found cfg f name' /\ starts_like name' k).
