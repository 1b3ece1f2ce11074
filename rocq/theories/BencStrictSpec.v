(** Vocabulary for C115: what an [any] holds after decoding. *)
From Verif Require Import GoBase BencTypes BencSpec.

(** [holds b x]: the interface value x is the data b, as int, string, []any or
    map[string]any. *)
Inductive holds : bval -> gval -> Prop :=
| holds_int z : holds (BInt z) (VIface (TInt WInt) (VInt z))
| holds_str s : holds (BStr s) (VIface TStr (VStr s))
| holds_list l xs : Forall2 holds l xs -> holds (BList l) (VIface (TSlice TAny) (VSlice xs))
| holds_dict m xs : Forall2 (fun p q => fst p = fst q /\ holds (snd p) (snd q)) m xs -> holds (BDict m) (VIface (TMap TStr TAny) (VMap xs)).
