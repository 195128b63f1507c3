(** What the lexers and parsers of the example languages are compared with. *)
From Verif Require Import Base Utf8 LexModel TreeModel TreeSpec ParserModel JsonLangSpec.

(** A text cut into pieces one after another: [token k s r] says that [s] is a piece of kind [k] when [r] follows. *)
Inductive cut (token : option nat -> list Z -> list Z -> Prop) : list Z -> list piece -> Prop :=
| CutEnd : cut token [] []
| CutPiece k s r ps : s <> [] -> token k s r -> cut token r ps -> cut token (s ++ r) ((k, s) :: ps).

(** The leaf of a piece and the node of children: their lengths are those of their text. *)
Definition leaf (k : nat) (s : list Z) : green := GLeaf k (length (encode s)) None.
Definition gnode (k : nat) (ch : list green) : green := GNode k (list_sum (map width ch)) ch.

(** The leaf of a piece: kind and length. *)
Definition piece_yield (p : piece) : list (nat * nat) := match fst p with Some k => [(k, length (encode (snd p)))] | None => [] end.
