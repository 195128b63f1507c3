(** Where an edit off character boundaries lands in a chunked source. *)
From Verif Require Import Base Utf8 EditModel EditSpec RopeModel RopeSpec.

(** An offset at which one chunk ends and the next begins, or an end of the text. *)
Definition seam (chunks : list str) (off : nat) : Prop :=
  exists before after, chunks = before ++ after /\ off = length (concat before).

(** An offset lands on itself when it is a character boundary of the text, and
    on the first seam from it on otherwise. *)
Definition lands (chunks : list str) (off off' : nat) : Prop :=
  (is_boundary (concat chunks) off = true /\ off' = off) \/
  (is_boundary (concat chunks) off = false /\ seam chunks off' /\ off <= off' /\
   forall o, seam chunks o -> off <= o -> off' <= o).
