(** What a printed document is, independently of the printer: a document is laid out into pieces, the pieces
    make up lines, the lines are joined. *)
From Verif Require Import Base Utf8 PrettyModel.

(** The texts of a document, in order. *)
Fixpoint texts (d : doc) : list str :=
  match d with
  | Text s => [s]
  | Concat ds => flat_map texts ds
  | Group d | Indent d => texts d
  | _ => []
  end.

(** A document contains a hard break. *)
Inductive has_hard : doc -> Prop :=
| hh_hard : has_hard HardLine
| hh_concat ds d : In d ds -> has_hard d -> has_hard (Concat ds)
| hh_group d : has_hard d -> has_hard (Group d)
| hh_indent d : has_hard d -> has_hard (Indent d).

(** What a document looks like on one line. *)
Fixpoint flat (d : doc) : str :=
  match d with
  | Text s => s
  | Concat ds => flat_map flat ds
  | Group d | Indent d => flat d
  | Line | SoftLineSpace => [32%Z]
  | _ => []
  end.

(** A document fits when it can be put on the rest of the line. *)
Definition fits (max col : nat) (d : doc) : Prop := ~ has_hard d /\ col + length (flat d) <= max.

Inductive piece := PText (s : str) | PSpace | PBreak (level : nat).

(** The layout of a document: [lays max isize level broken col d ps col']. *)
Section Layout.
  Variables max isize : nat.
  Inductive lays : nat -> bool -> nat -> doc -> list piece -> nat -> Prop :=
  | ly_nil n b c : lays n b c Nil [] c
  | ly_text n b c s : lays n b c (Text s) [PText s] (c + length s)
  | ly_concat n b c ds ps c' : lays_all n b c ds ps c' -> lays n b c (Concat ds) ps c'
  | ly_group_fits n b c d ps c' : fits max c d -> lays n false c d ps c' -> lays n b c (Group d) ps c'
  | ly_group_breaks n b c d ps c' : ~ fits max c d -> lays n true c d ps c' -> lays n b c (Group d) ps c'
  | ly_indent n b c d ps c' : lays (S n) b c d ps c' -> lays n b c (Indent d) ps c'
  | ly_space n c d : d = Line \/ d = SoftLineSpace -> lays n false c d [PSpace] (c + 1)
  | ly_nothing n c : lays n false c SoftLine [] c
  | ly_break n c d : d = Line \/ d = SoftLine \/ d = SoftLineSpace -> lays n true c d [PBreak n] (n * isize)
  | ly_hard n b c : lays n b c HardLine [PBreak n] (n * isize)
  with lays_all : nat -> bool -> nat -> list doc -> list piece -> nat -> Prop :=
  | la_nil n b c : lays_all n b c [] [] c
  | la_cons n b c d ds ps1 c1 ps2 c2 : lays n b c d ps1 c1 -> lays_all n b c1 ds ps2 c2 ->
      lays_all n b c (d :: ds) (ps1 ++ ps2) c2.
End Layout.

(** The lines made of pieces; [cur] is what the current line already has. *)
Fixpoint lines_of (indent : str) (cur : str) (ps : list piece) : list str :=
  match ps with
  | [] => [cur]
  | PText s :: r => lines_of indent (cur ++ s) r
  | PSpace :: r => lines_of indent (cur ++ [32%Z]) r
  | PBreak n :: r => cur :: lines_of indent (concat (repeat indent n)) r
  end.

(** Blanks: space and tab. *)
Definition blank (c : Z) : Prop := c = 32%Z \/ c = 9%Z.

(** [t] is [s] without its trailing blanks. *)
Definition rtrimmed (s t : str) : Prop :=
  exists tail, s = t ++ tail /\ Forall blank tail /\ ~ exists t' c, t = t' ++ [c] /\ blank c.

(** Lines joined by an ending. *)
Fixpoint joined (ending : str) (ls : list str) : str :=
  match ls with [] => [] | [l] => l | l :: r => l ++ ending ++ joined ending r end.

(** Gaps: strings made of spaces, line endings and indentation. *)
Inductive gap (indent ending : str) : str -> Prop :=
| gap_nil : gap indent ending []
| gap_space g : gap indent ending g -> gap indent ending (g ++ [32%Z])
| gap_end g : gap indent ending g -> gap indent ending (g ++ ending)
| gap_indent g : gap indent ending g -> gap indent ending (g ++ indent).

(** Texts in order with gaps around them. *)
Inductive woven (indent ending : str) : list str -> str -> Prop :=
| wv_nil g : gap indent ending g -> woven indent ending [] g
| wv_cons t ts g o : gap indent ending g -> woven indent ending ts o -> woven indent ending (t :: ts) (g ++ t ++ o).

(** The visible characters: neither blank nor part of a line ending. *)
Definition ink (s : str) : str :=
  filter (fun c => negb ((c =? 32) || (c =? 9) || (c =? 10) || (c =? 13))%Z) s.

Definition ends_in_lf (s : str) : Prop := exists s', s = s' ++ [10%Z].

(** The number of line feeds. *)
Definition lf_count (s : str) : nat := count_occ Z.eq_dec s 10%Z.

(** Optional line positions of a document outside its nested groups. *)
Fixpoint soft_lines (d : doc) : nat :=
  match d with
  | Concat ds => list_sum (map soft_lines ds)
  | Indent d => soft_lines d
  | Line | SoftLine | SoftLineSpace => 1
  | _ => 0
  end.

Fixpoint hardb (d : doc) : bool :=
  match d with
  | Concat ds => existsb hardb ds
  | Group d | Indent d => hardb d
  | HardLine => true
  | _ => false
  end.

(** The line breaks that hard breaks force: the hard breaks themselves, and every line position directly in a
    group that contains a hard break at any depth. *)
Fixpoint forced (d : doc) : nat :=
  match d with
  | Concat ds => list_sum (map forced ds)
  | Indent d => forced d
  | Group d => (if hardb d then soft_lines d else 0) + forced d
  | HardLine => 1
  | _ => 0
  end.

Definition breaks (ps : list piece) : nat :=
  length (filter (fun p => match p with PBreak _ => true | _ => false end) ps).

(** The column of the printer counts bytes since the last line break it made. *)
Definition plain (s : str) : Prop := ~ In 10%Z s.
