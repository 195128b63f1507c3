(** Specification of diagnostics: rows of a rendered report and the marks below them. *)
From Verif Require Import Base Utf8.

(** The rows of an output. *)
Fixpoint rows (s : list Z) : list (list Z) :=
  match s with
  | [] => [[]]
  | c :: r => if (c =? 10)%Z then [] :: rows r
              else match rows r with [] => [[c]] | x :: y => (c :: x) :: y end
  end.

(** Some row shows [line] after a gutter, and the next row has [n] carets exactly below the [n] columns of
    the line from column [k] on. *)
Definition marks (out line : list Z) (k n : nat) : Prop :=
  exists i g1 g2 tail, nth_error (rows out) i = Some (g1 ++ line) /\
    nth_error (rows out) (S i) = Some (g2 ++ repeat 32%Z k ++ repeat 94%Z n ++ tail) /\
    length g1 = length g2 /\ ~ In 94%Z g2 /\ hd_error tail <> Some 94%Z.

(** A line of characters as a report shows it: without the carriage return of a line ending. *)
Definition shown_line (line : list Z) (rest : list Z) (x : list Z) : Prop :=
  (rest <> [] /\ line = x ++ [13%Z]) \/ (x = line /\ (rest <> [] -> forall y, line <> y ++ [13%Z])).

(** [pre] ends a line, [line] has no line feed, [rest] is empty or starts with a line feed. *)
Definition line_between (pre line rest : list Z) : Prop :=
  (pre = [] \/ exists p, pre = p ++ [10%Z]) /\ ~ In 10%Z line /\ (rest = [] \/ exists r, rest = 10%Z :: r).

(** Positions on screen, in reading order. *)
Definition pos_le (a b : nat * nat) : Prop := fst a < fst b \/ (fst a = fst b /\ snd a <= snd b).
