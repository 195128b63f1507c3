(** Specification of simultaneous editing: no sorting, no offset shifting.

    Every position [i] of the old text (and the position after its end)
    contributes, in the new text, the replacement texts of the edits starting
    at [i] (in the order in which they are listed), followed by the old byte at [i]
    unless some edit covers it. *)
From Verif Require Import Base Utf8 EditModel.

Definition covered (es : list edit) (i : nat) : bool :=
  existsb (fun e => (e_start e <=? i) && (i <? e_end e)) es.

Definition old_byte (s : str) (i : nat) : str :=
  match nth_error s i with Some b => [b] | None => [] end.

Definition out_at (s : str) (es : list edit) (i : nat) : str :=
  concat (map e_text (filter (fun e => e_start e =? i) es))
  ++ (if covered es i then [] else old_byte s i).

Definition simultaneous (s : str) (es : list edit) : str :=
  flat_map (out_at s es) (seq 0 (S (length s))).

(** An edit a caller may issue on [s]: in range, on character boundaries,
    with a well-formed replacement. *)
Definition edit_ok (s : str) (e : edit) : Prop :=
  e_start e <= e_end e /\ e_end e <= length s /\
  is_boundary s (e_start e) = true /\ is_boundary s (e_end e) = true /\
  valid (e_text e).

Definition disjoint (a b : edit) : Prop :=
  e_end a <= e_start b \/ e_end b <= e_start a.

(** Pairwise disjoint with distinct starting points. *)
Definition separate (es : list edit) : Prop :=
  ForallOrdPairs (fun a b => disjoint a b /\ e_start a <> e_start b) es.

(** [a] listed before [b]: either [a] ends by the start of [b], or [b] ends by
    the start of [a] and starts strictly earlier. Weaker than [separate]:
    several insertions at one point, or insertions listed before the
    replacement that starts at the same point, are allowed. *)
Definition compatible (es : list edit) : Prop :=
  ForallOrdPairs (fun a b => e_end a <= e_start b \/
                             (e_end b <= e_start a /\ e_start b < e_start a)) es.
