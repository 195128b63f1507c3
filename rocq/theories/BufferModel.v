(** Model of projects/oak-core/src/source/buffer.rs ([SourceBuffer]).
    [char::is_alphanumeric] (Unicode tables) is the parameter [alnum]. *)
From Verif Require Import Base Utf8 CursorModel.
Local Open Scope Z_scope.

Record buffer := Buffer { bf_inner : str; bf_last : option Z }.

(** buffer.rs:31-33 *)
Definition buffer_empty : buffer := Buffer [] None.

(** buffer.rs:54-56 *)
Definition is_word_char (alnum : Z -> bool) (c : option Z) : bool :=
  match c with Some c => alnum c || (c =? 95) | None => false end.

(** [s.chars().last()] *)
Definition last_char (s : str) : option Z :=
  match rev (chars s) with [] => None | c :: _ => Some c end.

(** buffer.rs:36-46 *)
Definition buffer_push (alnum : Z -> bool) (b : buffer) (s : str) : buffer :=
  match first_char s with
  | None => b
  | Some first =>
      let inner := if is_word_char alnum (bf_last b) && is_word_char alnum (Some first)
                   then bf_inner b ++ [32] else bf_inner b in
      Buffer (inner ++ s) (last_char s)
  end.

(** A whole [to_source] run: pushes in order, then [finish] (buffer.rs:49-51). *)
Definition buffer_emit (alnum : Z -> bool) (pieces : list str) : str :=
  bf_inner (fold_left (buffer_push alnum) pieces buffer_empty).
