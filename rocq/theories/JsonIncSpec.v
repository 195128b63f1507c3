(** Editing JSON texts. *)
From Verif Require Import Base Utf8 EditModel EditSpec GramSpec JsonModel JsonSpec ParserModel TreeModel.

(** A JSON text in UTF-8 of less than 4 GiB. *)
Definition is_json (text : str) : Prop :=
  (Z.of_nat (length text) < 2 ^ 32)%Z /\ exists cs v, text = encode cs /\ Forall is_scalar cs /\ jtext cs v.
(** White space, or a slash where there are comments. *)
Definition gap (comments : bool) (c : Z) : Prop := is_ws c \/ comments = true /\ c = 47%Z.
(** The text does not begin with white space or a comment. *)
Definition starts_plain (comments : bool) (text : str) : Prop := match text with [] => True | c :: _ => ~ gap comments c end.
(** In the text after the edits there is no white space and no comment where a replacement begins. *)
Definition plain_edits (comments : bool) (text : str) (es : list edit) : Prop :=
  forall p c, In (Z.of_nat p) (new_starts 0 (sort_edits es)) -> nth_error (simultaneous text es) p = Some c -> ~ gap comments c.

(** A JSON text edited several times; it is JSON after every list of edits. *)
Inductive edited (comments : bool) : str -> list (list edit) -> str -> Prop :=
| EdNone text : is_json text -> edited comments text [] text
| EdMore text es r text' : is_json text -> starts_plain comments text -> Forall (edit_ok text) es -> compatible es -> plain_edits comments text es ->
    edited comments (simultaneous text es) r text' -> edited comments text (es :: r) text'.

(** Parsing after every list of edits with the tree of the time before. *)
Fixpoint keep_tree (parse : str -> option (green * list edit) -> option (green * list (nat * nat))) (text : str) (root : green) (history : list (list edit)) : option green :=
  match history with
  | [] => Some root
  | es :: r => match parse (simultaneous text es) (Some (root, es)) with
               | Some (root', _) => keep_tree parse (simultaneous text es) root' r
               | None => None
               end
  end.
