(** Model of projects/oak-pretty-print/src/comment/mod.rs.

    Text is the list of its characters (code points): the code only trims, splits into lines and joins, all of
    which are defined on characters. *)
From Verif Require Import Base Utf8.
From Verif Require LexModel DiagModel.

(** mod.rs:4-19 [Position], [SourceSpan] *)
Record position := Position { po_line : nat; po_column : nat; po_offset : nat }.
Record span := Span { sp_start : position; sp_end : position }.

(** mod.rs:23-30 [CommentKind] *)
Inductive kind := Line | Block | Doc.

(** mod.rs:34-45 [Comment] *)
Record comment := Comment {
  co_kind : kind; co_content : str; co_span : span; co_trailing : bool; co_indent : nat }.

(** mod.rs:49-51, 69-78 *)
Definition new_comment (k : kind) (content : str) (sp : span) : comment := Comment k content sp false 0.
Definition with_trailing (c : comment) (b : bool) : comment :=
  Comment (co_kind c) (co_content c) (co_span c) b (co_indent c).

(** [str::trim]: without the white space at both ends *)
Definition white (c : Z) : bool := LexModel.char_is_whitespace c.
Fixpoint trim_start (s : str) : str :=
  match s with [] => [] | c :: r => if white c then trim_start r else s end.
Definition trim (s : str) : str := rev (trim_start (rev (trim_start s))).

(** [str::is_empty] and [str::contains] of a character *)
Definition is_empty (s : str) : bool := match s with [] => true | _ => false end.
Definition contains_char (c : Z) (s : str) : bool := existsb (Z.eqb c) s.

(** mod.rs:82-91 *)
Definition prefix (k : kind) : str :=
  match k with Line => lit "//" | Block => lit "/*" | Doc => lit "///" end.
Definition suffix (k : kind) : str := match k with Block => lit " */" | _ => [] end.

(** mod.rs:107-112: a line of a block comment *)
Definition block_line (indent line : str) : str := indent ++ lit " * " ++ trim line ++ [10%Z].

(** mod.rs:81-124 [formatted_text] *)
Definition formatted_text (c : comment) (indent : str) : str :=
  if is_empty (trim (co_content c)) then prefix (co_kind c) ++ co_content c ++ suffix (co_kind c)
  else match co_kind c with
       | Line | Doc => prefix (co_kind c) ++ lit " " ++ trim (co_content c)
       | Block =>
           if contains_char 10 (co_content c) then
             lit "/*" ++ [10%Z] ++ concat (map (block_line indent) (DiagModel.lines (co_content c))) ++ indent ++ lit " */"
           else lit "/* " ++ trim (co_content c) ++ lit " */"
       end.

(** mod.rs:155-172: the queries of [CommentCollector] *)
Definition comments_in_range (cs : list comment) (start end_ : position) : list comment :=
  filter (fun c => (po_offset start <=? po_offset (sp_start (co_span c))) && (po_offset (sp_end (co_span c)) <=? po_offset end_)) cs.
Definition comments_before (cs : list comment) (p : position) : list comment :=
  filter (fun c => po_offset (sp_end (co_span c)) <=? po_offset p) cs.
Definition comments_after (cs : list comment) (p : position) : list comment :=
  filter (fun c => po_offset p <=? po_offset (sp_start (co_span c))) cs.
Definition trailing_comments (cs : list comment) : list comment := filter co_trailing cs.

(** mod.rs:180-182 [sort_by_position]: [sort_by], a stable sort, ascending in the start offset *)
Definition start_of (c : comment) : nat := po_offset (sp_start (co_span c)).
Fixpoint insert_comment (c : comment) (l : list comment) : list comment :=
  match l with
  | [] => [c]
  | x :: l' => if start_of c <=? start_of x then c :: l else x :: insert_comment c l'
  end.
Fixpoint sort_by_position (l : list comment) : list comment :=
  match l with [] => [] | c :: l' => insert_comment c (sort_by_position l') end.

(** mod.rs:193-197 [CommentProcessor] *)
Record processor := Processor { pr_comments : list comment; pr_preserve : bool; pr_format : bool }.

(** mod.rs:228-245 [process_comments] *)
Definition process_comments (p : processor) (cs : list comment) (indent : str) : list str :=
  if negb (pr_preserve p) then []
  else map (fun c => if pr_format p then formatted_text c indent else co_content c) cs.

(** mod.rs:248-257 [insert_comments_at_position] *)
Fixpoint push_comments (cs : list comment) (indent out : str) : str :=
  match cs with
  | [] => out
  | c :: cs' =>
      push_comments cs' indent
        (if negb (co_trailing c) then out ++ indent ++ formatted_text c indent ++ [10%Z] else out)
  end.
Definition insert_comments_at_position (p : processor) (out : str) (at_ : position) (indent : str) : str :=
  push_comments (comments_before (pr_comments p) at_) indent out.

(** mod.rs:260-269 [insert_trailing_comment] *)
Fixpoint push_trailing (cs : list comment) (out : str) : str :=
  match cs with
  | [] => out
  | c :: cs' => if co_trailing c then out ++ lit " " ++ formatted_text c [] else push_trailing cs' out
  end.
Definition insert_trailing_comment (p : processor) (out : str) (at_ : position) : str :=
  push_trailing (comments_after (pr_comments p) at_) out.
