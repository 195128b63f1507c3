(** What a reader of the source text takes for a comment, and how often comments should be written. *)
From Verif Require Import Base Utf8 CommentModel.

(** Blank text: white space only. *)
Definition blank (s : str) : Prop := forall c, In c s -> white c = true.

(** The characters that are not white space. *)
Definition ink (s : str) : str := filter (fun c => negb (white c)) s.

(** Text that is one comment: a line comment ends at the first line feed, a block comment at the first [*/]. *)
Definition closes (s : str) : Prop := exists a b, s = a ++ [42; 47]%Z ++ b.
Definition one_comment (k : kind) (s : str) : Prop :=
  match k with
  | Line => exists body, s = [47; 47]%Z ++ body /\ ~ In 10%Z body
  | Doc => exists body, s = [47; 47; 47]%Z ++ body /\ ~ In 10%Z body
  | Block => exists body, s = [47; 42]%Z ++ body ++ [42; 47]%Z /\ ~ closes (body ++ [42]%Z)
  end.

(** Content that cannot be written as one comment of the kind: a line feed that trimming does not remove, or the
    closing marker. *)
Definition unwritable (k : kind) (content : str) : Prop :=
  match k with
  | Block => closes content
  | _ => exists a b, content = a ++ 10%Z :: b /\ (blank content \/ (~ blank a /\ ~ blank b))
  end.

(** The content of a comment (without the markers) as its text gives it. *)
Definition content_of (k : kind) (text content : str) : Prop :=
  match k with
  | Line => text = [47; 47]%Z ++ content
  | Doc => text = [47; 47; 47]%Z ++ content
  | Block => text = [47; 42]%Z ++ content ++ [42; 47]%Z
  end.

(** How many of the positions are at or after the end of a comment. *)
Definition passed (c : comment) (ps : list position) : nat :=
  length (filter (fun p => po_offset (sp_end (co_span c)) <=? po_offset p) ps).

Definition position_eq (a b : position) : {a = b} + {a <> b}.
Proof. decide equality; apply Nat.eq_dec. Defined.
Definition comment_eq (a b : comment) : {a = b} + {a <> b}.
Proof.
  decide equality; try apply Nat.eq_dec; try apply bool_dec; try (apply list_eq_dec; apply Z.eq_dec); decide equality; apply position_eq.
Defined.

(** A line written for a comment. *)
Definition entry (indent : str) (c : comment) : str := indent ++ formatted_text c indent ++ [10%Z].

(** [c] comes first among the trailing comments of [cs] that start at or after [p]. *)
Definition nearest (cs : list comment) (p : position) (c : comment) : Prop :=
  In c cs /\ co_trailing c = true /\ po_offset p <= start_of c /\
  forall d, In d cs -> co_trailing d = true -> po_offset p <= start_of d -> start_of c <= start_of d.
