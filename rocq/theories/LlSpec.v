(** What the LLVM IR lexer is compared with.  Only the numbers of the kinds are taken from the models. *)
From Verif Require Import Base Utf8 LexModel LexSpec LangSpec LlModel.

Definition vdigit (c : Z) : Prop := (48 <= c <= 57)%Z.
(** Among the ASCII characters only A-Z and a-z are letters *)
Definition letters (alpha : Z -> bool) : Prop := forall c, alpha c = true -> (c < 128)%Z -> (65 <= c <= 90)%Z \/ (97 <= c <= 122)%Z.
(** A letter, an underscore or a point; the characters of names *)
Definition vstart (alpha : Z -> bool) (c : Z) : Prop := alpha c = true \/ c = 95%Z \/ c = 46%Z.
Definition vname (alnum : Z -> bool) (c : Z) : Prop := alnum c = true \/ In c (lit "._-").

Definition stops (P : Z -> Prop) (r : list Z) : Prop := forall c, hd_error r = Some c -> ~ P c.
Definition full_run (P : Z -> Prop) (s r : list Z) : Prop := Forall P s /\ stops P r.

Definition sigils : list (Z * nat) := [(37, LvLocalVar); (64, LvGlobalVar); (33, LvMetadata)]%Z.
Definition marks : list (Z * nat) :=
  [(61, LvEqual); (44, LvComma); (40, LvLParen); (41, LvRParen); (91, LvLBracket); (93, LvRBracket); (123, LvLBrace); (125, LvRBrace); (42, LvStar); (58, LvColon)]%Z.

(** [s] is a piece of kind [k] when [r] follows *)
Inductive ll_piece (alpha alnum : Z -> bool) : option nat -> list Z -> list Z -> Prop :=
| PBlank c r : In c [32; 9]%Z -> ll_piece alpha alnum (Some LvWhitespace) [c] r
| PLine c r : In c [10; 13]%Z -> ll_piece alpha alnum (Some LvNewline) [c] r
| PComment s r : full_run (fun c => c <> 10%Z /\ c <> 13%Z) s r -> ll_piece alpha alnum (Some LvComment) (59%Z :: s) r
| PVariable c k s r : In (c, k) sigils -> full_run (vname alnum) s r -> ll_piece alpha alnum (Some k) (c :: s) r
| PMark c k r : In (c, k) marks -> ll_piece alpha alnum (Some k) [c] r
| PNumber c s r : vdigit c \/ c = 45%Z -> full_run (fun c => vdigit c \/ c = 46%Z) s r -> ll_piece alpha alnum (Some LvNumber) (c :: s) r
| PString b r : literal_body 34 (Some 92%Z) b -> ll_piece alpha alnum (Some LvString) (34%Z :: b ++ [34%Z]) r
| PStringOpen b : literal_body 34 (Some 92%Z) b -> ll_piece alpha alnum (Some LvString) (34%Z :: b) []
| PStringEscape b : literal_body 34 (Some 92%Z) b -> ll_piece alpha alnum (Some LvString) (34%Z :: b ++ [92%Z]) []
| PWord c s r : vstart alpha c -> (c < 128)%Z -> full_run (vname alnum) s r -> ll_piece alpha alnum (Some LvKeyword) (c :: s) r
| PError c r : ~ In c [32; 9; 10; 13; 59; 45; 34]%Z -> (forall k, ~ In (c, k) sigils) -> (forall k, ~ In (c, k) marks) -> ~ vdigit c -> ~ vstart alpha c ->
    ll_piece alpha alnum (Some LvError) [c] r.

(** A part of a list: what is left out has [P] *)
Inductive thins {A} (P : A -> Prop) : list A -> list A -> Prop :=
| ThEnd : thins P [] []
| ThKeep x l k : thins P l k -> thins P (x :: l) (x :: k)
| ThDrop x l k : P x -> thins P l k -> thins P (x :: l) k.
(** The pieces that can begin neither a gap nor a global variable nor a function *)
Definition stray (k : nat) (s : list Z) : Prop := ~ In k [LvWhitespace; LvComment; LvNewline; LvGlobalVar] /\ (k = LvKeyword -> s <> lit "define").
