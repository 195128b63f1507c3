(** What a use of [json!] says: a value written down as token trees, with spans set to zero. *)
From Verif Require Import Base Utf8 JsonAstModel MacroModel.

(** Names are strings or identifiers. *)
Inductive named : tt -> str -> Prop :=
| NStr s : named (TLit (LStr s)) s
| NIdent s : named (TIdent s) s.

Section Written.
  Variable (F : Type) (number : lit_tok -> F).

  Inductive written : list tt -> ast F -> Prop :=
  | WNull : written [TIdent (lit "null")] (ANull (0, 0))
  | WBool b : written [TLit (LBool b)] (ABool b (0, 0))
  | WString s : written [TLit (LStr s)] (AString s (0, 0))
  | WInt s : written [TLit (LInt s)] (ANumber (number (LInt s)) (0, 0))
  | WFloat s : written [TLit (LFloat s)] (ANumber (number (LFloat s)) (0, 0))
  | WMinusInt s : written [TPunct 45%Z; TLit (LInt s)] (ANumber (number (LInt (45%Z :: s))) (0, 0))
  | WMinusFloat s : written [TPunct 45%Z; TLit (LFloat s)] (ANumber (number (LFloat (45%Z :: s))) (0, 0))
  | WArray ts l : elements ts l -> written [TGroup DBracket ts] (AArray l (0, 0))
  | WObject ts l : fields ts l -> written [TGroup DBrace ts] (AObject l (0, 0))
  (** Elements with commas between them; a comma after the last one is allowed. *)
  with elements : list tt -> list (ast F) -> Prop :=
  | ENone : elements [] []
  | ELast ts v : written ts v -> elements ts [v]
  | EMore ts v r l : written ts v -> elements r l -> elements (ts ++ TPunct 44%Z :: r) (v :: l)
  with fields : list tt -> list (str * span * ast F * span) -> Prop :=
  | FNone : fields [] []
  | FLast n k ts v : named n k -> written ts v -> fields (n :: TPunct 58%Z :: ts) [(k, (0, 0), v, (0, 0))]
  | FMore n k ts v r l : named n k -> written ts v -> fields r l ->
      fields (n :: TPunct 58%Z :: ts ++ TPunct 44%Z :: r) ((k, (0, 0), v, (0, 0)) :: l).
End Written.

(** What is asked of the parser of Rust expressions: an integer literal, possibly negative, at the end of the input or in
    front of a comma is an expression with that value. *)
Definition ends (r : list tt) : Prop := r = [] \/ exists r', r = TPunct 44%Z :: r'.
Definition reads_integers (E F : Type) (rust : list tt -> option (E * list tt)) (number : lit_tok -> F) (value_of : E -> ast F) : Prop :=
  forall s r, ends r ->
  (exists e, rust (TLit (LInt s) :: r) = Some (e, r) /\ value_of e = ANumber (number (LInt s)) (0, 0)) /\
  (exists e, rust (TPunct 45%Z :: TLit (LInt s) :: r) = Some (e, r) /\ value_of e = ANumber (number (LInt (45%Z :: s))) (0, 0)).
