(** Model of the macro [json!]: projects/oak-macros/src/json.rs.

    Token trees are those of proc_macro as syn sees them; a parse stream is the list of trees left.
    [E] stands for [syn::Expr], [rust] for its parser.  The expansion is given as the value it evaluates to: [F] stands for
    [f64], [number] for the value of [JsonValue::from] of a number literal, [value_of] for that of [JsonValue::from] of
    an expression. *)
From Verif Require Import Base Utf8 JsonAstModel VfsModel.

Inductive delim := DParen | DBracket | DBrace.
Inductive lit_tok := LStr (s : str) | LBool (b : bool) | LInt (s : str) | LFloat (s : str).
(** [TIdent]: an identifier that is no keyword. *)
Inductive tt := TIdent (s : str) | TLit (l : lit_tok) | TPunct (c : Z) | TGroup (d : delim) (ts : list tt).

(** [syn::Lit::parse]: a literal, or a minus sign in front of a number *)
Definition parse_lit (ts : list tt) : option (lit_tok * list tt) :=
  match ts with
  | TLit l :: r => Some (l, r)
  | TPunct 45%Z :: TLit (LInt s) :: r => Some (LInt (45%Z :: s), r)
  | TPunct 45%Z :: TLit (LFloat s) :: r => Some (LFloat (45%Z :: s), r)
  | _ => None
  end.

Section Json.
  Variable (E F : Type) (rust : list tt -> option (E * list tt)).

  (** json.rs:15-23 *)
  Inductive jexpr :=
  | JNull | JBool (b : bool) | JNumber (l : lit_tok) | JString (s : str)
  | JArray (l : list jexpr) | JObject (l : list (str * jexpr)) | JExpr (e : E).

  Definition eat_comma (ts : list tt) : option (list tt) := match ts with TPunct 44%Z :: r => Some r | _ => None end.

  (** json.rs:82-94: the last branch.  The second [fork.parse] goes on where the first one stopped if that one found a
      literal that is no float. *)
  Definition parse_other (ts : list tt) : option (jexpr * list tt) :=
    let as_expr := match rust ts with Some (e, r) => Some (JExpr e, r) | None => None end in
    match parse_lit ts with
    | Some (LFloat s, r) => Some (JNumber (LFloat s), r)
    | Some (_, r) =>
        match parse_lit r with
        | Some (LInt i, _) => Some (JNumber (LInt i), r)
        | _ => as_expr
        end
    | None => as_expr
    end.

  (** json.rs:69-80: the loop over the elements of an array, [one] parses an element *)
  Fixpoint parse_elements (one : list tt -> option (jexpr * list tt)) (fuel : nat) (ts : list tt) : option (list jexpr) :=
    match fuel with
    | O => None
    | S f =>
        match ts with
        | [] => Some []
        | _ =>
            match one ts with
            | None => None
            | Some (e, r) =>
                match parse_elements one f (match eat_comma r with Some r' => r' | None => r end) with
                | None => None
                | Some es => Some (e :: es)
                end
            end
        end
    end.

  (** json.rs:44-67: the loop over the fields of an object *)
  Fixpoint parse_fields (one : list tt -> option (jexpr * list tt)) (fuel : nat) (ts : list tt) : option (list (str * jexpr)) :=
    match fuel with
    | O => None
    | S f =>
        match ts with
        | [] => Some []
        | _ =>
            match (match ts with
                   | TLit (LStr s) :: TPunct 58%Z :: r => Some (s, r)
                   | TIdent s :: TPunct 58%Z :: r => Some (s, r)
                   | _ => None
                   end) with
            | None => None
            | Some (key, r) =>
                match one r with
                | None => None
                | Some (v, r1) =>
                    match eat_comma r1, r1 with
                    | None, _ :: _ => None
                    | c, _ =>
                        match parse_fields one f (match c with Some r' => r' | None => r1 end) with
                        | None => None
                        | Some fs => Some ((key, v) :: fs)
                        end
                    end
                end
            end
        end
    end.

  (** json.rs:25-96 [JsonExpr::parse] *)
  Fixpoint json_expr (fuel : nat) (ts : list tt) : option (jexpr * list tt) :=
    match fuel with
    | O => None
    | S f =>
        match ts with
        | TIdent s :: r => if str_eqb s (lit "null") then Some (JNull, r) else parse_other ts
        | TLit (LBool b) :: r => Some (JBool b, r)
        | TLit (LStr s) :: r => Some (JString s, r)
        | TGroup DBrace c :: r => match parse_fields (json_expr f) f c with Some l => Some (JObject l, r) | None => None end
        | TGroup DBracket c :: r => match parse_elements (json_expr f) f c with Some l => Some (JArray l, r) | None => None end
        | _ => parse_other ts
        end
    end.

  Variable (number : lit_tok -> F) (value_of : E -> ast F).

  (** json.rs:99-153 [to_tokens]; every span is the empty range at zero *)
  Fixpoint evaluate (j : jexpr) : ast F :=
    match j with
    | JNull => ANull (0, 0)
    | JBool b => ABool b (0, 0)
    | JNumber l => ANumber (number l) (0, 0)
    | JString s => AString s (0, 0)
    | JArray l => AArray (map evaluate l) (0, 0)
    | JObject l => AObject (map (fun f => let '(k, v) := f in (k, (0, 0), evaluate v, (0, 0))) l) (0, 0)
    | JExpr e => value_of e
    end.

  (** json.rs:9-13 with [parse_macro_input!]: the whole input must be used *)
  Definition json_macro (fuel : nat) (ts : list tt) : option (ast F) :=
    match json_expr fuel ts with Some (j, []) => Some (evaluate j) | _ => None end.
End Json.
Arguments JNull {E}. Arguments JBool {E}. Arguments JNumber {E}. Arguments JString {E}. Arguments JArray {E}.
Arguments JObject {E}. Arguments JExpr {E}.
