(** Model of the macro [doc!] and of the derive macros: projects/oak-macros/src/doc.rs, to_doc.rs and format_rule.rs.

    Token trees and parse streams are those of MacroModel.v.  [E] stands for [syn::Expr], [rust] for its parser.  The expansion
    is given as the document it evaluates to: [doc_of e] is the value of the tokens [e.to_document()], [docs_of e] the
    documents of the items of [e.into_iter()]. *)
From Verif Require Import Base Utf8 PrettyModel VfsModel MacroModel.

Section Doc.
  Variable (E : Type) (rust : list tt -> option (E * list tt)).

  (** doc.rs:15-27 *)
  Inductive dexpr :=
  | DNil | DLine | DSoftLine | DSoftLineSpace | DHardLine | DIndent (d : dexpr) | DGroup (d : dexpr) | DConcat (l : list dexpr)
  | DJoin (items : E) (sep : dexpr) | DText (s : str) | DExpr (e : E).

  (** doc.rs:34-40: the loop after the first item, at a comma or not *)
  Fixpoint doc_items (single : list tt -> option (dexpr * list tt)) (fuel : nat) (ts : list tt) : option (list dexpr * list tt) :=
    match fuel with
    | O => None
    | S f =>
        match eat_comma ts with
        | None => Some ([], ts)
        | Some [] => Some ([], [])
        | Some r =>
            match single r with
            | None => None
            | Some (d, r1) => match doc_items single f r1 with Some (ds, r2) => Some (d :: ds, r2) | None => None end
            end
        end
    end.

  (** doc.rs:29-46 [parse]: one item is itself, with a comma there is a concatenation *)
  Definition doc_parse (single : list tt -> option (dexpr * list tt)) (fuel : nat) (ts : list tt) : option (dexpr * list tt) :=
    match single ts with
    | None => None
    | Some (first, r) =>
        match eat_comma r with
        | None => Some (first, r)
        | Some _ => match doc_items single fuel r with Some (ds, r1) => Some (DConcat (first :: ds), r1) | None => None end
        end
    end.

  (** doc.rs:53-59: the loop inside brackets *)
  Fixpoint doc_bracket (parse : list tt -> option (dexpr * list tt)) (fuel : nat) (ts : list tt) : option (list dexpr) :=
    match fuel with
    | O => None
    | S f =>
        match ts with
        | [] => Some []
        | _ =>
            match parse ts with
            | None => None
            | Some (d, r) => match doc_bracket parse f (match eat_comma r with Some r' => r' | None => r end) with Some ds => Some (d :: ds) | None => None end
            end
        end
    end.

  (** The contents of parentheses; syn reports what is left over. *)
  Definition whole {A} (r : option (A * list tt)) : option A := match r with Some (a, []) => Some a | _ => None end.

  Definition as_expr (ts : list tt) : option (dexpr * list tt) := match rust ts with Some (e, r) => Some (DExpr e, r) | None => None end.

  (** doc.rs:49-112 [parse_single] *)
  Fixpoint doc_single (fuel : nat) (ts : list tt) : option (dexpr * list tt) :=
    match fuel with
    | O => None
    | S f =>
        let parse := doc_parse (doc_single f) f in
        let inside (mk : dexpr -> dexpr) (r : list tt) :=
          match r with
          | TGroup DParen c :: r' => match whole (parse c) with Some d => Some (mk d, r') | None => None end
          | _ => None
          end in
        match ts with
        | TGroup DBracket c :: r => match doc_bracket parse f c with Some ds => Some (DConcat ds, r) | None => None end
        | TIdent s :: r =>
            if str_eqb s (lit "nil") then Some (DNil, r)
            else if str_eqb s (lit "line") then Some (DLine, r)
            else if str_eqb s (lit "soft_line") then Some (DSoftLine, r)
            else if str_eqb s (lit "soft_line_space") then Some (DSoftLineSpace, r)
            else if str_eqb s (lit "hard_line") then Some (DHardLine, r)
            else if str_eqb s (lit "indent") then inside DIndent r
            else if str_eqb s (lit "group") then inside DGroup r
            else if str_eqb s (lit "join") then
              match r with
              | TGroup DParen c :: r' =>
                  match rust c with
                  | None => None
                  | Some (items, c1) =>
                      match eat_comma c1 with
                      | None => None
                      | Some c2 => match whole (parse c2) with Some sep => Some (DJoin items sep, r') | None => None end
                      end
                  end
              | _ => None
              end
            else as_expr ts
        | TLit (LStr s) :: r => Some (DText s, r)
        | _ => as_expr ts
        end
    end.

  Variable (doc_of : E -> doc) (docs_of : E -> list doc).

  (** doc.rs:115-155 [to_tokens] with document/mod.rs:103-115, 148-150 [join_doc] *)
  Fixpoint doc_value (d : dexpr) : doc :=
    match d with
    | DNil => Nil
    | DLine => Line
    | DSoftLine => SoftLine
    | DSoftLineSpace => SoftLineSpace
    | DHardLine => HardLine
    | DIndent d => Indent (doc_value d)
    | DGroup d => Group (doc_value d)
    | DConcat l => Concat (map doc_value l)
    | DJoin items sep => join (docs_of items) (doc_value sep)
    | DText s => Text s
    | DExpr e => doc_of e
    end.

  (** doc.rs:9-13 with [parse_macro_input!]: the whole input must be used *)
  Definition doc_macro (fuel : nat) (ts : list tt) : option doc :=
    match whole (doc_parse (doc_single fuel) fuel ts) with Some d => Some (doc_value d) | None => None end.
End Doc.
Arguments DNil {E}. Arguments DLine {E}. Arguments DSoftLine {E}. Arguments DSoftLineSpace {E}. Arguments DHardLine {E}. Arguments DIndent {E}.
Arguments DGroup {E}. Arguments DConcat {E}. Arguments DJoin {E}. Arguments DText {E}. Arguments DExpr {E}.

(** ** Attributes *)

(** [parse_nested_meta] of syn on the contents of [oak(…)]: after every name the closure is called with the stream behind the
    name; it answers the new state and stream, or an error.  The state changed before an error stays changed, since the
    caller keeps it in a variable and drops the result.  Names are single identifiers. *)
Fixpoint nested_meta {A} (closure : str -> A -> list tt -> option (A * list tt)) (fuel : nat) (a : A) (ts : list tt) : A :=
  match fuel with
  | O => a
  | S f =>
      match ts with
      | TIdent name :: r =>
          match closure name a r with
          | None => a
          | Some (a', r') =>
              match eat_comma r' with
              | None => a'
              | Some [] => a'
              | Some r'' => nested_meta closure f a' r''
              end
          end
      | _ => a
      end
  end.

(** An attribute: its name and the tokens between its parentheses. *)
Definition attr := (str * list tt)%type.
Definition attrs {A} (closure : str -> A -> list tt -> option (A * list tt)) (a : A) (l : list attr) : A :=
  fold_left (fun a at' => if str_eqb (fst at') (lit "oak") then nested_meta closure (S (length (snd at'))) a (snd at') else a) l a.

(** [LitInt::base10_parse::<u8>]; digits only *)
Fixpoint decimal (acc : nat) (s : str) : option nat :=
  match s with
  | [] => Some acc
  | c :: r => if ((48 <=? c) && (c <=? 57))%Z then decimal (acc * 10 + Z.to_nat (c - 48)) r else None
  end.
Definition parse_u8 (s : str) : option nat :=
  match s with [] => None | _ => match decimal 0 s with Some n => if n <? 256 then Some n else None | None => None end end.

(** format_rule.rs:11-23: a name other than [priority] is left with its value unread *)
Definition priority_closure (name : str) (a : nat) (r : list tt) : option (nat * list tt) :=
  if str_eqb name (lit "priority") then
    match r with
    | TPunct 61%Z :: TLit (LInt s) :: r' => match parse_u8 s with Some n => Some (n, r') | None => None end
    | _ => None
    end
  else Some (a, r).
Definition rule_priority (l : list attr) : nat := attrs priority_closure 0 l.

(** to_doc.rs:12-22, 58-68 *)
Section Derive.
  Variable (E : Type) (rust : list tt -> option (E * list tt)).
  Definition doc_closure (fuel : nat) (name : str) (a : option (dexpr E)) (r : list tt) : option (option (dexpr E) * list tt) :=
    if str_eqb name (lit "doc") then
      match r with
      | TPunct 61%Z :: r' => match doc_parse E (doc_single E rust fuel) fuel r' with Some (d, r'') => Some (Some d, r'') | None => None end
      | _ => None
      end
    else Some (a, r).
  Definition custom_doc (fuel : nat) (l : list attr) : option (dexpr E) := attrs (doc_closure fuel) None l.

  Variable (doc_of : E -> doc) (docs_of : E -> list doc).

  (** to_doc.rs:25-51 for a struct and 54-113 for a variant that matches: [fields] are the documents of the fields.  The named
      field of a variant without attribute (a pattern that does not compile) is not modelled. *)
  Definition derived (fuel : nat) (l : list attr) (fields : list doc) : doc :=
    match custom_doc fuel l with
    | Some d => doc_value E doc_of docs_of d
    | None => match fields with [f] => f | _ => Nil end
    end.
End Derive.

(** oak-pretty-print/src/to_doc.rs:40-44 [Vec], 46-53 [Option]; texts, references and boxes are what they hold *)
Definition vec_document (l : list doc) : doc := Concat l.
Definition option_document (o : option doc) : doc := match o with Some d => d | None => Nil end.
