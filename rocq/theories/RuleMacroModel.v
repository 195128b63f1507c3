(** Model of the macros [define_rules!] and [test_lexer!]/[test_parser!]: projects/oak-macros/src/define_rules.rs and test.rs.

    Token trees and parse streams are those of MacroModel.v; of the keywords only [if] occurs, as [TIdent]; [=>] is its two
    characters.  [E] stands for [syn::Expr], [rust] for its parser.  What is left unread inside parentheses or at the end of the
    input is an error (syn reports unexpected tokens). *)
From Verif Require Import Base Utf8 VfsModel MacroModel.

(** [Ident::parse] *)
Definition parse_ident (ts : list tt) : option (str * list tt) :=
  match ts with TIdent s :: r => if str_eqb s (lit "if") then None else Some (s, r) | _ => None end.
(** define_rules.rs:194-196, 213-215, 232-234; test.rs:135-137 *)
Definition skip_comma (ts : list tt) : list tt := match eat_comma ts with Some r => r | None => ts end.

Section Rules.
  Variable (E : Type) (rust : list tt -> option (E * list tt)).

  (** define_rules.rs:201-207, 222-226: [S n] names with commas between them *)
  Fixpoint parse_names (n : nat) (ts : list tt) : option (list str) :=
    match parse_ident ts with
    | None => None
    | Some (s, r) =>
        match n with
        | O => match r with [] => Some [s] | _ => None end
        | S m => match eat_comma r with
                 | None => None
                 | Some r' => match parse_names m r' with Some l => Some (s :: l) | None => None end
                 end
        end
    end.

  (** define_rules.rs:141-166 *)
  Record handler := Handler { h_args : list str; h_cond : E; h_body : E }.
  Record rule_def := RuleDef { rd_name : str; rd_priority : E; rd_node : option handler; rd_token : option handler }.

  (** define_rules.rs:198-218, 219-237: a handler with [S n] names *)
  Definition parse_handler (n : nat) (ts : list tt) : option (handler * list tt) :=
    match ts with
    | TGroup DParen a :: TIdent kw :: r =>
        if str_eqb kw (lit "if") then
          match parse_names n a, rust r with
          | Some args, Some (c, TPunct 61%Z :: TPunct 62%Z :: r1) =>
              match rust r1 with Some (b, r2) => Some (Handler args c b, skip_comma r2) | None => None end
          | _, _ => None
          end
        else None
    | _ => None
    end.

  (** define_rules.rs:184-240: the loop over the fields and the variables it sets *)
  Fixpoint rule_fields (fuel : nat) (p : option E) (n t : option handler) (ts : list tt) : option (option E * option handler * option handler) :=
    match fuel with
    | O => None
    | S f =>
        match ts with
        | [] => Some (p, n, t)
        | _ =>
            match parse_ident ts with
            | None => None
            | Some (key, r) =>
                if str_eqb key (lit "priority") then
                  match r with
                  | TPunct 58%Z :: r1 => match rust r1 with Some (e, r2) => rule_fields f (Some e) n t (skip_comma r2) | None => None end
                  | _ => None
                  end
                else if str_eqb key (lit "node") then
                  match parse_handler 3 r with Some (h, r1) => rule_fields f p (Some h) t r1 | None => None end
                else if str_eqb key (lit "token") then
                  match parse_handler 2 r with Some (h, r1) => rule_fields f p n (Some h) r1 | None => None end
                else None
            end
        end
    end.

  (** define_rules.rs:168-176, 178-244 *)
  Fixpoint parse_rules (fuel : nat) (ts : list tt) : option (list rule_def) :=
    match fuel with
    | O => None
    | S f =>
        match ts with
        | [] => Some []
        | _ =>
            match parse_ident ts with
            | Some (name, TGroup DBrace c :: r) =>
                match rule_fields (S (length c)) None None None c with
                | Some (Some p, n, t) => match parse_rules f r with Some l => Some (RuleDef name p n t :: l) | None => None end
                | _ => None
                end
            | _ => None
            end
        end
    end.
  Definition define_rules (ts : list tt) : option (list rule_def) := parse_rules (S (length ts)) ts.
End Rules.
Arguments Handler {E}. Arguments RuleDef {E}. Arguments h_args {E}. Arguments h_cond {E}. Arguments h_body {E}.
Arguments rd_name {E}. Arguments rd_priority {E}. Arguments rd_node {E}. Arguments rd_token {E}.

(** ** The expansion *)
(** The names are bound by [let] in the function that is generated, whose parameters are visible to the user's code: the names
    the macro writes have the span of the call, as has what [quote!] makes.  A scope is a list with the innermost binding first. *)
Section Scopes.
  Variable V : Type.
  Fixpoint lookup (x : str) (scope : list (str * V)) : option V :=
    match scope with [] => None | (y, v) :: r => if str_eqb x y then Some v else lookup x r end.
  (** [let a = h;] *)
  Definition bind (scope : list (str * V)) (b : str * str) : list (str * V) :=
    match lookup (snd b) scope with Some v => (fst b, v) :: scope | None => scope end.
  Definition lets (args params : list str) (vals : list V) : list (str * V) := fold_left bind (combine args params) (combine params vals).
End Scopes.
Arguments lookup {V}. Arguments lets {V}. Arguments bind {V}.

(** define_rules.rs:23-40, 42-65: the condition sees the node, the body everything *)
Definition node_params : list str := [lit "_node"; lit "_context"; lit "_source"; lit "_format_children"].
Definition cond_scope {V} (params args : list str) (vals : list V) := lets (firstn 1 args) (firstn 1 params) (firstn 1 vals).
Definition body_scope {V} (params args : list str) (vals : list V) := lets args params vals.
(** define_rules.rs:67-84, 86-107 *)
Definition token_params : list str := [lit "_token"; lit "_context"; lit "_source"].

(** ** Test configurations *)
(** test.rs:100-107 *)
Record config := Config { c_name : str; c_language : str; c_lexer : str; c_extension : str; c_path : str; c_timeout : option N }.
Record partial_config := Partial { p_name : option str; p_language : option str; p_lexer : option str; p_extension : option str; p_path : option str; p_timeout : option N }.

(** [LitInt::base10_parse::<u64>]; digits only *)
Fixpoint decimal_n (acc : N) (s : str) : option N :=
  match s with
  | [] => Some acc
  | c :: r => if ((48 <=? c) && (c <=? 57))%Z then decimal_n (acc * 10 + Z.to_N (c - 48))%N r else None
  end.
Definition parse_u64 (s : str) : option N :=
  match s with [] => None | _ => match decimal_n 0 s with Some n => if (n <? 2 ^ 64)%N then Some n else None | None => None end end.

(** test.rs:122-133: one field *)
Definition config_field (c : partial_config) (key : str) (r : list tt) : option (partial_config * list tt) :=
  let '(Partial n l x e p t) := c in
  if str_eqb key (lit "name") then match parse_ident r with Some (s, r') => Some (Partial (Some s) l x e p t, r') | None => None end
  else if str_eqb key (lit "language") then match parse_ident r with Some (s, r') => Some (Partial n (Some s) x e p t, r') | None => None end
  else if str_eqb key (lit "lexer") || str_eqb key (lit "parser") then match parse_ident r with Some (s, r') => Some (Partial n l (Some s) e p t, r') | None => None end
  else if str_eqb key (lit "extension") then match r with TLit (LStr s) :: r' => Some (Partial n l x (Some s) p t, r') | _ => None end
  else if str_eqb key (lit "path") then match r with TLit (LStr s) :: r' => Some (Partial n l x e (Some s) t, r') | _ => None end
  else if str_eqb key (lit "timeout") then
    match r with TLit (LInt s) :: r' => match parse_u64 s with Some k => Some (Partial n l x e p (Some k), r') | None => None end | _ => None end
  else None.
(** test.rs:118-138 *)
Fixpoint config_fields (fuel : nat) (c : partial_config) (ts : list tt) : option partial_config :=
  match fuel with
  | O => None
  | S f =>
      match ts with
      | [] => Some c
      | _ =>
          match parse_ident ts with
          | Some (key, TPunct 58%Z :: r) => match config_field c key r with Some (c', r') => config_fields f c' (skip_comma r') | None => None end
          | _ => None
          end
      end
  end.
(** test.rs:109-149 *)
Definition test_config (ts : list tt) : option config :=
  match config_fields (S (length ts)) (Partial None None None None None None) ts with
  | Some (Partial (Some n) (Some l) (Some x) (Some e) (Some p) t) => Some (Config n l x e p t)
  | _ => None
  end.
(** test.rs:16, 44: seconds *)
Definition timeout_of (c : config) : N := match c_timeout c with Some t => t | None => 10%N end.
