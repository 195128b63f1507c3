(** Model of the Lua language, second part: examples/oak-lua/src/ast/mod.rs and builder/mod.rs.  Floating point numbers are
    the type [F]; reading and writing them are parameters. *)
From Verif Require Import Base Utf8 Utf8Facts RopeModel LexModel TreeModel CursorModel LuaModel.

(** ast/mod.rs:12-16, 37-51, 97-100, 128-131, 154-156, 173-178, 212-215, 233-236, 288-291, 308-314, 354-368, 406-409,
    421-425, 440-443, 462-464, 481-485, 509-513, 542-545, 559-563 *)
Inductive uexpr (F : Type) :=
| EName (s : str) | ENumber (n : F) | EString (s : str) | EBool (b : bool) | ENil
| EBinary (l : uexpr F) (op : str) (r : uexpr F) | EUnary (op : str) (e : uexpr F) | ECall (f : uexpr F) (args : list (uexpr F))
| ETable (fields : list (ufield F)) | EFunction (params : list str) (vararg : bool) (block : list (ustmt F))
| EIndex (t i : uexpr F) | EMember (t : uexpr F) (member : str) (is_method : bool) | EVararg
with ufield (F : Type) := FKeyed (k v : uexpr F) | FNamed (n : str) (v : uexpr F) | FList (v : uexpr F)
with ustmt (F : Type) :=
| SLocal (names : list str) (values : list (uexpr F)) | SAssign (targets values : list (uexpr F)) | SExpr (e : uexpr F)
| SReturn (values : list (uexpr F))
| SIf (c : uexpr F) (b : list (ustmt F)) (else_ifs : list (uexpr F * list (ustmt F))) (els : option (list (ustmt F)))
| SWhile (c : uexpr F) (b : list (ustmt F))
| SNumeric (variable : str) (start stop : uexpr F) (step : option (uexpr F)) (b : list (ustmt F))
| SGeneric (variables : list str) (iterators : list (uexpr F)) (b : list (ustmt F))
| SRepeat (b : list (ustmt F)) (c : uexpr F)
| SFunction (name : list str) (receiver : option str) (params : list str) (vararg : bool) (b : list (ustmt F))
| SBreak | SDo (b : list (ustmt F)) | SGoto (l : str) | SLabel (l : str).
Arguments EName {F}. Arguments ENumber {F}. Arguments EString {F}. Arguments EBool {F}. Arguments ENil {F}. Arguments EBinary {F}.
Arguments EUnary {F}. Arguments ECall {F}. Arguments ETable {F}. Arguments EFunction {F}. Arguments EIndex {F}. Arguments EMember {F}.
Arguments EVararg {F}. Arguments FKeyed {F}. Arguments FNamed {F}. Arguments FList {F}. Arguments SLocal {F}. Arguments SAssign {F}.
Arguments SExpr {F}. Arguments SReturn {F}. Arguments SIf {F}. Arguments SWhile {F}. Arguments SNumeric {F}. Arguments SGeneric {F}.
Arguments SRepeat {F}. Arguments SFunction {F}. Arguments SBreak {F}. Arguments SDo {F}. Arguments SGoto {F}. Arguments SLabel {F}.

(** ** Builder *)

(** [Result<Option<A>, _>]: never [Err], [None] is a panic *)
Notation res A := (option (option A)).
(** A child with what the loops of the builder ask for: the kind, length and text of a leaf; the kind of a node and the
    results of [build_expression] and [build_statement] and, for a field of a table, of the loop builder/mod.rs:546-582 *)
Inductive child (F : Type) := CLeaf (k n : nat) (s : str) | CNode (k : nat) (e : res (uexpr F)) (s : res (ustmt F)) (f : res (ufield F)).
Arguments CLeaf {F}. Arguments CNode {F}.

(** [&text[1..text.len() - 1]] if there are two bytes, builder/mod.rs:430, 530 *)
Definition unquoted (t : str) : option str :=
  if 2 <=? length t then if is_boundary t 1 && is_boundary t (length t - 1) then Some (substr t 1 (length t - 1)) else None
  else Some t.

Section Builder.
  Context {F : Type} (parse : str -> option F) (text : str).
  Notation expr := (uexpr F). Notation stmt := (ustmt F). Notation field := (ufield F). Notation child := (child F).

  (** A loop over the children; an early [return] is an accumulator that no longer changes. *)
  Fixpoint each {A} (step : A -> child -> option A) (cs : list child) (acc : A) : option A :=
    match cs with [] => Some acc | c :: r => match step acc c with None => None | Some a => each step r a end end.
  (** [if let Some(x) = self.build_…(child, …)? { … }] *)
  Definition with_some {A B} (acc : A) (r : res B) (f : B -> A) : option A :=
    match r with None => None | Some None => Some acc | Some (Some x) => Some (f x) end.
  Definition is_in (k : nat) (ks : list nat) : bool := existsb (Nat.eqb k) ks.

  (** *** Expressions, builder/mod.rs:415-674 *)

  (** 417-441; the text is taken at the offset of the node *)
  Definition b_literal (off : nat) (acc : option expr) (c : child) : option (option expr) :=
    match acc, c with
    | None, CLeaf k n _ =>
        let t := flat_text_in text off (off + n) in
        if k =? UNumber then Some (option_map ENumber (parse t))
        else if k =? UString then option_map (fun s => Some (EString s)) (unquoted t)
        else if k =? UTrue then Some (Some (EBool true)) else if k =? UFalse then Some (Some (EBool false))
        else if k =? UNil then Some (Some ENil) else Some None
    | _, _ => Some acc
    end.
  (** 442-452 *)
  Definition b_name (off : nat) (acc : option expr) (c : child) : option (option expr) :=
    match acc, c with
    | None, CLeaf k n _ => Some (if k =? UIdentifier then Some (EName (flat_text_in text off (off + n))) else None)
    | _, _ => Some acc
    end.
  (** 453-498 *)
  Definition binary_kinds : list nat :=
    [UPlus; UMinus; UStar; USlash; UPercent; UCaret; ULt; ULtEq; UGt; UGtEq; UEqEq; UTildeEq; UAmpersand; UPipe; UTilde; ULtLt; UGtGt;
     USlashSlash; UAnd; UOr; UDotDot].
  Definition b_binary (acc : option expr * str * option expr) (c : child) : option (option expr * str * option expr) :=
    let '(l, op, r) := acc in
    match c with
    | CNode _ e _ _ => with_some acc e (fun x => match l with None => (Some x, op, r) | Some _ => (l, op, Some x) end)
    | CLeaf k _ s => Some (if is_in k binary_kinds then (l, s, r) else acc)
    end.
  (** 499-516 *)
  Definition b_unary (acc : str * option expr) (c : child) : option (str * option expr) :=
    match c with
    | CNode _ e _ _ => option_map (fun o => (fst acc, o)) e
    | CLeaf k _ s => Some (if is_in k [UMinus; UNot; UHash; UTilde] then (s, snd acc) else acc)
    end.
  (** 517-539 *)
  Definition b_call (acc : option expr * list expr) (c : child) : option (option expr * list expr) :=
    match c with
    | CNode _ e _ _ => with_some acc e (fun x => match fst acc with None => (Some x, snd acc) | Some _ => (fst acc, snd acc ++ [x]) end)
    | CLeaf k _ s => if k =? UString then option_map (fun x => (fst acc, snd acc ++ [EString x])) (unquoted s) else Some acc
    end.
  (** 546-570: key, value, name, after the equals sign *)
  Definition b_field (acc : option expr * option expr * option str * bool) (c : child) : option (option expr * option expr * option str * bool) :=
    let '(key, value, name, eq) := acc in
    match c with
    | CLeaf k _ s => Some (if (k =? UIdentifier) && negb eq then (key, value, Some s, eq) else if k =? UEq then (key, value, name, true) else acc)
    | CNode _ e _ _ => with_some acc e (fun x => match key, eq, name with None, false, None => (Some x, value, name, eq) | _, _, _ => (key, Some x, name, eq) end)
    end.
  (** 572-585 *)
  Definition field_of (cs : list child) : res field :=
    match each b_field cs (None, None, None, false) with
    | None => None
    | Some (key, value, name, _) =>
        Some match value, key, name with
             | Some v, Some k, _ => Some (FKeyed k v)
             | Some v, None, Some n => Some (FNamed n v)
             | Some v, None, None => Some (FList v)
             | None, Some k, _ => Some (FList k)
             | None, None, _ => None
             end
    end.
  (** 540-590 *)
  Definition b_table (acc : list field) (c : child) : option (list field) :=
    match c with CNode k _ _ f => if k =? UTableField then with_some acc f (fun x => acc ++ [x]) else Some acc | CLeaf _ _ _ => Some acc end.
  (** 591-617: parameters, [is_vararg], the block, after the parenthesis *)
  Definition b_function (acc : list str * bool * list stmt * bool) (c : child) : option (list str * bool * list stmt * bool) :=
    let '(ps, va, b, after) := acc in
    match c with
    | CLeaf k _ s => Some (if (k =? UIdentifier) && negb after then (ps ++ [s], va, b, after) else if k =? UDotDotDot then (ps, true, b, after)
                           else if k =? URightParen then (ps, va, b, true) else acc)
    | CNode _ _ s _ => if after then with_some acc s (fun x => (ps, va, b ++ [x], after)) else Some acc
    end.
  (** 618-644 *)
  Definition b_member (acc : option expr * str * bool) (c : child) : option (option expr * str * bool) :=
    let '(t, m, method) := acc in
    match c with
    | CNode _ e _ _ => match t with None => option_map (fun x => (x, m, method)) e | Some _ => Some acc end
    | CLeaf k _ s => Some (if k =? UIdentifier then (t, s, method) else if k =? UColon then (t, m, true) else acc)
    end.
  (** 645-658 *)
  Definition b_index (acc : option expr * option expr) (c : child) : option (option expr * option expr) :=
    match c with
    | CNode _ e _ _ => match fst acc with None => option_map (fun x => (x, snd acc)) e | Some _ => option_map (fun x => (fst acc, x)) e end
    | CLeaf _ _ _ => Some acc
    end.
  (** 660-671, and 106-117 *)
  Definition b_first (acc : option expr) (c : child) : option (option expr) :=
    match acc, c with None, CNode _ e _ _ => e | _, _ => Some acc end.

  Definition expr_of (k off : nat) (cs : list child) : res expr :=
    if k =? ULiteralExpr then each (b_literal off) cs None
    else if k =? UIdentifierExpr then each (b_name off) cs None
    else if k =? UBinaryExpr then
      option_map (fun a => let '(l, op, r) := a in match l, r with Some l, Some r => Some (EBinary l op r) | _, _ => None end) (each b_binary cs (None, [], None))
    else if k =? UUnaryExpr then option_map (fun a => option_map (EUnary (fst a)) (snd a)) (each b_unary cs ([], None))
    else if k =? UCallExpr then option_map (fun a => option_map (fun f => ECall f (snd a)) (fst a)) (each b_call cs (None, []))
    else if k =? UTableExpr then option_map (fun fs => Some (ETable fs)) (each b_table cs [])
    else if k =? UFunctionExpr then option_map (fun a => let '(ps, va, b, _) := a in Some (EFunction ps va b)) (each b_function cs ([], false, [], false))
    else if k =? UMemberExpr then option_map (fun a => let '(t, m, method) := a in option_map (fun t => EMember t m method) t) (each b_member cs (None, [], false))
    else if k =? UIndexExpr then
      option_map (fun a => match fst a, snd a with Some t, Some i => Some (EIndex t i) | _, _ => None end) (each b_index cs (None, None))
    else if k =? UVarargExpr then Some (Some EVararg)
    else if k =? UParenthesizedExpr then each b_first cs None
    else Some None.

  (** *** Statements, builder/mod.rs:67-413 *)

  (** 69-86 *)
  Definition b_local (acc : list str * list expr) (c : child) : option (list str * list expr) :=
    match c with
    | CLeaf k _ s => Some (if k =? UIdentifier then (fst acc ++ [s], snd acc) else acc)
    | CNode _ e _ _ => with_some acc e (fun x => (fst acc, snd acc ++ [x]))
    end.
  (** 87-105 *)
  Definition b_assign (acc : list expr * list expr * bool) (c : child) : option (list expr * list expr * bool) :=
    let '(ts, vs, eq) := acc in
    match c with
    | CNode _ e _ _ => with_some acc e (fun x => if eq then (ts, vs ++ [x], eq) else (ts ++ [x], vs, eq))
    | CLeaf k _ _ => Some (if k =? UEq then (ts, vs, true) else acc)
    end.
  (** 118-130 *)
  Definition b_exprs (acc : list expr) (c : child) : option (list expr) :=
    match c with CNode _ e _ _ => with_some acc e (fun x => acc ++ [x]) | CLeaf _ _ _ => Some acc end.
  (** 132-157 *)
  Definition b_label (acc : option str) (c : child) : option (option str) :=
    match acc, c with None, CLeaf k _ s => Some (if k =? UIdentifier then Some s else None) | _, _ => Some acc end.
  (** 158-223: condition, first block, [else_ifs], [else_block], [state] *)
  Definition push_last (l : list (expr * list stmt)) (x : stmt) : list (expr * list stmt) :=
    match rev l with [] => [] | (c, b) :: r => rev r ++ [(c, b ++ [x])] end.
  Definition if_state : Type := option expr * list stmt * list (expr * list stmt) * option (list stmt) * nat.
  Definition b_if (acc : if_state) (c : child) : option if_state :=
    let '(cond, b, elifs, els, state) := acc in
    match c with
    | CLeaf k _ _ => Some
        (if k =? UIf then (cond, b, elifs, els, 0)
         else if k =? UThen then (cond, b, elifs, els, if state =? 0 then 1 else if state =? 2 then 3 else state)
         else if k =? UElseif then (cond, b, elifs, els, 2) else if k =? UElse then (cond, b, elifs, Some [], 4) else acc)
    | CNode _ e s _ =>
        if state =? 0 then with_some acc e (fun x => (Some x, b, elifs, els, state))
        else if state =? 1 then with_some acc s (fun x => (cond, b ++ [x], elifs, els, state))
        else if state =? 2 then with_some acc e (fun x => (cond, b, elifs ++ [(x, [])], els, state))
        else if state =? 3 then with_some acc s (fun x => (cond, b, push_last elifs x, els, state))
        else if state =? 4 then with_some acc s (fun x => (cond, b, elifs, option_map (fun l => l ++ [x]) els, state))
        else Some acc
    end.
  (** 224-250 *)
  Definition b_while (acc : option expr * list stmt * bool) (c : child) : option (option expr * list stmt * bool) :=
    let '(cond, b, inside) := acc in
    match c with
    | CLeaf k _ _ => Some (if k =? UDo then (cond, b, true) else acc)
    | CNode _ e s _ => if inside then with_some acc s (fun x => (cond, b ++ [x], inside)) else with_some acc e (fun x => (Some x, b, inside))
    end.
  (** 251-294: variables, expressions, block, [in_block], [after_in], [after_eq] *)
  Definition for_state : Type := list str * list expr * list stmt * (bool * bool * bool).
  Definition b_for (acc : for_state) (c : child) : option for_state :=
    let '(vars, es, b, (inside, after_in, after_eq)) := acc in
    match c with
    | CLeaf k _ s => Some
        (if k =? UIdentifier then (vars ++ [s], es, b, (inside, after_in, after_eq)) else if k =? UEq then (vars, es, b, (inside, after_in, true))
         else if k =? UIn then (vars, es, b, (inside, true, after_eq)) else if k =? UDo then (vars, es, b, (true, after_in, after_eq)) else acc)
    | CNode _ e s _ => if inside then with_some acc s (fun x => (vars, es, b ++ [x], (inside, after_in, after_eq)))
                       else with_some acc e (fun x => (vars, es ++ [x], b, (inside, after_in, after_eq)))
    end.
  Definition for_of (a : for_state) : option stmt :=
    let '(vars, es, b, (_, after_in, after_eq)) := a in
    if after_in then Some (SGeneric vars es b)
    else match after_eq, vars, es with
         | true, v :: _, e1 :: e2 :: r => Some (SNumeric v e1 e2 (hd_error r) b)
         | _, _, _ => None
         end.
  (** 295-321 *)
  Definition b_repeat (acc : list stmt * option expr * bool) (c : child) : option (list stmt * option expr * bool) :=
    let '(b, cond, after) := acc in
    match c with
    | CLeaf k _ _ => Some (if k =? UUntil then (b, cond, true) else acc)
    | CNode _ e s _ => if after then with_some acc e (fun x => (b, Some x, after)) else with_some acc s (fun x => (b ++ [x], cond, after))
    end.
  (** 322-334 *)
  Definition b_do (acc : list stmt) (c : child) : option (list stmt) :=
    match c with CNode _ _ s _ => with_some acc s (fun x => acc ++ [x]) | CLeaf _ _ _ => Some acc end.
  (** 335-410: name, receiver, parameters, [is_vararg], block, [state].  There is no node FunctionName in any tree of the
      parser, so that the branch for it is left out. *)
  Definition fun_state : Type := list str * option str * list str * bool * list stmt * nat.
  Definition b_declaration (acc : fun_state) (c : child) : option fun_state :=
    let '(name, recv, ps, va, b, state) := acc in
    match c with
    | CLeaf k _ s => Some
        (if k =? UIdentifier then
           if state =? 0 then (name ++ [s], recv, ps, va, b, state) else if state =? 1 then (name, recv, ps ++ [s], va, b, state) else acc
         else if k =? UColon then
           if state =? 0 then match rev name with [] => acc | x :: _ => (removelast name, Some x, ps, va, b, state) end else acc
         else if k =? ULeftParen then (name, recv, ps, va, b, 1) else if k =? URightParen then (name, recv, ps, va, b, 2)
         else if k =? UDotDotDot then (name, recv, ps, true, b, state) else acc)
    | CNode _ _ s _ => if state =? 2 then with_some acc s (fun x => (name, recv, ps, va, b ++ [x], state)) else Some acc
    end.

  Definition stmt_of (k : nat) (cs : list child) : res stmt :=
    if k =? ULocalStmt then option_map (fun a => Some (SLocal (fst a) (snd a))) (each b_local cs ([], []))
    else if k =? UAssignmentStmt then option_map (fun a => let '(ts, vs, _) := a in Some (SAssign ts vs)) (each b_assign cs ([], [], false))
    else if k =? UExprStmt then option_map (option_map SExpr) (each b_first cs None)
    else if k =? UReturnStmt then option_map (fun vs => Some (SReturn vs)) (each b_exprs cs [])
    else if k =? UBreakStmt then Some (Some SBreak)
    else if k =? UGotoStmt then option_map (option_map SGoto) (each b_label cs None)
    else if k =? ULabelStmt then option_map (option_map SLabel) (each b_label cs None)
    else if k =? UIfStmt then
      option_map (fun a => let '(cond, b, elifs, els, _) := a in option_map (fun c => SIf c b elifs els) cond) (each b_if cs (None, [], [], None, 0))
    else if k =? UWhileStmt then option_map (fun a => let '(cond, b, _) := a in option_map (fun c => SWhile c b) cond) (each b_while cs (None, [], false))
    else if k =? UForStmt then option_map for_of (each b_for cs ([], [], [], (false, false, false)))
    else if k =? URepeatStmt then option_map (fun a => let '(b, cond, _) := a in option_map (SRepeat b) cond) (each b_repeat cs ([], None, false))
    else if k =? UDoStmt then option_map (fun b => Some (SDo b)) (each b_do cs [])
    else if k =? UFunctionDecl then
      option_map (fun a => let '(name, recv, ps, va, b, _) := a in Some (SFunction name recv ps va b)) (each b_declaration cs ([], None, [], false, [], 0))
    else Some None.

  (** The three results for a tree at an offset; [children]: the loops keep [child_offset]. *)
  Fixpoint built (t : green) (off : nat) : child :=
    match t with
    | GLeaf k n _ => CLeaf k n (flat_text_in text off (off + n))
    | GNode k _ ch =>
        let cs := (fix go (l : list green) (o : nat) : list child := match l with [] => [] | c :: r => built c o :: go r (o + glen c) end) ch off in
        CNode k (expr_of k off cs) (stmt_of k cs) (field_of cs)
    end.
  Fixpoint children (l : list green) (o : nat) : list child := match l with [] => [] | c :: r => built c o :: children r (o + glen c) end.

  (** builder/mod.rs:50-65 [build_root]: the statements and the end of the span *)
  Definition root_of (t : green) : option (list stmt * nat) :=
    match t with
    | GNode _ _ ch => option_map (fun b => (b, list_sum (map glen ch))) (each b_do (children ch 0) [])
    | GLeaf _ _ _ => None
    end.
End Builder.

(** builder/mod.rs:27-46 [build]: the root and the diagnostics.  The lexing before the parsing is repeated by it. *)
Definition lua_build {F} (parse : str -> option F) (fuel : nat) (text : str) : option (list (ustmt F) * nat * list (nat * nat)) :=
  match lua_tree fuel text with
  | None => None
  | Some (root, errs) => option_map (fun r => (r, errs)) (root_of parse text root)
  end.

(** ** Printer *)
Section Printer.
  Context {F : Type} (show : F -> str).
  (** [", "] between the items *)
  Fixpoint commas (l : list str) : str :=
    match l with [] => [] | [x] => x | x :: r => x ++ lit ", " ++ commas r end.
  Definition separated (sep : str) : list str -> str :=
    fix go l := match l with [] => [] | [x] => x | x :: r => x ++ sep ++ go r end.
  (** the parameters, ast/mod.rs:329-340, 518-529 *)
  Definition print_params (ps : list str) (va : bool) : str :=
    commas ps ++ (if va then (match ps with [] => [] | _ => lit ", " end) ++ lit "..." else []).
  (** every statement with a line feed *)
  Definition lines (l : list str) : str := flat_map (fun s => s ++ [10%Z]) l.

  (** ast/mod.rs:370-392, 411-416, 427-435, 445-457, 466-477, 515-537, 547-554, 565-576 *)
  Fixpoint print_expr (e : uexpr F) : str :=
    match e with
    | EName s => s
    | ENumber n => show n
    | EString s => lit """" ++ s ++ lit """"
    | EBool b => if b then lit "true" else lit "false"
    | ENil => lit "nil"
    | EBinary l op r => print_expr l ++ lit " " ++ op ++ lit " " ++ print_expr r
    | EUnary op e => op ++ print_expr e
    | ECall f args => print_expr f ++ lit "(" ++ commas (map print_expr args) ++ lit ")"
    | ETable fs => lit "{" ++ commas (map print_field fs) ++ lit "}"
    | EFunction ps va b => lit "function(" ++ print_params ps va ++ lit ")" ++ [10%Z] ++ lines (map print_stmt b) ++ lit "end"
    | EIndex t i => print_expr t ++ lit "[" ++ print_expr i ++ lit "]"
    | EMember t m method => print_expr t ++ (if method then lit ":" else lit ".") ++ m
    | EVararg => lit "..."
    end
  (** ast/mod.rs:487-504 *)
  with print_field (f : ufield F) : str :=
    match f with
    | FKeyed k v => lit "[" ++ print_expr k ++ lit "] = " ++ print_expr v
    | FNamed n v => n ++ lit " = " ++ print_expr v
    | FList v => print_expr v
    end
  (** ast/mod.rs:53-85, 104-123, 133-149, 158-168, 180-207, 217-228, 238-283, 293-303, 316-349 *)
  with print_stmt (s : ustmt F) : str :=
    match s with
    | SLocal names values => lit "local " ++ commas names ++ match values with [] => [] | _ => lit " = " ++ commas (map print_expr values) end
    | SAssign ts vs => commas (map print_expr ts) ++ lit " = " ++ commas (map print_expr vs)
    | SExpr e => print_expr e
    | SReturn vs => lit "return " ++ commas (map print_expr vs)
    | SIf c b elifs els =>
        lit "if " ++ print_expr c ++ lit " then" ++ [10%Z] ++ lines (map print_stmt b) ++
        flat_map (fun p => lit "elseif " ++ print_expr (fst p) ++ lit " then" ++ [10%Z] ++ lines (map print_stmt (snd p))) elifs ++
        match els with None => [] | Some b => lit "else" ++ [10%Z] ++ lines (map print_stmt b) end ++ lit "end"
    | SWhile c b => lit "while " ++ print_expr c ++ lit " do" ++ [10%Z] ++ lines (map print_stmt b) ++ lit "end"
    | SNumeric v s e step b =>
        lit "for " ++ v ++ lit " = " ++ print_expr s ++ lit ", " ++ print_expr e ++ match step with None => [] | Some x => lit ", " ++ print_expr x end ++
        lit " do" ++ [10%Z] ++ lines (map print_stmt b) ++ lit "end"
    | SGeneric vs its b => lit "for " ++ commas vs ++ lit " in " ++ commas (map print_expr its) ++ lit " do" ++ [10%Z] ++ lines (map print_stmt b) ++ lit "end"
    | SRepeat b c => lit "repeat" ++ [10%Z] ++ lines (map print_stmt b) ++ lit "until " ++ print_expr c
    | SFunction name recv ps va b =>
        lit "function " ++ separated (lit ".") name ++ match recv with None => [] | Some r => lit ":" ++ r end ++
        lit "(" ++ print_params ps va ++ lit ")" ++ [10%Z] ++ lines (map print_stmt b) ++ lit "end"
    | SBreak => lit "break"
    | SDo b => lit "do" ++ [10%Z] ++ lines (map print_stmt b) ++ lit "end"
    | SGoto l => lit "goto " ++ l
    | SLabel l => lit "::" ++ l ++ lit "::"
    end.
  (** ast/mod.rs:18-25 *)
  Definition print_root (b : list (ustmt F)) : str := lines (map print_stmt b).
End Printer.
