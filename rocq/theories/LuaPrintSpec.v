(** The Lua programs that are printed so that they can be read back. *)
From Verif Require Import Base Utf8 LexModel LuaModel LuaSpec LuaAstModel.

(** a name that is no keyword *)
Definition plain_name (s : str) : Prop := exists c t, s = c :: t /\ start c /\ Forall word t /\ forall k, ~ In (s, k) keywords.
(** The binary operators with their levels, [true]: to the right.  There is no minus: it cannot be lexed, see [lua_tiling_refuted]. *)
Definition binaries : list (str * nat * bool) :=
  [(lit "or", 1, false); (lit "and", 2, false); (lit "<", 3, false); (lit ">", 3, false); (lit "<=", 3, false); (lit ">=", 3, false);
   (lit "~=", 3, false); (lit "==", 3, false); (lit "|", 4, false); (lit "~", 5, false); (lit "&", 6, false); (lit "<<", 7, false);
   (lit ">>", 7, false); (lit "..", 8, true); (lit "+", 9, false); (lit "*", 10, false); (lit "/", 10, false); (lit "//", 10, false);
   (lit "%", 10, false); (lit "^", 12, true)].

Section Fit.
  Context {F : Type} (parse : str -> option F) (show : F -> str).

  Definition numeric (e : uexpr F) : Prop := exists x, e = ENumber x.
  (** What is printed first *)
  Fixpoint leftmost (e : uexpr F) : uexpr F :=
    match e with EBinary l _ _ => leftmost l | ECall f _ => leftmost f | EIndex t _ => leftmost t | EMember t _ _ => leftmost t | _ => e end.
  Definition function_first (e : uexpr F) : Prop := match leftmost e with EFunction _ _ _ => True | _ => False end.
  (** A string, a table or a tilde continues the expression on the line before. *)
  Definition continues (s : ustmt F) : Prop :=
    match s with
    | SExpr e | SAssign (e :: _) _ => match leftmost e with EString _ | ETable _ => True | EUnary op _ => op = lit "~" | _ => False end
    | _ => False
    end.
  (** It ends with an expression. *)
  Definition open_ended (s : ustmt F) : Prop :=
    match s with SAssign _ _ | SExpr _ | SReturn (_ :: _) | SLocal _ (_ :: _) | SRepeat _ _ => True | _ => False end.

  (** [fit l m v]: no parentheses are needed inside of [v]; [l] and [m] as in LuaAstSpec.v *)
  Inductive fit : nat -> nat -> uexpr F -> Prop :=
  | FitName s : plain_name s -> fit 14 14 (EName s)
  | FitNumber x : number (show x) [] -> parse (show x) = Some x -> fit 14 14 (ENumber x)
  | FitString cs : Forall is_scalar cs -> mild cs -> inside 34 cs -> fit 14 14 (EString (encode cs))
  | FitBool b : fit 14 14 (EBool b)
  | FitNil : fit 14 14 ENil
  | FitMember l m t s method : fit l m t -> 13 < m -> ~ numeric t -> plain_name s -> fit (min 13 l) 14 (EMember t s method)
  | FitCall l m f vs : fit l m f -> 13 < m -> fits vs -> fit (min 13 l) 14 (ECall f vs)
  | FitTable fs : fit_fields fs -> fit 14 14 (ETable fs)
  | FitFunction ps va b : Forall plain_name ps -> fit_block true b -> fit 14 14 (EFunction ps va b)
  | FitUnary s l m v : In s [lit "#"; lit "~"] -> fit l m v -> 11 <= l -> fit 14 (min 11 m) (EUnary s v)
  | FitBinary s p right l1 m1 v1 l2 m2 v2 : In (s, p, right) binaries -> fit l1 m1 v1 -> p < m1 -> fit l2 m2 v2 -> (if right then p else S p) <= l2 ->
      fit (min p l1) (min (if right then p else S p) m2) (EBinary v1 s v2)
  with fits : list (uexpr F) -> Prop :=
  | FitsNil : fits []
  | FitsCons l m v vs : fit l m v -> fits vs -> fits (v :: vs)
  with fit_fields : list (ufield F) -> Prop :=
  | FitFsNil : fit_fields []
  | FitFsList l m v fs : fit l m v -> fit_fields fs -> fit_fields (FList v :: fs)
  | FitFsNamed n l m v fs : plain_name n -> fit l m v -> fit_fields fs -> fit_fields (FNamed n v :: fs)
  with fit_stmt : ustmt F -> Prop :=
  | FitLocal ns vs : ns <> [] -> Forall plain_name ns -> fits vs -> fit_stmt (SLocal ns vs)
  | FitAssign t ts vs : ~ function_first t -> fits (t :: ts) -> vs <> [] -> fits vs -> fit_stmt (SAssign (t :: ts) vs)
  | FitExpr l m v : ~ function_first v -> fit l m v -> fit_stmt (SExpr v)
  | FitReturn vs : fits vs -> fit_stmt (SReturn vs)
  | FitIf l m c b es : fit l m c -> fit_block true b -> fit_elseifs es -> fit_stmt (SIf c b es None)
  | FitIfElse l m c b es d : fit l m c -> fit_block true b -> fit_elseifs es -> fit_block true d -> fit_stmt (SIf c b es (Some d))
  | FitWhile l m c b : fit l m c -> fit_block true b -> fit_stmt (SWhile c b)
  | FitNumeric n l1 m1 v1 l2 m2 v2 b : plain_name n -> fit l1 m1 v1 -> fit l2 m2 v2 -> fit_block true b -> fit_stmt (SNumeric n v1 v2 None b)
  | FitNumericStep n l1 m1 v1 l2 m2 v2 l3 m3 v3 b : plain_name n -> fit l1 m1 v1 -> fit l2 m2 v2 -> fit l3 m3 v3 -> fit_block true b ->
      fit_stmt (SNumeric n v1 v2 (Some v3) b)
  | FitGeneric ns vs b : ns <> [] -> Forall plain_name ns -> vs <> [] -> fits vs -> fit_block true b -> fit_stmt (SGeneric ns vs b)
  | FitRepeat b l m c : fit_block true b -> fit l m c -> fit_stmt (SRepeat b c)
  | FitDeclaration ns ps va b : ns <> [] -> Forall plain_name ns -> Forall plain_name ps -> fit_block true b -> fit_stmt (SFunction ns None ps va b)
  | FitBreak : fit_stmt SBreak
  | FitDo b : fit_block true b -> fit_stmt (SDo b)
  | FitGoto s : plain_name s -> fit_stmt (SGoto s)
  | FitLabel s : plain_name s -> fit_stmt (SLabel s)
  with fit_elseifs : list (uexpr F * list (ustmt F)) -> Prop :=
  | FitEsNil : fit_elseifs []
  | FitEsCons l m c b es : fit l m c -> fit_block true b -> fit_elseifs es -> fit_elseifs ((c, b) :: es)
  (** [true]: a keyword ends the block, [false]: the end of the file *)
  with fit_block : bool -> list (ustmt F) -> Prop :=
  | FitBNil i : fit_block i []
  | FitBCons i s b : fit_stmt s -> fit_block i b -> (open_ended s -> forall s', hd_error b = Some s' -> ~ continues s') ->
      (s = SReturn [] -> b = [] /\ i = true) -> fit_block i (s :: b).
End Fit.
