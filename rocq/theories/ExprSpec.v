(** Specification of expressions with prefix, postfix and infix operators, brackets and subscripts. *)
From Verif Require Import Base Utf8 LexModel TreeModel ParserModel ParserSpec PrattSpec ExprModel.

Inductive exp :=
| EAtom (k : nat)
| EGroup (o : nat) (e : exp) (c : nat)
| EPre (o : nat) (e : exp)
| EPost (e : exp) (o : nat)
| EIndex (e : exp) (o : nat) (i : exp) (c : nat)
| EBin (o : nat) (l r : exp).

(** The tokens of an expression from left to right. *)
Fixpoint spelled (e : exp) : list nat :=
  match e with
  | EAtom k => [k]
  | EGroup o e c => o :: spelled e ++ [c]
  | EPre o e => o :: spelled e
  | EPost e o => spelled e ++ [o]
  | EIndex e o i c => spelled e ++ o :: spelled i ++ [c]
  | EBin o l r => spelled l ++ o :: spelled r
  end.

(** An operator together with the place it was found at. *)
Inductive oper := OPre (o : nat) | OPost (o : nat) | OIndex (o : nat) | OBin (o : nat).

(** The operators whose right operand ends where the expression ends. *)
Fixpoint right_edge (e : exp) : list oper :=
  match e with
  | EPre o e => OPre o :: right_edge e
  | EBin o _ r => OBin o :: right_edge r
  | _ => []
  end.
(** The operators whose left operand begins where the expression begins. *)
Fixpoint left_edge (e : exp) : list oper :=
  match e with
  | EPost e o => OPost o :: left_edge e
  | EIndex e o _ _ => OIndex o :: left_edge e
  | EBin o l _ => OBin o :: left_edge l
  | _ => []
  end.

Section Table.
  Variable T : optable.

  Definition oprec (x : oper) : nat :=
    match x with
    | OPre o => match op_pre T o with Some p => p | None => 0 end
    | OPost o => match op_post T o with Some p => p | None => 0 end
    | OIndex o => match op_index T o with Some (p, _) => p | None => 0 end
    | OBin o => match op_in T o with Some (p, _) => p | None => 0 end
    end.
  Definition to_right (x : oper) : Prop :=
    match x with OBin o => match op_in T o with Some (_, ARight) => True | _ => False end | _ => False end.
  Definition infix_oper (x : oper) : Prop := match x with OBin _ => True | _ => False end.

  (** [x] holds on to the operand to its right against [y], which follows it: it binds more tightly, or
      both have the same precedence and [x] is an infix operator that does not group to the right. *)
  Definition holds (x y : oper) : Prop :=
    oprec y < oprec x \/ (oprec y = oprec x /\ infix_oper x /\ ~ to_right x).
  (** [y] may stand inside the right operand of [x], at its left edge. *)
  Definition inside (x y : oper) : Prop :=
    oprec x < oprec y \/ (oprec x = oprec y /\ (infix_oper x -> to_right x)).

  (** The operators group as the table says. *)
  Fixpoint well (e : exp) : Prop :=
    match e with
    | EAtom _ => True
    | EGroup _ e _ => well e
    | EPre o e => well e /\ Forall (inside (OPre o)) (left_edge e)
    | EPost e o => well e /\ Forall (fun x => holds x (OPost o)) (right_edge e)
    | EIndex e o i _ => well e /\ well i /\ Forall (fun x => holds x (OIndex o)) (right_edge e)
    | EBin o l r => well l /\ well r /\ Forall (fun x => holds x (OBin o)) (right_edge l) /\
                    Forall (inside (OBin o)) (left_edge r)
    end.

  (** No operator of any sort that could continue an expression. *)
  Definition no_operator (k : nat) : Prop := op_post T k = None /\ op_index T k = None /\ op_in T k = None.

  (** Every operator stands in its table, the operands in none of those an operand is tried against, and
      brackets match. *)
  Fixpoint lawful (e : exp) : Prop :=
    match e with
    | EAtom k => op_pre T k = None /\ op_group T k = None
    | EGroup o e c => op_pre T o = None /\ op_group T o = Some c /\ no_operator c /\ lawful e
    | EPre o e => op_pre T o <> None /\ lawful e
    | EPost e o => op_post T o <> None /\ lawful e
    | EIndex e o i c => op_post T o = None /\ (exists p, op_index T o = Some (p, c)) /\ no_operator c /\ lawful e /\ lawful i
    | EBin o l r => op_post T o = None /\ op_index T o = None /\ op_in T o <> None /\ lawful l /\ lawful r
    end.

  Definition below_top : Prop := forall o p a, op_in T o = Some (p, a) -> a = ARight \/ p < 255.
End Table.

(** Reading a green tree back, ignoring trivia leaves. *)
Inductive depicts (ign : nat -> bool) (K : exprkinds) : green -> exp -> Prop :=
| PAtom k n ch a : solid ign ch = [GLeaf k a None] -> depicts ign K (GNode (ek_atom K) n ch) (EAtom k)
| PGroup o c n ch a b g e : solid ign ch = [GLeaf o a None; g; GLeaf c b None] -> depicts ign K g e ->
    depicts ign K (GNode (ek_group K) n ch) (EGroup o e c)
| PPre o n ch a g e : solid ign ch = [GLeaf o a None; g] -> depicts ign K g e ->
    depicts ign K (GNode (ek_pre K) n ch) (EPre o e)
| PPost o n ch a g e : solid ign ch = [g; GLeaf o a None] -> depicts ign K g e ->
    depicts ign K (GNode (ek_post K) n ch) (EPost e o)
| PIndex o c n ch a b g e h i : solid ign ch = [g; GLeaf o a None; h; GLeaf c b None] ->
    depicts ign K g e -> depicts ign K h i ->
    depicts ign K (GNode (ek_index K) n ch) (EIndex e o i c)
| PBin o n ch a g h l r : solid ign ch = [g; GLeaf o a None; h] -> depicts ign K g l -> depicts ign K h r ->
    depicts ign K (GNode (ek_bin K) n ch) (EBin o l r).
