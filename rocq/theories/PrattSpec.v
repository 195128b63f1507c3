(** Specification of operator precedence: expressions, their reading from left to right, and when
    an expression groups its operators as the table says. *)
From Verif Require Import Base Utf8 LexModel TreeModel ParserModel ParserSpec.

Inductive expr := Atom (k : nat) | Bin (o : nat) (l r : expr).

Fixpoint reading (e : expr) : list nat :=
  match e with Atom k => [k] | Bin o l r => reading l ++ o :: reading r end.

Definition root_op (e : expr) : option nat := match e with Atom _ => None | Bin o _ _ => Some o end.

Section Table.
  Variable table : nat -> option (nat * assoc).

  Definition prec (o : nat) : nat := match table o with Some (p, _) => p | None => 0 end.
  Definition right_assoc (o : nat) : Prop := match table o with Some (_, ARight) => True | _ => False end.

  (** Every operator is in the table. *)
  Fixpoint operators_known (e : expr) : Prop :=
    match e with
    | Atom _ => True
    | Bin o l r => table o <> None /\ operators_known l /\ operators_known r
    end.

  (** The left operand of [o] binds at least as tightly, the right operand too, and equal
      precedence is allowed on the left only below a left-associative operator, on the right only
      for a right-associative one. *)
  Fixpoint grouped (e : expr) : Prop :=
    match e with
    | Atom _ => True
    | Bin o l r =>
        grouped l /\ grouped r /\
        match root_op l with
        | Some o1 => prec o < prec o1 \/ (prec o = prec o1 /\ ~ right_assoc o1)
        | None => True
        end /\
        match root_op r with
        | Some o2 => prec o < prec o2 \/ (prec o = prec o2 /\ right_assoc o)
        | None => True
        end
    end.

  (** Precedences a [u8] can be incremented from where the parser increments them. *)
  Definition below_max : Prop :=
    forall o p a, table o = Some (p, a) -> a = ARight \/ p < 255.
End Table.

(** An operand, then operators each followed by an operand. *)
Fixpoint alternating (table : nat -> option (nat * assoc)) (ks : list nat) : Prop :=
  match ks with
  | [] => False
  | _ :: r => match r with [] => True | o :: r' => table o <> None /\ alternating table r' end
  end.

(** Reading a green tree back, ignoring trivia leaves. *)
Definition trivia (ign : nat -> bool) (g : green) : bool :=
  match g with GLeaf k _ _ => ign k | GNode _ _ _ => false end.
Definition solid (ign : nat -> bool) (ch : list green) : list green := filter (fun g => negb (trivia ign g)) ch.

Inductive denotes (ign : nat -> bool) (atom expr_kind : nat) : green -> expr -> Prop :=
| DAtom k n ch len : solid ign ch = [GLeaf k len None] -> denotes ign atom expr_kind (GNode atom n ch) (Atom k)
| DBin o n ch gl len gr l r : solid ign ch = [gl; GLeaf o len None; gr] ->
    denotes ign atom expr_kind gl l -> denotes ign atom expr_kind gr r ->
    denotes ign atom expr_kind (GNode expr_kind n ch) (Bin o l r).

(** The kinds of the tokens still to come, without trivia. *)
Definition kinds_to_come (ign : nat -> bool) (s : pstate) : list nat :=
  map tk_kind (filter (fun t => negb (ign (tk_kind t))) (to_come s)).

Definition total_fits (toks : list token) : Prop :=
  (Z.of_nat (list_sum (map (fun t => snd (tok_yield t)) toks)) < 2 ^ 32)%Z.
