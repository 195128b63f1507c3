(** Model of the Pratt parser with prefix, postfix and infix operators, brackets and subscripts:
    projects/oak-core/src/parser/pratt.rs in the way the example languages use it. *)
From Verif Require Import Base Utf8 LexModel TreeModel ParserModel.

(** The [match kind] tables of a [Pratt] implementation (examples/oak-rust/src/parser/mod.rs:51-90,
    examples/oak-lua/src/parser/mod.rs:352-390, examples/oak-wolfram/src/parser/mod.rs:127-180):
    prefix operators with their precedence, infix operators, postfix operators, opening brackets
    with their closing bracket, and subscript brackets with precedence and closing bracket.
    Every other token kind is an operand. *)
Record optable := OpTable {
  op_pre : nat -> option nat;
  op_in : nat -> option (nat * assoc);
  op_post : nat -> option nat;
  op_group : nat -> option nat;
  op_index : nat -> option (nat * nat);
}.

(** The element kinds of the nodes built. *)
Record exprkinds := ExprKinds { ek_atom : nat; ek_group : nat; ek_pre : nat; ek_post : nat; ek_bin : nat; ek_index : nat }.

(** How a subscript node gets its left operand: oak-lua/src/parser/mod.rs:402-408 takes
    [checkpoint_before(left)]; oak-rust/src/parser/mod.rs:106-113 takes [checkpoint()] and then calls
    [push_child(left)] (state.rs:525-527), as do oak-c, oak-cpp, oak-csharp, oak-javascript, oak-kotlin,
    oak-php, oak-zig, oak-elixir, oak-actionscript. *)
Inductive subscript := TakeLeft | PushLeft.
Definition open_left (m : subscript) (s : pstate) (l : item) (id : nat) : (nat * nat) * pstate :=
  match m with
  | TakeLeft => (checkpoint_before s id, s)
  | PushLeft => (checkpoint s, set_sink s (ps_sink s ++ [l]))
  end.

(** What the [infix] function finds at the current token: nothing to do, or an operator that is allowed
    at [min] (oak-wolfram/src/parser/mod.rs:145-175, oak-rust/src/parser/mod.rs:65-122). *)
Inductive next_op := NStop | NPost (k : nat) | NIndex (k close : nat) | NBin (k prec : nat) (a : assoc).
Definition next_operator (T : optable) (min : nat) (s : pstate) : next_op :=
  match peek_kind s with
  | None => NStop
  | Some k =>
      match op_post T k with
      | Some p => if p <? min then NStop else NPost k
      | None =>
          match op_index T k with
          | Some (p, c) => if p <? min then NStop else NIndex k c
          | None =>
              match op_in T k with
              | Some (p, a) => if p <? min then NStop else NBin k p a
              | None => NStop
              end
          end
      end
  end.

(** What [prefix] and [primary] find (oak-rust/src/parser/mod.rs:28-63). *)
Inductive next_head := HPre (k prec : nat) | HGroup (close : nat) | HAtom.
Definition next_prefix (T : optable) (s : pstate) : next_head :=
  match peek_kind s with
  | None => HAtom
  | Some k =>
      match op_pre T k with
      | Some p => HPre k p
      | None => match op_group T k with Some c => HGroup c | None => HAtom end
      end
  end.

(** pratt.rs:237-243 [parse] with [unary] (122-135), [postfix] (137-147) and [binary] (101-120) unfolded
    in it.  [left = None]: at the prefix; [left = Some l]: in the while loop with that node.  [None]: out of
    fuel, or a u8 or u32 overflow. *)
Fixpoint parse_expr (ign : nat -> bool) (T : optable) (K : exprkinds) (m : subscript)
  (fuel : nat) (left : option item) (min : nat) (s : pstate) : option (item * pstate) :=
  match fuel with
  | O => None
  | S f =>
      match left with
      | None =>
          match next_prefix T s with
          | HPre k p =>
              let cp := checkpoint s in
              let s1 := snd (expect ign k s) in
              match parse_expr ign T K m f None p s1 with
              | None => None
              | Some (_, s2) =>
                  match finish_at s2 cp (ek_pre K) with
                  | None => None
                  | Some (node, s3) => parse_expr ign T K m f (Some node) min s3
                  end
              end
          | HGroup c =>
              let cp := checkpoint s in
              let s1 := bump ign s in
              match parse_expr ign T K m f None 0 s1 with
              | None => None
              | Some (_, s2) =>
                  match finish_at (snd (expect ign c s2)) cp (ek_group K) with
                  | None => None
                  | Some (node, s3) => parse_expr ign T K m f (Some node) min s3
                  end
              end
          | HAtom =>
              match primary ign (ek_atom K) s with
              | None => None
              | Some (l, s1) => parse_expr ign T K m f (Some l) min s1
              end
          end
      | Some l =>
          match next_operator T min s, fst l with
          | NStop, _ => Some (l, s)
          | _, None => None
          | NPost k, Some id =>
              let cp := checkpoint_before s id in
              match finish_at (snd (expect ign k s)) cp (ek_post K) with
              | None => None
              | Some (node, s3) => parse_expr ign T K m f (Some node) min s3
              end
          | NIndex k c, Some id =>
              let '(cp, s0) := open_left m s l id in
              match parse_expr ign T K m f None 0 (snd (expect ign k s0)) with
              | None => None
              | Some (_, s2) =>
                  match finish_at (snd (expect ign c s2)) cp (ek_index K) with
                  | None => None
                  | Some (node, s3) => parse_expr ign T K m f (Some node) min s3
                  end
              end
          | NBin k p a, Some id =>
              let cp := checkpoint_before s id in
              let s1 := snd (expect ign k s) in
              match next_prec p a with
              | None => None
              | Some np =>
                  match parse_expr ign T K m f None np s1 with
                  | None => None
                  | Some (_, s2) =>
                      match finish_at s2 cp (ek_bin K) with
                      | None => None
                      | Some (node, s3) => parse_expr ign T K m f (Some node) min s3
                      end
                  end
              end
          end
      end
  end.
