(** Parsers written with [ParserState] in the way the example languages do it, as grammars: a class of programs
    ([ParserModel.code]) for which incremental parsing can be stated. *)
From Verif Require Import Base Utf8 EditModel LexModel TreeModel ParserModel.

(** - [GTok k]: [state.expect(k)?]
    - [GSeq a b]: [a?; b?]
    - [GIf test a b]: a decision on the kind of the next token ([peek_kind], [at], [not_at_end])
    - [GWhile test a]: a loop with such a decision
    - [GLax a]: [let _ = a;], a failure is recorded but does not end the parse
    - [GRule k]: [state.incremental_node(k, …)] around the production of [k] *)
Inductive gram :=
| GEmpty
| GTok (k : nat)
| GSeq (a b : gram)
| GIf (test : option nat -> bool) (a b : gram)
| GWhile (test : option nat -> bool) (a : gram)
| GLax (a : gram)
| GRule (k : nat).

(** Looking at the state, as [peek_kind] and [checkpoint] do. *)
Definition peeking (k : pstate -> code) : code := Attempt (Done true) (fun _ s => k s).
(** Recursion that does not end; [interp] gives [None]. *)
Definition stuck : code := peeking (fun s => Do (Finish (S (length (ps_sink s))) 0) (fun _ _ => Done false)).

Section Grammar.
  Variable body : nat -> gram.

  Fixpoint compile (fuel : nat) (g : gram) : code :=
    match fuel with
    | O => stuck
    | S f =>
        match g with
        | GEmpty => Done true
        | GTok k => Do (Expect k) (fun ok _ => Done ok)
        | GSeq a b => bind (compile f a) (fun ok => if ok then compile f b else Done false)
        | GIf test a b => peeking (fun s => if test (peek_kind s) then compile f a else compile f b)
        | GWhile test a =>
            peeking (fun s => if test (peek_kind s)
                              then bind (compile f a) (fun ok => if ok then compile f (GWhile test a) else Done false)
                              else Done true)
        | GLax a => bind (compile f a) (fun _ => Done true)
        | GRule k => incremental_node k (compile f (body k))
        end
    end.

  (** [let cp = state.checkpoint(); …; state.finish_at(cp, root)], as in [parse_root_internal] of the languages *)
  Definition gram_root (fuel : nat) (start : gram) (root : nat) : code :=
    peeking (fun s => bind (compile fuel start) (fun ok => Do (Finish (length (ps_sink s)) root) (fun _ _ => Done ok))).
End Grammar.
