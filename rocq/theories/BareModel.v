(** Model of the parsers that build no nodes but the root: the function [parse_root_internal] of two families of languages.

    With [state.bump()] in the loop (examples/oak-<language>/src/parser/): dot parse_top_level.rs:9-17, idl parse_top_level.rs:9-17,
    jasmin parse_root.rs:9-15, pascal parse_top_level.rs:9-15, twig parse_top_level.rs:9-15, smalltalk mod.rs:21-30,
    vampire mod.rs:25-34, crystal parse_top_level.rs:6-14, erlang parse_top_level.rs:9-16, ascii-doc parse_top_level.rs:5-14,
    mermaid mod.rs:31-39.

    With [state.advance()] in the loop (all but two in parse_top_level.rs): clojure 5-13, delphi 9-17, django 9-15, dockerfile 9-15,
    fortran mod.rs:21-29, graphql 8-16, groovy 9-17, gsgl 8-16, jasm 9-17, nim 9-15, sass 10-18, scala mod.rs:26-34,
    scheme 9-17, scss 9-17, d 9-17, dhall 9-17, elm 9-17, hlsl 8-16, javadoc 9-17, purescript 9-17, solidity 9-17, vala 9-17,
    vlang 9-17, voml 9-17, yaml 8-16, verilog 9-17, lean 8-17.

    The language is a parameter: which kinds its [is_ignored] names ([ign]), the kind of its root, and the tokens its lexer
    answers.  The tree is built from nothing: these parsers never ask for nodes of an old tree. *)
From Verif Require Import Base LexModel TreeModel ParserModel.

Section Bare.
  Variable ign : nat -> bool.

  (** [while state.not_at_end() { step }]; [None] is that the fuel is used up *)
  Fixpoint bare_loop (step : pstate -> pstate) (fuel : nat) (s : pstate) : option pstate :=
    match fuel with
    | O => None
    | S f => if ps_not_at_end s then bare_loop step f (step s) else Some s
    end.

  (** the checkpoint, the loop and [finish_at]; the root and the diagnostics *)
  Definition bare_parse (step : pstate -> pstate) (root : nat) (toks : list token) (len : nat) (errs : list (nat * nat)) : option (green * list (nat * nat)) :=
    let s := ps_new ign toks len errs in
    match bare_loop step (S (length toks)) s with
    | None => None
    | Some s1 => match finish_at s1 (checkpoint s) root with None => None | Some ((_, g), s2) => Some (g, ps_errs s2) end
    end.

  Definition bumping_parse := bare_parse (bump ign).
  Definition advancing_parse := bare_parse (ps_advance ign).
End Bare.
