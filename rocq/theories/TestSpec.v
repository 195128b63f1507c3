(** What a test is, independently of the testers. *)
From Verif Require Import Base Utf8 LexModel TreeModel.

(** The record of the test file [dir/name.ext] is [dir/name.ext] and an ending. *)
Definition beside (suffix : str) (p : str * str) : str * str := (fst p, snd p ++ suffix).

(** Two trees that no parser test can tell apart: the same nodes in the same order, the same text lengths, and in
    each node as many leaves, of the same length together. *)
Definition sub_nodes (ch : list green) : list green := filter (fun c => match c with GNode _ _ _ => true | GLeaf _ _ _ => false end) ch.
Definition leaf_lens (ch : list green) : list nat := flat_map (fun c => match c with GNode _ _ _ => [] | GLeaf _ n _ => [n] end) ch.
Inductive alike : green -> green -> Prop :=
| Alike k n ch ch' : Forall2 alike (sub_nodes ch) (sub_nodes ch') -> length (leaf_lens ch) = length (leaf_lens ch') -> list_sum (leaf_lens ch) = list_sum (leaf_lens ch') ->
    alike (GNode k n ch) (GNode k n ch').

(** The tokens a lexer test looks at. *)
Definition visible (ign : nat -> bool) (ts : list token) : list token := filter (fun t => negb (ign (tk_kind t))) ts.

(** How many nodes a tree has. *)
Fixpoint nodes_of (t : green) : nat := match t with GLeaf _ _ _ => 0 | GNode _ _ ch => S (list_sum (map nodes_of ch)) end.
(** How many nodes have leaves of their own. *)
Fixpoint leafy (t : green) : nat :=
  match t with
  | GLeaf _ _ _ => 0
  | GNode _ _ ch => (if existsb (fun c => match c with GLeaf _ _ _ => true | _ => false end) ch then 1 else 0) + list_sum (map leafy ch)
  end.

(** A file to test: a name with one of the extensions that is not a record. *)
Definition test_file (exts : list str) (p : str * str) : Prop :=
  (exists stem e, snd p = stem ++ lit "." ++ e /\ stem <> [] /\ ~ In 46%Z e /\ In e exts) /\
  forall a e, In e [lit ".parsed.json"; lit ".lexed.json"; lit ".built.json"; lit ".expected.json"] -> snd p <> a ++ e.
