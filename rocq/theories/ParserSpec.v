(** Specification of lossless parsing, reuse, sessions and operator precedence. *)
From Verif Require Import Base Utf8 EditModel EditSpec LexModel TreeModel TreeSpec ParserModel.

(** The text of an element as (kind, length) of its leaves, in document order. *)
Fixpoint yield (t : green) : list (nat * nat) :=
  match t with
  | GLeaf k n _ => [(k, n)]
  | GNode _ _ ch => flat_map yield ch
  end.

Definition tok_yield (t : token) : nat * nat := (tk_kind t, tk_end t - tk_start t).

Definition sink_trees (s : pstate) : list green := map snd (ps_sink s).

(** What the tree has so far and what is still to come. *)
Definition in_tree (s : pstate) : list (nat * nat) := flat_map yield (sink_trees s).
Definition to_come (s : pstate) : list token := skipn (ps_index s) (ps_toks s).

(** The whole input is in the tree or still to come, in order. *)
Definition lossless (toks : list token) (s : pstate) : Prop :=
  ps_toks s = toks /\ ps_index s <= length toks /\
  in_tree s ++ map tok_yield (to_come s) = map tok_yield toks.

(** The same by length of text only. *)
Definition covering (toks : list token) (s : pstate) : Prop :=
  ps_toks s = toks /\ ps_index s <= length toks /\
  list_sum (map width (sink_trees s)) + list_sum (map (fun t => snd (tok_yield t)) (to_come s)) =
  list_sum (map (fun t => snd (tok_yield t)) toks).

Definition settled (ign : nat -> bool) (s : pstate) : Prop :=
  match to_come s with [] => True | t :: _ => ign (tk_kind t) = false end.

Definition lengths_fit (toks : list token) : Prop :=
  Forall (fun t => (Z.of_nat (tk_end t - tk_start t) < 2 ^ 32)%Z) toks.

(** The discipline of a parser: [advance]* is not used to throw tokens away, [reuse] says
    whether nodes may be reused, and inside a speculative parse only what was pushed since its
    start is wrapped into nodes. *)
Fixpoint keeps (reuse : Prop) (ign : nat -> bool) (floor : nat) (c : code) (s : pstate) : Prop :=
  match c with
  | Done _ => True
  | Do o k =>
      match o with
      | Finish i _ => floor <= i
      | Advance | AdvanceUntil _ => False
      | _ => True
      end /\
      (forall r s', exec ign o s = Some (r, s') -> keeps reuse ign floor (k r s') s')
  | Attempt b k =>
      keeps reuse ign (length (ps_sink s)) b s /\
      (forall ok s', interp ign b s = Some (ok, s') ->
         let s'' := if ok then s' else restore s' (checkpoint s) in
         keeps reuse ign floor (k ok s'') s'')
  | Reuse kind k =>
      reuse /\ (forall r s', try_reuse kind s = Some (r, s') -> keeps reuse ign floor (k r s') s')
  end.

(** The old tree a state may reuse from. *)
Definition old_ok (old : green) (s : pstate) : Prop :=
  built old /\
  match ps_inc s with Some inc => at_place old (ic_cursor inc) | None => True end.

(** Text of a range. *)
Definition text_at (s : str) (a n : nat) : str := firstn n (skipn a s).

Definition tok_span (t : token) : nat * nat := (tk_start t, tk_end t).

(** Where the text not yet in the tree begins. *)
Definition position (s : pstate) : nat := current_offset s.

(** The state in which a parser starts: from scratch, or with an old tree and the edits made since. *)
Definition start (ign : nat -> bool) (toks : list token) (srclen : nat) (diags : list (nat * nat))
  (previous : option (green * list edit)) : pstate :=
  match previous with
  | None => ps_new ign toks srclen diags
  | Some (old, es) => set_inc (ps_new ign toks srclen diags) (Some (inc_new old es))
  end.
