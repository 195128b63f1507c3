(** Model of projects/oak-core/src/parser: [ParserState] (state.rs), the incremental
    context, [ParseSession] (session.rs), [parse_with_lexer] (mod.rs) and the Pratt
    parser (pratt.rs).

    The trivia predicate [TokenType::is_ignored] is the parameter [ign].  Diagnostics
    are (message tag, offset) pairs.  A node reference is shown as the node together
    with the number of its allocation, so that [ptr::eq] can be modelled; leaves are
    values.  [None] is a panic (u32 overflow, slice bounds) unless said otherwise. *)
From Verif Require Import Base Utf8 EditModel LexModel TreeModel.

(** [len as u32] *)
Definition as_u32 (n : nat) : nat := N.to_nat (N.of_nat n mod 4294967296)%N.

(** lexer/mod.rs:207-209 *)
Definition tk_len (t : token) : nat := tk_end t - tk_start t.

(** state.rs:17-26 [deep_clone_node]; the metadata handle of a leaf is copied as is. *)
Fixpoint deep_clone (t : green) : option green :=
  match t with
  | GLeaf k n m => Some (GLeaf k n m)
  | GNode k _ ch =>
      match (fix go (l : list green) : option (list green) :=
               match l with
               | [] => Some []
               | c :: r => match deep_clone c, go r with
                           | Some c', Some r' => Some (c' :: r')
                           | _, _ => None
                           end
               end) ch with
      | Some ch' => new_node k ch'
      | None => None
      end
  end.

(** A reference stored in the sink: allocation number (nodes only) and element. *)
Notation item := (prod (option nat) green).

(** state.rs:137-142: the cursor in the old tree, and the edits as
    (old start, old end, cumulative delta after the edit) *)
Record incremental := Incremental { ic_cursor : tcursor; ic_edits : list (nat * nat * Z) }.

(** state.rs:197-213; [ps_next] numbers the allocations of the arena. *)
Record pstate := PState
  { ps_toks : list token; ps_index : nat; ps_sink : list item; ps_next : nat;
    ps_errs : list (nat * nat); ps_srclen : nat; ps_inc : option incremental }.

Definition set_sink (s : pstate) (k : list item) : pstate :=
  PState (ps_toks s) (ps_index s) k (ps_next s) (ps_errs s) (ps_srclen s) (ps_inc s).
Definition set_index (s : pstate) (i : nat) : pstate :=
  PState (ps_toks s) i (ps_sink s) (ps_next s) (ps_errs s) (ps_srclen s) (ps_inc s).
Definition set_inc (s : pstate) (i : option incremental) : pstate :=
  PState (ps_toks s) (ps_index s) (ps_sink s) (ps_next s) (ps_errs s) (ps_srclen s) i.

(** state.rs:48-50, 330-332 *)
Definition ps_current (s : pstate) : option token := nth_error (ps_toks s) (ps_index s).

(** state.rs:336-338 *)
Definition peek_kind (s : pstate) : option nat := option_map tk_kind (ps_current s).

(** state.rs:60-68, 374-376 *)
Definition ps_not_at_end (s : pstate) : bool := ps_index s <? length (ps_toks s).

(** state.rs:380-382 *)
Definition at_kind (s : pstate) (k : nat) : bool :=
  match peek_kind s with Some k' => k' =? k | None => false end.

(** state.rs:273-275 *)
Definition current_offset (s : pstate) : nat :=
  match ps_current s with Some t => tk_start t | None => ps_srclen s end.

(** state.rs:278-324: every [record_*] function pushes one error. *)
Definition push_error (s : pstate) (tag offset : nat) : pstate :=
  PState (ps_toks s) (ps_index s) (ps_sink s) (ps_next s) (ps_errs s ++ [(tag, offset)])
         (ps_srclen s) (ps_inc s).

(** state.rs:96-98 [push_leaf] *)
Definition push_leaf (s : pstate) (t : token) : pstate :=
  set_sink s (ps_sink s ++ [(None, GLeaf (tk_kind t) (as_u32 (tk_len t)) None)]).

(** state.rs:397-407 [skip_trivia]; every round moves one token on, so the remaining
    tokens are enough fuel. *)
Fixpoint skip_trivia_loop (ign : nat -> bool) (fuel : nat) (s : pstate) : pstate :=
  match fuel with
  | O => s
  | S f =>
      match ps_current s with
      | Some t => if ign (tk_kind t)
                  then let s1 := push_leaf s t in
                       skip_trivia_loop ign f (set_index s1 (S (ps_index s1)))
                  else s
      | None => s
      end
  end.
Definition skip_trivia (ign : nat -> bool) (s : pstate) : pstate :=
  skip_trivia_loop ign (length (ps_toks s) - ps_index s) s.

(** state.rs:391-394 *)
Definition ps_advance (ign : nat -> bool) (s : pstate) : pstate :=
  skip_trivia ign (set_index s (S (ps_index s))).

(** state.rs:410-414, 417-421: [stop] is the test of the loop condition *)
Fixpoint advance_loop (ign : nat -> bool) (stop : pstate -> bool) (fuel : nat) (s : pstate) : pstate :=
  match fuel with
  | O => s
  | S f => if ps_not_at_end s && negb (stop s) then advance_loop ign stop f (ps_advance ign s) else s
  end.
Definition advance_until (ign : nat -> bool) (k : nat) (s : pstate) : pstate :=
  advance_loop ign (fun s => at_kind s k) (length (ps_toks s) - ps_index s) s.
Definition advance_until_any (ign : nat -> bool) (ks : list nat) (s : pstate) : pstate :=
  advance_loop ign (fun s => existsb (at_kind s) ks) (length (ps_toks s) - ps_index s) s.

(** state.rs:347-360 [peek_non_trivia_at]: the loop over the tokens from the current one *)
Fixpoint peek_nt (ign : nat -> bool) (ts : list token) (n : nat) : option token :=
  match ts with
  | [] => None
  | t :: r => if ign (tk_kind t) then peek_nt ign r n
              else match n with O => Some t | S n' => peek_nt ign r n' end
  end.
Definition peek_non_trivia_at (ign : nat -> bool) (s : pstate) (n : nat) : option token :=
  peek_nt ign (skipn (ps_index s) (ps_toks s)) n.

(** state.rs:424-429 *)
Definition bump (ign : nat -> bool) (s : pstate) : pstate :=
  match ps_current s with
  | Some t => ps_advance ign (push_leaf s t)
  | None => s
  end.

(** state.rs:433-441 *)
Definition eat (ign : nat -> bool) (k : nat) (s : pstate) : bool * pstate :=
  if at_kind s k then (true, bump ign s) else (false, s).

(** state.rs:445-454; message tag 0 is "expected" *)
Definition expect (ign : nat -> bool) (k : nat) (s : pstate) : bool * pstate :=
  let '(ok, s') := eat ign k s in
  if ok then (true, s') else (false, push_error s' 0 (current_offset s')).

(** state.rs:493-495, 498-501 *)
Definition checkpoint (s : pstate) : nat * nat := (ps_index s, length (ps_sink s)).
Definition restore (s : pstate) (cp : nat * nat) : pstate :=
  set_sink (set_index s (fst cp)) (firstn (snd cp) (ps_sink s)).

(** state.rs:127-134, 504-506: the node and its allocation number *)
Definition finish_at (s : pstate) (cp : nat * nat) (kind : nat) : option (item * pstate) :=
  if length (ps_sink s) <? snd cp then None
  else match new_node kind (map snd (skipn (snd cp) (ps_sink s))) with
       | None => None
       | Some g =>
           let it := (Some (ps_next s), g) in
           Some (it, PState (ps_toks s) (ps_index s) (firstn (snd cp) (ps_sink s) ++ [it])
                            (S (ps_next s)) (ps_errs s) (ps_srclen s) (ps_inc s))
       end.

(** state.rs:509-522 [checkpoint_before]: the last position holding that node *)
Fixpoint find_last (id : nat) (l : list item) (i : nat) : option nat :=
  match l with
  | [] => None
  | (o, _) :: r =>
      match find_last id r (S i) with
      | Some j => Some j
      | None => match o with Some x => if x =? id then Some i else None | None => None end
      end
  end.
Definition checkpoint_before (s : pstate) (id : nat) : nat * nat :=
  match find_last id (ps_sink s) 0 with
  | Some i => (0, i)
  | None => (0, length (ps_sink s))
  end.

(** state.rs:146-162 [IncrementalContext::new] *)
Definition delta_of (e : edit) : Z := (Z.of_nat (length (e_text e)) - (Z.of_nat (e_end e) - Z.of_nat (e_start e)))%Z.
Fixpoint with_deltas (d : Z) (es : list edit) : list (nat * nat * Z) :=
  match es with
  | [] => []
  | e :: r => (e_start e, e_end e, d + delta_of e)%Z :: with_deltas (d + delta_of e)%Z r
  end.
Definition inc_new (old : green) (es : list edit) : incremental :=
  Incremental (tc_new old) (with_deltas 0 (sort_edits es)).

(** state.rs:164-184; the answer is the value of the [as usize] cast *)
Fixpoint map_new_to_old (edits : list (nat * nat * Z)) (cur : Z) (new_pos : nat) : option Z :=
  match edits with
  | [] => Some (as_usize (Z.of_nat new_pos - cur))
  | (a, b, cum) :: r =>
      let new_start := as_usize (Z.of_nat a + cur) in
      let new_end := as_usize (Z.of_nat b + cur + (cum - cur)) in
      if (Z.of_nat new_pos <? new_start)%Z then Some (as_usize (Z.of_nat new_pos - cur))
      else if (Z.of_nat new_pos <? new_end)%Z then None
      else map_new_to_old r cum new_pos
  end.

(** state.rs:186-194 *)
Definition is_dirty (edits : list (nat * nat * Z)) (old_start old_end : nat) : bool :=
  existsb (fun '(a, b, _) => (old_start <? b) && (a <? old_end)) edits.

(** state.rs:567-588: tokens that must be consumed to reach [target] exactly *)
Fixpoint verify_tokens (ts : list token) (lookahead pos target : nat) : option nat :=
  match ts with
  | [] => None
  | t :: r =>
      if negb (tk_start t =? pos) then None
      else if tk_end t =? target then Some (lookahead + 1)
      else if target <? tk_end t then None
      else verify_tokens r (lookahead + 1) (tk_end t) target
  end.

(** [!cursor.step_into() && !cursor.step_next()] *)
Definition into_or_next (c : tcursor) : bool * tcursor :=
  let '(ok, c1) := step_into c in if ok then (true, c1) else step_next c1.

(** state.rs:554-616: one round per unit of fuel.  The node of the old tree that can be
    reused with the number of tokens it takes, and the cursor at the end. *)
Fixpoint reuse_loop (fuel kind : nat) (edits : list (nat * nat * Z)) (ts : list token)
  (new_pos : nat) (target : Z) (c : tcursor) : option (green * nat) * tcursor :=
  match fuel with
  | O => (None, c)
  | S f =>
      let start := tc_offset c in
      let end_ := tc_offset c + glen (tc_current c) in
      if (Z.of_nat start =? target)%Z then
        let hit :=
          match tc_current c with
          | GNode k n ch =>
              if (k =? kind) && negb (is_dirty edits start end_)
              then verify_tokens ts 0 new_pos (new_pos + n) else None
          | GLeaf _ _ _ => None
          end in
        match hit with
        | Some n => (Some (tc_current c, n), snd (step_over c))
        | None => let '(ok, c') := into_or_next c in
                  if ok then reuse_loop f kind edits ts new_pos target c' else (None, c')
        end
      else if (Z.of_nat start <? target)%Z && (target <? Z.of_nat end_)%Z then
        let '(ok, c') := into_or_next c in
        if ok then reuse_loop f kind edits ts new_pos target c' else (None, c')
      else if (Z.of_nat end_ <=? target)%Z then
        let '(ok, c') := step_next c in
        if ok then reuse_loop f kind edits ts new_pos target c' else (None, c')
      else (None, c)
  end.

(** MAX_STEPS = 100: the loop returns false after the 101st round. *)
Definition REUSE_ROUNDS : nat := 101.

(** state.rs:531-616 [try_reuse] *)
Definition try_reuse (kind : nat) (s : pstate) : option (bool * pstate) :=
  match ps_inc s with
  | None => Some (false, s)
  | Some inc =>
      let new_pos := current_offset s in
      match map_new_to_old (ic_edits inc) 0 new_pos with
      | None => Some (false, s)
      | Some target =>
          let '(hit, c') := reuse_loop REUSE_ROUNDS kind (ic_edits inc)
                              (skipn (ps_index s) (ps_toks s)) new_pos target (ic_cursor inc) in
          let s1 := set_inc s (Some (Incremental c' (ic_edits inc))) in
          match hit with
          | None => Some (false, s1)
          | Some (node, n) =>
              match deep_clone node with
              | None => None
              | Some g => Some (true, PState (ps_toks s1) (ps_index s1 + n)
                                        (ps_sink s1 ++ [(Some (ps_next s1), g)]) (S (ps_next s1))
                                        (ps_errs s1) (ps_srclen s1) (ps_inc s1))
              end
          end
      end
  end.

(** state.rs:232-242 [ParserState::new] for a successful lexing *)
Definition ps_new (ign : nat -> bool) (toks : list token) (srclen : nat) (diags : list (nat * nat)) : pstate :=
  skip_trivia ign (PState toks 0 [] 0 diags srclen None).

(** *** Parsers
    A parser is a program over the operations of [ParserState]; after each operation
    it may look at the whole state and choose how to go on.  Recursive descent over
    any input unfolds to such a tree. *)
Inductive op :=
| Bump                       (* state.rs:424 *)
| Eat (kind : nat)           (* state.rs:433 *)
| Expect (kind : nat)        (* state.rs:445 *)
| Record (tag : nat)         (* state.rs:278-324 *)
| Finish (at_ kind : nat)    (* state.rs:504, with the sink part of a checkpoint *)
| Advance                    (* state.rs:391 *)
| AdvanceUntil (kinds : list nat). (* state.rs:417 *)

Definition exec (ign : nat -> bool) (o : op) (s : pstate) : option (bool * pstate) :=
  match o with
  | Bump => Some (true, bump ign s)
  | Eat k => Some (eat ign k s)
  | Expect k => Some (expect ign k s)
  | Record tag => Some (true, push_error s tag (current_offset s))
  | Finish i k => match finish_at s (0, i) k with Some (_, s') => Some (true, s') | None => None end
  | Advance => Some (true, ps_advance ign s)
  | AdvanceUntil ks => Some (true, advance_until_any ign ks s)
  end.

Inductive code :=
| Done (ok : bool)
| Do (o : op) (k : bool -> pstate -> code)
| Attempt (body : code) (k : bool -> pstate -> code)     (* try_parse, state.rs:457-470 *)
| Reuse (kind : nat) (k : bool -> pstate -> code).       (* try_reuse, state.rs:531 *)

Fixpoint interp (ign : nat -> bool) (c : code) (s : pstate) : option (bool * pstate) :=
  match c with
  | Done ok => Some (ok, s)
  | Do o k => match exec ign o s with
              | None => None
              | Some (r, s') => interp ign (k r s') s'
              end
  | Attempt body k =>
      let cp := checkpoint s in
      match interp ign body s with
      | None => None
      | Some (true, s') => interp ign (k true s') s'
      | Some (false, s') => let s'' := restore s' cp in interp ign (k false s'') s''
      end
  | Reuse kind k => match try_reuse kind s with
                    | None => None
                    | Some (r, s') => interp ign (k r s') s'
                    end
  end.

(** state.rs:629-640 [incremental_node]: try to reuse; else parse the body and finish the
    node, whatever the outcome of the body.  [bind] continues a program. *)
Fixpoint bind (c : code) (f : bool -> code) : code :=
  match c with
  | Done ok => f ok
  | Do o k => Do o (fun r s => bind (k r s) f)
  | Attempt b k => Attempt b (fun r s => bind (k r s) f)
  | Reuse kind k => Reuse kind (fun r s => bind (k r s) f)
  end.
Definition incremental_node (kind : nat) (body : code) : code :=
  Reuse kind (fun hit s =>
    if hit then Done true
    else let cp := length (ps_sink s) in
         bind body (fun ok => Do (Finish cp kind) (fun _ _ => Done ok))).

(** *** Sessions (session.rs) and [parse_with_lexer] (mod.rs:77-120)
    An arena is its generation number. *)
Record session := Session
  { se_active : nat; se_old : option nat; se_fresh : nat; se_root : option (nat * green) }.

(** session.rs:53-55 *)
Definition session_new : session := Session 0 None 1 None.

(** session.rs:85-92; the cached lexer output is cleared, so it is never reused *)
Definition prepare_generation (s : session) : session :=
  Session (se_fresh s) (Some (se_active s)) (S (se_fresh s)) (se_root s).

(** session.rs:94-97; the root was allocated in the active arena *)
Definition commit_generation (s : session) (root : green) : session :=
  Session (se_active s) (se_old s) (se_fresh s) (Some (se_active s, root)).

(** session.rs:70-79 *)
Definition old_tree (s : session) : option (nat * green) :=
  match se_root s, se_old s with Some r, Some _ => Some r | _, _ => None end.

(** The arenas the session still owns. *)
Definition owns (s : session) (arena : nat) : bool :=
  (arena =? se_active s) || match se_old s with Some o => arena =? o | None => false end.

(** mod.rs:77-120 with a lexer that turns a text into tokens and a parser given as code;
    a parse succeeds when the code answers true, and then its root is the node the code
    finished last.  [None]: a panic. *)
Definition last_node (s : pstate) : option green :=
  match rev (ps_sink s) with (Some _, g) :: _ => Some g | _ => None end.
Definition parse_with_lexer (ign : nat -> bool) (lex : str -> list token) (parser : code)
  (text : str) (es : list edit) (se : session) : option (option green * list (nat * nat) * session) :=
  let se := prepare_generation se in
  let st := ps_new ign (lex text) (length text) [] in
  let st := match old_tree se with
            | Some (_, old) => set_inc st (Some (inc_new old es))
            | None => st
            end in
  match interp ign parser st with
  | None => None
  | Some (ok, st') =>
      let result := if ok then last_node st' else None in
      Some (result, ps_errs st', match result with Some root => commit_generation se root | None => se end)
  end.

(** mod.rs:63-71 *)
Definition parse_one_pass ign lex parser text se := parse_with_lexer ign lex parser text [] se.

(** *** Pratt parser (pratt.rs)
    The specification of the grammar: every token that is not an operator of [table] is
    an operand, [primary] wraps it into a node of kind [atom], [infix] looks the operator up and
    calls [binary] (the shape of the documented examples). *)
Inductive assoc := ALeft | ARight | ANone.

(** pratt.rs:112-116 [u8] arithmetic; [None]: overflow *)
Definition next_prec (prec : nat) (a : assoc) : option nat :=
  match a with
  | ALeft | ANone => if prec <? 255 then Some (S prec) else None
  | ARight => Some prec
  end.

Definition primary (ign : nat -> bool) (atom : nat) (s : pstate) : option (item * pstate) :=
  let cp := checkpoint s in finish_at (bump ign s) cp atom.

(** pratt.rs:237-243 [parse] with pratt.rs:102-120 [binary] unfolded in it.  [left = None]: at
    the prefix; [left = Some id]: in the while loop with that node as [left]. *)
Fixpoint pratt (ign : nat -> bool) (table : nat -> option (nat * assoc)) (atom expr : nat)
  (fuel : nat) (left : option item) (min : nat) (s : pstate) : option (item * pstate) :=
  match fuel with
  | O => None
  | S f =>
      match left with
      | None =>
          match primary ign atom s with
          | None => None
          | Some (l, s1) => pratt ign table atom expr f (Some l) min s1
          end
      | Some l =>
          match (match peek_kind s with
                 | None => None
                 | Some k => match table k with
                             | Some (prec, a) => if prec <? min then None else Some (k, prec, a)
                             | None => None
                             end
                 end) with
          | None => Some (l, s)
          | Some (k, prec, a) =>
              match fst l with
              | None => None
              | Some id =>
                  let cp := checkpoint_before s id in
                  let s1 := snd (expect ign k s) in
                  match next_prec prec a with
                  | None => None
                  | Some np =>
                      match pratt ign table atom expr f None np s1 with
                      | None => None
                      | Some (_, s2) =>
                          match finish_at s2 cp expr with
                          | None => None
                          | Some (node, s3) => pratt ign table atom expr f (Some node) min s3
                          end
                      end
                  end
              end
          end
      end
  end.
