(** What the lexer scanners are expected to consume, in terms of the flat text. *)
From Verif Require Import Base Utf8 ScanSpec CursorModel CursorSpec LexModel.

Definition lx_placed (src : source) (text : str) (l : lexer) : Prop := placed src text (lx_cur l).

(** Exactly one token is added and it spans exactly what was consumed. *)
Definition emits (kind : nat) (l l' : lexer) : Prop :=
  lx_toks l' = lx_toks l ++ [Token kind (lx_pos l) (lx_pos l')].

(** Nothing is consumed and nothing is emitted. *)
Definition declines (l l' : lexer) : Prop := lx_toks l' = lx_toks l /\ lx_pos l' = lx_pos l.

(** ** String literals *)

(** The inside of a literal: plain characters and escape pairs. *)
Inductive literal_body (q : Z) (e : option Z) : list Z -> Prop :=
| LBNil : literal_body q e []
| LBPlain c cs : c <> q -> e <> Some c -> literal_body q e cs -> literal_body q e (c :: cs)
| LBEscaped x c cs : e = Some x -> literal_body q e cs -> literal_body q e (x :: c :: cs).

(** A literal whose inside begins at [a] ends at [b]: after the closing quote, or,
    if there is none, at the end of the text (possibly just after an escape). *)
Definition literal_ends (q : Z) (e : option Z) (text : str) (a b : nat) : Prop :=
  (exists m cs, reads text a m cs /\ literal_body q e cs /\ reads text m b [q]) \/
  (b = length text /\ exists cs, reads text a b cs /\
     (literal_body q e cs \/ exists cs' x, e = Some x /\ cs = cs' ++ [x] /\ literal_body q e cs')).

(** ** Comments *)
Definition line_ends (text : str) (a b : nat) : Prop :=
  exists n, b = a + n /\ longest_run (fun x => x <> 10%Z) (skipn a text) n.

(** Without nesting: just after the first terminator, else the end of the text. *)
Definition block_ends (e text : str) (a b : nat) : Prop :=
  (exists i, first_occurrence e text a (Some i) /\ b = i + length e) \/
  (first_occurrence e text a None /\ b = length text).

(** With nesting: the inside is read as opening markers, closing markers and
    other characters. *)
Inductive item := Open | Close | Other (c : Z).

Definition opens_at (cfg : comment_config) (text : str) (a : nat) : Prop :=
  cc_nested cfg = true /\ cc_start cfg <> [] /\ occurs (cc_start cfg) text a.
Definition closes_at (cfg : comment_config) (text : str) (a : nat) : Prop :=
  cc_end cfg <> [] /\ occurs (cc_end cfg) text a.

Definition item_at (cfg : comment_config) (text : str) (a : nat) (it : item) (b : nat) : Prop :=
  match it with
  | Open => opens_at cfg text a /\ b = a + length (cc_start cfg)
  | Close => ~ opens_at cfg text a /\ closes_at cfg text a /\ b = a + length (cc_end cfg)
  | Other c => ~ opens_at cfg text a /\ ~ closes_at cfg text a /\ reads text a b [c]
  end.

Inductive items_at (cfg : comment_config) (text : str) : nat -> list item -> nat -> Prop :=
| INil a : items_at cfg text a [] a
| ICons a it m its b : item_at cfg text a it m -> items_at cfg text m its b ->
    items_at cfg text a (it :: its) b.

(** How many comments are open after reading the items, the outermost included. *)
Fixpoint level (its : list item) : Z :=
  match its with
  | [] => 1
  | Open :: r => level r + 1
  | Close :: r => level r - 1
  | Other _ :: r => level r
  end%Z.

(** The comment is open before every item and closed after the last, or the text ends. *)
Definition nested_ends (cfg : comment_config) (text : str) (a b : nat) : Prop :=
  exists its, items_at cfg text a its b /\
    (forall p r, its = p ++ r -> r <> [] -> (0 < level p)%Z) /\
    (level its = 0%Z \/ ((0 < level its)%Z /\ b = length text)).

(** ** Lexers built from scanners *)
Definition scanner := lexer -> option (bool * lexer).

(** A scanner declines without a trace or emits one token for what it consumed. *)
Definition scanner_ok (src : source) (text : str) (f : scanner) : Prop :=
  forall l, lx_placed src text l -> exists b l', f l = Some (b, l') /\ lx_placed src text l' /\
    if b then lx_pos l <= lx_pos l' /\ exists kind, emits kind l l' else declines l l'.

(** Scanners are tried in order until one accepts. *)
Fixpoint try_scanners (fs : list scanner) (l : lexer) : option lexer :=
  match fs with
  | [] => Some l
  | f :: r => match f l with
              | None => None
              | Some (true, l') => Some l'
              | Some (false, l') => try_scanners r l'
              end
  end.

(** Tokens in order, without overlap, between [a] and [b]. *)
Inductive ordered : nat -> list token -> nat -> Prop :=
| ONil a b : a <= b -> ordered a [] b
| OCons a t ts b : a <= tk_start t -> tk_start t <= tk_end t -> ordered (tk_end t) ts b ->
    ordered a (t :: ts) b.

(** ** Resuming from a cache *)

(** A lexer seen from outside: the token it recognises at an offset of a text. *)
Definition recogniser := str -> nat -> token.

Inductive lexes (next : recogniser) (text : str) : nat -> list token -> Prop :=
| LDone : lexes next text (length text) []
| LStep off ts : off < length text -> tk_start (next text off) = off ->
    off < tk_end (next text off) <= length text ->
    lexes next text (tk_end (next text off)) ts ->
    lexes next text off (next text off :: ts).

(** What is recognised depends on no byte beyond the end of the following token. *)
Definition one_token_lookahead (next : recogniser) : Prop :=
  forall s s' off, let t := next s off in let u := next s (tk_end t) in
    tk_end t < length s -> tk_end u <= length s ->
    firstn (tk_end u) s = firstn (tk_end u) s' -> next s' off = t.
