(** When incremental parsing is parsing: which grammars, which lexers, which edits. *)
From Verif Require Import Base Utf8 EditModel EditSpec LexModel TreeModel TreeSpec ParserModel ParserSpec GramModel.

(** Rules do not depend on what follows them: [needs g] means that [g] decides by a token it does not take,
    [takes g] that [g] takes at least one token. *)
Fixpoint takes (g : gram) : bool :=
  match g with
  | GEmpty | GWhile _ _ => false
  | GTok _ | GRule _ => true
  | GSeq a b => takes a || takes b
  | GIf _ a b => takes a && takes b
  | GLax a => takes a
  end.
Fixpoint needs (g : gram) : bool :=
  match g with
  | GEmpty | GTok _ | GRule _ => false
  | GSeq a b => if takes b then needs b else needs a || needs b
  | GIf _ a b => needs a || needs b || negb (takes a && takes b)
  | GWhile _ _ => true
  | GLax a => needs a
  end.
Fixpoint mentions (k : nat) (g : gram) : bool :=
  match g with
  | GEmpty | GRule _ => false
  | GTok k' => k' =? k
  | GSeq a b | GIf _ a b => mentions k a || mentions k b
  | GWhile _ a | GLax a => mentions k a
  end.

(** Every production takes a token, does not depend on what follows it, and does not take the end token. *)
Definition self_contained (body : nat -> gram) (eof : nat) : Prop :=
  forall k, takes (body k) = true /\ needs (body k) = false /\ mentions eof (body k) = false.
(** The kinds of rules that a grammar can reach are not that of the root. *)
Fixpoint avoids (root : nat) (g : gram) : bool :=
  match g with
  | GEmpty | GTok _ => true
  | GRule k => negb (k =? root)
  | GSeq a b | GIf _ a b => avoids root a && avoids root b
  | GWhile _ a | GLax a => avoids root a
  end.

(** Lexing is local: tokens tile the text; an empty token is the end token, and last; trivia is known by its first byte;
    and the same text between token borders is cut in the same way.  [local_on good]: for the texts that are [good]. *)
Record local_on (good : str -> Prop) (ign : nat -> bool) (eof : nat) (lex : str -> list token) : Prop := {
  ll_tiles : forall text, good text -> tiles tok_span 0 (lex text) (length text);
  ll_fit : forall text, good text -> lengths_fit (lex text);
  ll_empty : forall text a t b, good text -> lex text = a ++ t :: b -> tk_start t = tk_end t -> b = [] /\ tk_kind t = eof;
  ll_eof : ign eof = false;
  ll_end : forall text t, good text -> In t (lex text) -> tk_kind t = eof -> tk_start t = tk_end t;
  ll_trivia : exists first : Z -> bool, forall text t, good text -> In t (lex text) -> tk_start t < tk_end t ->
    ign (tk_kind t) = first (nth (tk_start t) text 0%Z);
  ll_cut : forall text a m b text' a' m' b' s s' n, good text -> good text' -> lex text = a ++ m ++ b -> lex text' = a' ++ m' ++ b' ->
    tiles tok_span s m (s + n) -> tiles tok_span s' m' (s' + n) -> Forall (fun t => tk_start t < tk_end t) m -> Forall (fun t => tk_start t < tk_end t) m' ->
    text_at text s n = text_at text' s' n -> map tok_yield m = map tok_yield m' }.
Definition local_lexer : (nat -> bool) -> nat -> (str -> list token) -> Prop := local_on (fun _ => True).

(** Where the replacements begin in the new text, for edits in ascending order. *)
Fixpoint new_starts (shift : Z) (es : list edit) : list Z :=
  match es with
  | [] => []
  | e :: r => (Z.of_nat (e_start e) + shift)%Z
      :: new_starts (shift + (Z.of_nat (length (e_text e)) - (Z.of_nat (e_end e) - Z.of_nat (e_start e)))) r
  end.
(** No trivia begins where a replacement begins. *)
Definition calm (ign : nat -> bool) (toks : list token) (es : list edit) : Prop :=
  forall t, In t toks -> ign (tk_kind t) = true -> ~ In (Z.of_nat (tk_start t)) (new_starts 0 (sort_edits es)).

(** The text does not begin with trivia (which [parse_root_internal] loses, see [root_covers_source_refuted]). *)
Definition unpadded (ign : nat -> bool) (toks : list token) : Prop :=
  match toks with [] => True | t :: _ => ign (tk_kind t) = false end.

(** An editing session: every list of edits is applied and the text parsed again with the same [ParseSession]. *)
Fixpoint keep_parsing (ign : nat -> bool) (lex : str -> list token) (parser : code) (text : str) (se : session) (history : list (list edit)) : option (str * session) :=
  match history with
  | [] => Some (text, se)
  | es :: r =>
      match parse_with_lexer ign lex parser (simultaneous text es) es se with
      | Some (_, _, se') => keep_parsing ign lex parser (simultaneous text es) se' r
      | None => None
      end
  end.
(** Every text edited is parsed without errors from scratch and does not begin with trivia, and the edits are calm. *)
Fixpoint fair (ign : nat -> bool) (lex : str -> list token) (parser : code) (text : str) (history : list (list edit)) : Prop :=
  match history with
  | [] => True
  | es :: r =>
      unpadded ign (lex text) /\ (exists r1 s1, parse_with_lexer ign lex parser text [] session_new = Some (Some r1, [], s1)) /\
      Forall (edit_ok text) es /\ compatible es /\ calm ign (lex (simultaneous text es)) es /\
      fair ign lex parser (simultaneous text es) r
  end.
