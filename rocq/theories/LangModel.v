(** The loop of the example lexers: [while state.not_at_end() { … }], for example
    examples/oak-csv/src/lexer/mod.rs:172-202; [rule] is one round.  [None] is a panic or that the
    fuel is used up. *)
From Verif Require Import Base Utf8 CursorModel LexModel.

Fixpoint rounds (src : source) (rule : lexer -> option lexer) (fuel : nat) (l : lexer) : option lexer :=
  match fuel with
  | O => None
  | S f =>
      if not_at_end src l then
        match rule l with
        | None => None
        | Some l' => rounds src rule f l'
        end
      else Some l
  end.

(** The state of a new lexer ([LexerState::new], oak-core/src/lexer/mod.rs:259-270): at the start, no tokens. *)
Definition new_lexer (src : source) : lexer := Lexer (cursor_at src 0) [].

(** [lex]: the rounds, then the end of stream; for example oak-csv/src/lexer/mod.rs:17-24.  The result is
    [Ok] for all the lexers modelled this way. *)
Definition lex_all (src : source) (rule : lexer -> option lexer) (eof : nat) : option (list token) :=
  match rounds src rule (scan_fuel src) (new_lexer src) with
  | None => None
  | Some l => Some (lx_toks (add_eof l eof))
  end.

(** [state.get_position() > start] at the end of a scanner that has run from [a] to [b] *)
Definition lx_moved (a b : lexer) : bool := lx_pos a <? lx_pos b.

(** [if moved { add_token(kind, …); true } else { false }]: the end of such a scanner, for example
    oak-csv/src/lexer/mod.rs:57-63 *)
Definition token_if (kind : nat) (l l' : lexer) : bool * lexer :=
  if lx_moved l l' then (true, add_token l' kind (lx_pos l) (lx_pos l')) else (false, l').

(** [if self.a(state) { continue; } if self.b(state) { continue; } …], for example oak-ini/src/lexer/mod.rs:42-68 *)
Fixpoint try_rules (rs : list (lexer -> option (bool * lexer))) (l : lexer) : option (bool * lexer) :=
  match rs with
  | [] => Some (false, l)
  | r :: rs =>
      match r l with
      | None => None
      | Some (true, l') => Some (true, l')
      | Some (false, l') => try_rules rs l'
      end
  end.

(** … with [state.advance_if_dead_lock(safe_point)] when no rule applies, oak-ini/src/lexer/mod.rs:40, 70 *)
Definition guarded_round (src : source) (rs : list (lexer -> option (bool * lexer))) (l : lexer) : option lexer :=
  match try_rules rs l with
  | None => None
  | Some (true, l') => Some l'
  | Some (false, l') => Some (advance_if_dead_lock src (lx_pos l) l')
  end.
