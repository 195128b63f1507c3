(** What a source cursor is expected to do, in terms of the flat text. *)
From Verif Require Import Base Utf8 ScanSpec.
From Verif Require Import RopeModel CursorModel.

(** [src] delivers [text]: wherever it is asked on a character boundary, it
    answers with a piece of the text, cut on character boundaries, that contains
    the offset. *)
Definition piece_of (text : str) (st : nat) (t : str) : Prop :=
  st + length t <= length text /\ t = substr text st (st + length t) /\
  is_boundary text st = true /\ is_boundary text (st + length t) = true.

(** Asked at the end of a delivered piece, the source continues exactly there. *)
Definition delivered (src : source) (text : str) (st : nat) (t : str) : Prop :=
  piece_of text st t /\
  (st + length t < length text -> fst (src_chunk_at src (st + length t)) = st + length t) /\
  (exists off, is_boundary text off = true /\ src_chunk_at src off = (st, t)).

Definition serves (src : source) (text : str) : Prop :=
  valid text /\ src_len src = length text /\
  (forall off, off < length text -> is_boundary text off = true ->
     exists st t, src_chunk_at src off = (st, t) /\ delivered src text st t /\
       st <= off < st + length t) /\
  (forall off, length text <= off -> src_chunk_at src off = (length text, [])).

(** A cursor at a character boundary whose cached chunk was delivered by the source. *)
Definition placed (src : source) (text : str) (c : cursor) : Prop :=
  delivered src text (cu_start c) (cu_text c) /\ is_boundary text (cu_off c) = true.

(** Cursor programs and what they show. *)
Inductive cmd :=
| Peek | PeekNext | PeekByte | NextChar
| SkipSpace | SkipDigits | SkipIdent | SkipUntil (b : Z) | TakeWhile (p : Z -> bool)
| StartsWith (pat : str) | Consume (pat : str) | Goto (off : nat).

Inductive obs := OChar (c : option Z) | OByte (b : option Z) | ORange (a b : nat)
| OBool (b : bool) | ODone.

(** Commands that keep a cursor on character boundaries. *)
Definition legal (text : str) (k : cmd) : Prop :=
  match k with
  | SkipUntil b => (0 <= b < 128)%Z
  | StartsWith p | Consume p => valid p
  | Goto off => is_boundary text (Nat.min off (length text)) = true
  | _ => True
  end.

(** The characters from offset [a] up to [b] are exactly [cs]. *)
Definition reads (text : str) (a b : nat) (cs : list Z) : Prop :=
  Forall is_scalar cs /\ a <= b <= length text /\ substr text a b = encode cs.

Definition char_at (text : str) (off : nat) (r : option Z) : Prop :=
  match r with
  | Some ch => exists b, reads text off b [ch]
  | None => length text <= off
  end.

Definition occurs (pat text : str) (i : nat) : Prop :=
  exists tl, skipn i text = pat ++ tl /\ i <= length text.

(** One command on the flat text. *)
Inductive flat_step (text : str) (off : nat) : cmd -> obs -> nat -> Prop :=
| FPeek r : char_at text off r -> flat_step text off Peek (OChar r) off
| FPeekNext0 : length text <= off -> flat_step text off PeekNext (OChar None) off
| FPeekNext b ch r : reads text off b [ch] -> char_at text b r ->
    flat_step text off PeekNext (OChar r) off
| FPeekByte : flat_step text off PeekByte (OByte (nth_error text off)) off
| FNext0 : length text <= off -> flat_step text off NextChar (OChar None) off
| FNext b ch : reads text off b [ch] -> flat_step text off NextChar (OChar (Some ch)) b
| FSpace n : longest_run whitespace_byte (skipn off text) n ->
    flat_step text off SkipSpace (ORange off (off + n)) (off + n)
| FDigits n : longest_run digit_byte (skipn off text) n ->
    flat_step text off SkipDigits (ORange off (off + n)) (off + n)
| FIdent n : longest_run ident_byte (skipn off text) n ->
    flat_step text off SkipIdent (ORange off (off + n)) (off + n)
| FUntil x n : longest_run (fun b => b <> x) (skipn off text) n ->
    flat_step text off (SkipUntil x) (ORange off (off + n)) (off + n)
| FTake p b cs : reads text off b cs -> Forall (fun c => p c = true) cs ->
    (forall b' ch, reads text b b' [ch] -> p ch = false) ->
    flat_step text off (TakeWhile p) (ORange off b) b
| FStartsYes p : occurs p text off -> flat_step text off (StartsWith p) (OBool true) off
| FStartsNo p : ~ occurs p text off -> flat_step text off (StartsWith p) (OBool false) off
| FConsumeYes p : occurs p text off ->
    flat_step text off (Consume p) (OBool true) (off + length p)
| FConsumeNo p : ~ occurs p text off -> flat_step text off (Consume p) (OBool false) off
| FGoto n : flat_step text off (Goto n) ODone (Nat.min n (length text)).

Inductive flat_run (text : str) : nat -> list cmd -> list obs -> nat -> Prop :=
| FNil off : flat_run text off [] [] off
| FCons off k o off1 ks os off2 :
    flat_step text off k o off1 -> flat_run text off1 ks os off2 ->
    flat_run text off (k :: ks) (o :: os) off2.

(** The same programs on a cursor. *)
Definition range_step (c : cursor) (r : option cursor) : option (obs * cursor) :=
  match r with Some c' => Some (ORange (cu_off c) (cu_off c'), c') | None => None end.

Definition cursor_step (src : source) (c : cursor) (k : cmd) : option (obs * cursor) :=
  match k with
  | Peek => let '(r, c') := peek_char src c in Some (OChar r, c')
  | PeekNext => let '(r, c') := peek_next_char src c in Some (OChar r, c')
  | PeekByte => let '(r, c') := peek_byte src c in Some (OByte r, c')
  | NextChar => let '(r, c') := advance_char src c in Some (OChar r, c')
  | SkipSpace => range_step c (cursor_skip_whitespace src c)
  | SkipDigits => range_step c (cursor_skip_digits src c)
  | SkipIdent => range_step c (cursor_skip_ident src c)
  | SkipUntil b => range_step c (cursor_skip_until src b c)
  | TakeWhile p => range_step c (take_while src p c)
  | StartsWith p =>
      match starts_with src c p with Some (b, c') => Some (OBool b, c') | None => None end
  | Consume p =>
      match consume_if_starts_with src c p with Some (b, c') => Some (OBool b, c') | None => None end
  | Goto n => Some (ODone, set_position src c n)
  end.

Fixpoint cursor_run (src : source) (c : cursor) (ks : list cmd) : option (list obs * cursor) :=
  match ks with
  | [] => Some ([], c)
  | k :: ks' =>
      match cursor_step src c k with
      | None => None
      | Some (o, c1) =>
          match cursor_run src c1 ks' with
          | None => None
          | Some (os, c2) => Some (o :: os, c2)
          end
      end
  end.

(** First occurrence of a pattern / character at or after an offset. *)
Definition first_occurrence (pat text : str) (off : nat) (r : option nat) : Prop :=
  match r with
  | Some i => off <= i /\ occurs pat text i /\ forall j, off <= j < i -> ~ occurs pat text j
  | None => forall j, off <= j -> ~ occurs pat text j
  end.

Definition first_char_position (ch : Z) (text : str) (off : nat) (r : option nat) : Prop :=
  match r with
  | Some i => off <= i /\ (exists b, reads text i b [ch]) /\
              forall j b, off <= j < i -> is_boundary text j = true -> ~ reads text j b [ch]
  | None => forall j b, off <= j -> is_boundary text j = true -> ~ reads text j b [ch]
  end.

(** Every chunk but the last has at least [keep] bytes, and its last [keep] bytes
    begin on a character boundary. *)
Definition wide_chunks (src : source) (text : str) (keep : nat) : Prop :=
  forall off st t, is_boundary text off = true -> src_chunk_at src off = (st, t) ->
    st + length t = length text \/
    (keep <= length t /\ is_boundary text (st + length t - keep) = true).
