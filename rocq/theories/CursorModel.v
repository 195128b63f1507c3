(** Model of projects/oak-core/src/source/cursor.rs ([SourceCursor]) and of the
    searching defaults of projects/oak-core/src/source/mod.rs.

    The cursor is generic over its source, as in Rust: a source is its length and
    its [chunk_at] function.  The scratch buffer is local to the calls that use
    it (it is cleared first), so it is not part of the cursor state.  Predicates
    ([FnMut]) are modelled as pure functions.  Loops carry fuel; [None] means the
    fuel is used up.  [get_unchecked] is modelled by [skipn]; it is only reached
    with an in-range index, and (for [str]) on a character boundary whenever the
    offset is on one, which is what the theorems assume. *)
From Verif Require Import Base Utf8 RopeModel SimdModel.

Record source := Source { src_len : nat; src_chunk_at : nat -> nat * str }.

(** text.rs:31-37 [SourceText]; the same chunks as [str] (mod.rs:206-212) on
    character boundaries. *)
Definition flat_source (s : str) : source := Source (length s) (flat_chunk_at s).

(** streaming.rs [ChunkedSource] / rope.rs [RopeSource], [RopeBuffer]: [chunk_at] of
    RopeModel.v; [chunk_at_total] in CursorProofs.v shows the default is unreachable. *)
Definition chunked_source (r : chunked) : source :=
  Source (ck_len r) (fun off => match chunk_at r off with Some p => p | None => (0, []) end).

Record cursor := Cursor { cu_off : nat; cu_start : nat; cu_text : str }.

(** mod.rs:40-43 *)
Definition cu_end (c : cursor) : nat := cu_start c + length (cu_text c).

(** mod.rs:46-52 [TextChunk::slice_from] *)
Definition slice_from (start : nat) (text : str) (offset : nat) : str :=
  if offset <=? start then text
  else match str_get_from text (offset - start) with Some t => t | None => [] end.

(** cursor.rs:39-44 *)
Definition cursor_at (src : source) (offset : nat) : cursor :=
  let offset := Nat.min offset (src_len src) in
  let '(st, t) := src_chunk_at src offset in Cursor offset st t.

(** cursor.rs:55-59, the new cursor *)
Definition set_position (src : source) (c : cursor) (offset : nat) : cursor :=
  Cursor (Nat.min offset (src_len src)) (cu_start c) (cu_text c).

(** cursor.rs:68-78 *)
Definition ensure_chunk (src : source) (c : cursor) : cursor :=
  let end_ := src_len src in
  let off := if end_ <? cu_off c then end_ else cu_off c in
  if (off <? cu_start c) || (cu_end c <? off) || ((off =? cu_end c) && (off <? end_))
  then let '(st, t) := src_chunk_at src off in Cursor off st t
  else Cursor off (cu_start c) (cu_text c).

(** cursor.rs:81-84 *)
Definition rest (src : source) (c : cursor) : str * cursor :=
  let c := ensure_chunk src c in (slice_from (cu_start c) (cu_text c) (cu_off c), c).

(** cursor.rs:87-90 *)
Definition chunk_end (src : source) (c : cursor) : nat * cursor :=
  let c := ensure_chunk src c in (cu_end c, c).

(** [text.chars().next()] *)
Definition first_char (t : str) : option Z :=
  match decode1 t with Some (c, _) => Some c | None => None end.

(** cursor.rs:105-108 and 384-387: move [i] forward to a character boundary. *)
Fixpoint next_boundary (fuel : nat) (t : str) (i : nat) : nat :=
  match fuel with
  | O => i
  | S f => if (i <? length t) && negb (is_boundary t i) then next_boundary f t (S i) else i
  end.

(** cursor.rs:93-117 *)
Definition peek_char (src : source) (c : cursor) : option Z * cursor :=
  let slow := let '(r, c') := rest src c in (first_char r, c') in
  if cu_start c <=? cu_off c then
    let rel := cu_off c - cu_start c in
    if rel <? length (cu_text c) then
      if is_boundary (cu_text c) rel then (first_char (skipn rel (cu_text c)), c)
      else
        let i := next_boundary (length (cu_text c)) (cu_text c) rel in
        if i <? length (cu_text c) then (first_char (skipn i (cu_text c)), c) else slow
    else slow
  else slow.

(** mod.rs:121-123 [Source::get_char_at] *)
Definition get_char_at (src : source) (offset : nat) : option Z :=
  let '(st, t) := src_chunk_at src offset in first_char (slice_from st t offset).

(** cursor.rs:120-131 *)
Definition peek_next_n (src : source) (c : cursor) (n : nat) : option Z :=
  let target := cu_off c + n in
  if src_len src <=? target then None
  else if (cu_start c <=? target) && (target <? cu_end c) then
    first_char (match str_get_from (cu_text c) (target - cu_start c) with
                | Some t => t | None => [] end)
  else get_char_at src target.

(** cursor.rs:134-137 *)
Definition peek_next_char (src : source) (c : cursor) : option Z * cursor :=
  match peek_char src c with
  | (None, c') => (None, c')
  | (Some ch, c') => (peek_next_n src c' (char_len ch), c')
  end.

(** cursor.rs:245-257; [offset - chunk.start] underflows (debug panic) only if the
    chunk starts after the offset, excluded by [ensure_chunk] for a source whose
    chunks contain the requested offset. *)
Definition peek_byte (src : source) (c : cursor) : option Z * cursor :=
  let slow := let c' := ensure_chunk src c in
              (nth_error (cu_text c') (cu_off c' - cu_start c'), c') in
  if cu_start c <=? cu_off c then
    let rel := cu_off c - cu_start c in
    if rel <? length (cu_text c) then (nth_error (cu_text c) rel, c) else slow
  else slow.

(** cursor.rs:260-263 *)
Definition advance_bytes (src : source) (c : cursor) (n : nat) : cursor :=
  Cursor (Nat.min (cu_off c + n) (src_len src)) (cu_start c) (cu_text c).

(** cursor.rs:266-270 *)
Definition advance_char (src : source) (c : cursor) : option Z * cursor :=
  match peek_char src c with
  | (None, c') => (None, c')
  | (Some ch, c') => (Some ch, advance_bytes src c' (char_len ch))
  end.

(** cursor.rs:274-278 *)
Definition advance_byte (src : source) (c : cursor) : option Z * cursor :=
  match peek_byte src c with
  | (None, c') => (None, c')
  | (Some b, c') => (Some b, Cursor (S (cu_off c')) (cu_start c') (cu_text c'))
  end.

(** The loop shared by cursor.rs:140-163, 166-189, 192-215, 218-241, 281-331 and
    335-370.  [scan] is the work done on the text of the current chunk: how many
    bytes it consumes and whether it stopped before the end of that text. *)
Fixpoint scan_loop (src : source) (scan : str -> option (nat * bool)) (fuel : nat) (c : cursor)
  : option cursor :=
  match fuel with
  | O => None
  | S f =>
      let c := ensure_chunk src c in
      let rel := cu_off c - cu_start c in
      let text := if rel <? length (cu_text c) then skipn rel (cu_text c) else [] in
      match text with
      | [] =>
          if src_len src <=? cu_off c then Some c
          else let '(st, t) := src_chunk_at src (cu_off c) in
               scan_loop src scan f (Cursor (cu_off c) st t)
      | _ :: _ =>
          match scan text with
          | None => None
          | Some (adv, stop) =>
              let c' := Cursor (cu_off c + adv) (cu_start c) (cu_text c) in
              if stop || (src_len src <=? cu_off c') then Some c' else scan_loop src scan f c'
          end
      end
  end.

(** Enough rounds: every round but the last consumes at least one byte. *)
Definition scan_fuel (src : source) : nat := S (src_len src).

(** [skipped < bytes.len()] of the SIMD-backed loops. *)
Definition scan_simd (skip : str -> option nat) (text : str) : option (nat * bool) :=
  match skip text with
  | None => None
  | Some k => Some (k, k <? length text)
  end.

(** cursor.rs:304-315: [for (i, ch) in text.char_indices()] *)
Fixpoint scan_chars (pred : Z -> bool) (cs : list Z) (i advanced : nat) : nat * bool :=
  match cs with
  | [] => (advanced, false)
  | ch :: cs' =>
      if negb (pred ch) then (i, true)
      else scan_chars pred cs' (i + char_len ch) (i + char_len ch)
  end.

(** cursor.rs:351-361 *)
Fixpoint scan_bytes (pred : Z -> bool) (bs : str) (i advanced : nat) : nat * bool :=
  match bs with
  | [] => (advanced, false)
  | b :: bs' => if negb (pred b) then (i, true) else scan_bytes pred bs' (S i) (S i)
  end.

(** cursor.rs:140-163, 166-189, 192-215, 218-241, 281-331, 335-370.  The returned
    range runs from the old to the new offset. *)
Definition cursor_skip_whitespace (src : source) (c : cursor) : option cursor :=
  scan_loop src (scan_simd skip_ascii_whitespace) (scan_fuel src) c.
Definition cursor_skip_digits (src : source) (c : cursor) : option cursor :=
  scan_loop src (scan_simd skip_ascii_digits) (scan_fuel src) c.
Definition cursor_skip_ident (src : source) (c : cursor) : option cursor :=
  scan_loop src (scan_simd skip_ascii_ident_continue) (scan_fuel src) c.
Definition cursor_skip_until (src : source) (target : Z) (c : cursor) : option cursor :=
  scan_loop src (scan_simd (fun t => skip_until t target)) (scan_fuel src) c.
Definition take_while (src : source) (pred : Z -> bool) (c : cursor) : option cursor :=
  scan_loop src (fun t => Some (scan_chars pred (chars t) 0 0)) (scan_fuel src) c.
Definition take_while_byte (src : source) (pred : Z -> bool) (c : cursor) : option cursor :=
  scan_loop src (fun t => Some (scan_bytes pred t 0 0)) (scan_fuel src) c.

(** [str::starts_with] *)
Fixpoint prefixb (p s : str) : bool :=
  match p, s with
  | [], _ => true
  | x :: p', y :: s' => (x =? y)%Z && prefixb p' s'
  | _ :: _, [] => false
  end.

(** cursor.rs:399-403 *)
Fixpoint gather (src : source) (fuel : nat) (want : nat) (scratch : str) (next : nat) : option str :=
  match fuel with
  | O => None
  | S f =>
      if (length scratch <? want) && (next <? src_len src) then
        let '(st, t) := src_chunk_at src next in
        gather src f want (scratch ++ t) (st + length t)
      else Some scratch
  end.

(** cursor.rs:373-405 *)
Definition starts_with (src : source) (c : cursor) (pattern : str) : option (bool * cursor) :=
  let c := ensure_chunk src c in
  let t := cu_text c in
  let o := cu_off c - cu_start c in
  let i := if is_boundary t o then o else next_boundary (length t) t o in
  let r := match str_get_from t i with Some x => x | None => [] end in
  if length pattern <=? length r then Some (prefixb pattern r, c)
  else match gather src (S (src_len src)) (length pattern) r (cu_end c) with
       | None => None
       | Some scratch => Some (prefixb pattern scratch, c)
       end.

(** cursor.rs:408-414 *)
Definition consume_if_starts_with (src : source) (c : cursor) (pattern : str) : option (bool * cursor) :=
  match starts_with src c pattern with
  | None => None
  | Some (false, c') => Some (false, c')
  | Some (true, c') => Some (true, advance_bytes src c' (length pattern))
  end.

(** [str::find(&str)]: byte index of the first match. *)
Fixpoint find_sub (p s : str) : option nat :=
  if prefixb p s then Some 0
  else match s with
       | [] => None
       | _ :: s' => match find_sub p s' with Some i => Some (S i) | None => None end
       end.

(** cursor.rs:417-453.  Answers with the cursor left behind; outer [None]: the loop
    ran out of fuel. *)
Fixpoint find_str_loop (src : source) (fuel : nat) (pattern : str) (offset : nat) (c : cursor)
  : option (option nat * cursor) :=
  match fuel with
  | O => None
  | S f =>
      if src_len src <=? offset then Some (None, c)
      else
        let c := ensure_chunk src (Cursor offset (cu_start c) (cu_text c)) in
        let text := slice_from (cu_start c) (cu_text c) offset in
        match find_sub pattern text with
        | Some pos => Some (Some (offset + pos), c)
        | None =>
            let cend := cu_end c in
            if src_len src <=? cend then Some (None, c)
            else
              let spanning :=
                if 1 <? length pattern then
                  let keep := length pattern - 1 in
                  let tail := match str_get_from text (length text - keep) with
                              | Some t => t | None => [] end in
                  let next_text := snd (src_chunk_at src cend) in
                  match find_sub pattern (tail ++ next_text) with
                  | Some pos => Some (cend - length tail + pos)
                  | None => None
                  end
                else None in
              match spanning with
              | Some p => Some (Some p, c)
              | None => find_str_loop src f pattern cend c
              end
        end
  end.

Definition find_str (src : source) (pattern : str) (c : cursor) : option (option nat * cursor) :=
  match pattern with
  | [] => Some (Some (cu_off c), c)
  | _ :: _ => find_str_loop src (S (src_len src)) pattern (cu_off c) c
  end.

(** mod.rs:185-188 *)
Definition find_str_from (src : source) (offset : nat) (pattern : str) : option (option nat) :=
  match find_str src pattern (cursor_at src offset) with
  | Some (r, _) => Some r | None => None
  end.

(** [str::find(char)]: byte index of the first occurrence. *)
Fixpoint find_char (ch : Z) (cs : list Z) : option nat :=
  match cs with
  | [] => None
  | c :: cs' => if (c =? ch)%Z then Some 0
                else match find_char ch cs' with
                     | Some i => Some (char_len c + i) | None => None end
  end.

(** mod.rs:158-173 *)
Fixpoint find_char_loop (src : source) (fuel : nat) (ch : Z) (base : nat) (c : cursor)
  : option (option nat) :=
  match fuel with
  | O => None
  | S f =>
      let '(r, c) := rest src c in
      match find_char ch (chars r) with
      | Some pos => Some (Some (base + pos))
      | None =>
          let '(next, c) := chunk_end src c in
          if src_len src <=? next then Some None
          else find_char_loop src f ch next (set_position src c next)
      end
  end.

Definition find_char_from (src : source) (offset : nat) (ch : Z) : option (option nat) :=
  find_char_loop src (S (src_len src)) ch offset (cursor_at src offset).

(** mod.rs:141-146, over the [get_text_in] of RopeModel.v. *)
Definition flat_text_from (s : str) (offset : nat) : str :=
  if length s <=? offset then [] else flat_text_in s offset (length s).
Definition chunked_text_from (r : chunked) (offset : nat) : option str :=
  if ck_len r <=? offset then Some [] else text_in_chunks r offset (ck_len r).
