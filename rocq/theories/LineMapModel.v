(** Model of projects/oak-vfs/src/line_map.rs.

    A source is seen through its length and [chunk_at] (CursorModel.v) and its [get_text_in]; both
    [SourceText] (flat) and the chunked sources are instances. *)
From Verif Require Import Base Utf8 RopeModel CursorModel.

Record reader := Reader { rd_src : source; rd_text_in : nat -> nat -> str }.

(** text.rs:31-41 [SourceText] *)
Definition flat_reader (s : str) : reader := Reader (flat_source s) (flat_text_in s).
(** rope.rs / streaming.rs: [chunk_at], [get_text_in]; a panic (which RopeProofs.v excludes on character
    boundaries) is the empty text here *)
Definition chunked_reader (r : chunked) : reader :=
  Reader (chunked_source r) (fun a b => match text_in_chunks r a b with Some t => t | None => [] end).

(** line_map.rs:8-13 *)
Record line_map := LineMap { lm_starts : list nat; lm_len : nat }.

(** [n as u32] *)
Definition u32 (n : nat) : nat := N.to_nat (N.of_nat n mod 4294967296)%N.

(** line_map.rs:38-45: the line starts after the line feeds of [text], which starts at [offset] *)
Fixpoint feeds (len offset : nat) (text : str) : list nat :=
  match text with
  | [] => []
  | b :: rest => (if (b =? 10)%Z && (offset + 1 <=? len) then [offset + 1] else []) ++ feeds len (S offset) rest
  end.

(** line_map.rs:34-47; every round moves on to the end of a chunk, so the length is enough fuel on the
    sources considered; [None]: out of fuel *)
Fixpoint starts_loop (fuel : nat) (r : reader) (offset : nat) : option (list nat) :=
  match fuel with
  | O => None
  | S f =>
      if offset <? src_len (rd_src r) then
        let '(st, t) := src_chunk_at (rd_src r) offset in
        match starts_loop f r (st + length t) with
        | Some rest => Some (feeds (src_len (rd_src r)) offset (slice_from st t offset) ++ rest)
        | None => None
        end
      else Some []
  end.

(** line_map.rs:29-50 *)
Definition from_source (r : reader) : option line_map :=
  match starts_loop (S (src_len (rd_src r))) r 0 with
  | Some l => Some (LineMap (0 :: l) (src_len (rd_src r)))
  | None => None
  end.

(** line_map.rs:53-60 *)
Definition line_count (m : line_map) : nat := length (lm_starts m).
Definition line_start (m : line_map) (line : nat) : option nat := nth_error (lm_starts m) line.

(** line_map.rs:66-71 *)
Definition line_end (m : line_map) (line : nat) : option nat :=
  match nth_error (lm_starts m) line with
  | Some start => Some (Nat.max (match nth_error (lm_starts m) (line + 1) with Some n => n | None => lm_len m end) start)
  | None => None
  end.

(** [str::encode_utf16().count()] *)
Definition utf16_count (s : str) : nat := list_sum (map char_len16 (chars s)).

(** line_map.rs:88-99; [None]: index out of range *)
Definition offset_to_line_col (m : line_map) (r : reader) (offset : nat) : option (nat * nat) :=
  let offset := Nat.min offset (lm_len m) in
  let line := match bsearch (lm_starts m) offset with Found i => i | Missing 0 => 0 | Missing (S i) => i end in
  match nth_error (lm_starts m) line with
  | Some start => Some (u32 line, u32 (utf16_count (rd_text_in r start offset)))
  | None => None
  end.

(** line_map.rs:123-130: the loop over [char_indices] *)
Fixpoint column_loop (cs : list Z) (byte utf16 target : nat) : option nat :=
  match cs with
  | [] => None
  | c :: rest => if target <=? utf16 then Some byte
                 else column_loop rest (byte + char_len c) (utf16 + char_len16 c) target
  end.

(** line_map.rs:113-131 *)
Definition line_col_to_offset (m : line_map) (r : reader) (line col : nat) : nat :=
  match line_start m line with
  | None => lm_len m
  | Some start =>
      let line_end := match line_end m line with Some e => e | None => lm_len m end in
      match column_loop (chars (rd_text_in r start line_end)) 0 0 col with
      | Some byte => Nat.min (start + byte) (lm_len m)
      | None => Nat.min line_end (lm_len m)
      end
  end.
