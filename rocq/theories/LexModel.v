(** Model of projects/oak-core/src/lexer: [LexerState] (mod.rs) and the scanners
    of scan_string.rs, scan_comment.rs and scan_white_space.rs.

    A token kind is a number.  The error list of the state is not touched by the
    functions below and is left out.  Loops carry fuel; [None] means a panic or
    that the fuel is used up. *)
From Verif Require Import Base Utf8 SimdModel CursorModel.

(** mod.rs:182-190 *)
Record token := Token { tk_kind : nat; tk_start : nat; tk_end : nat }.

(** mod.rs:252-256 *)
Record lexer := Lexer { lx_cur : cursor; lx_toks : list token }.

(** mod.rs:379-381 [get_position] *)
Definition lx_pos (l : lexer) : nat := cu_off (lx_cur l).

(** mod.rs:387-389 [not_at_end] *)
Definition not_at_end (src : source) (l : lexer) : bool := lx_pos l <? src_len src.

(** mod.rs:413-415 [advance] *)
Definition lx_advance (src : source) (l : lexer) (n : nat) : lexer :=
  Lexer (advance_bytes src (lx_cur l) n) (lx_toks l).

(** mod.rs:395-397 [peek], 704-706 [current] *)
Definition lx_current (src : source) (l : lexer) : option Z * lexer :=
  let '(r, c) := peek_char src (lx_cur l) in (r, Lexer c (lx_toks l)).

(** mod.rs:431-433 [peek_byte], 437-439 [advance_byte] *)
Definition lx_peek_byte (src : source) (l : lexer) : option Z * lexer :=
  let '(r, c) := peek_byte src (lx_cur l) in (r, Lexer c (lx_toks l)).
Definition lx_advance_byte (src : source) (l : lexer) : lexer :=
  Lexer (snd (advance_byte src (lx_cur l))) (lx_toks l).

(** mod.rs:599-601, 606-608 *)
Definition lx_starts_with (src : source) (l : lexer) (p : str) : option (bool * lexer) :=
  match starts_with src (lx_cur l) p with
  | Some (b, c) => Some (b, Lexer c (lx_toks l)) | None => None
  end.
Definition lx_consume (src : source) (l : lexer) (p : str) : option (bool * lexer) :=
  match consume_if_starts_with src (lx_cur l) p with
  | Some (b, c) => Some (b, Lexer c (lx_toks l)) | None => None
  end.

(** mod.rs:445-482: the cursor scans lifted to the state. *)
Definition lx_scan (l : lexer) (r : option cursor) : option lexer :=
  match r with Some c => Some (Lexer c (lx_toks l)) | None => None end.

(** mod.rs:638-640 *)
Definition add_token (l : lexer) (kind start end_ : nat) : lexer :=
  Lexer (lx_cur l) (lx_toks l ++ [Token kind start end_]).

(** mod.rs:693-696; [eof] is [END_OF_STREAM] *)
Definition add_eof (l : lexer) (eof : nat) : lexer := add_token l eof (lx_pos l) (lx_pos l).

(** mod.rs:714-718 *)
Definition lx_bump (src : source) (l : lexer) : option Z * lexer :=
  match lx_current src l with
  | (None, l') => (None, l')
  | (Some ch, l') => (Some ch, lx_advance src l' (char_len ch))
  end.

(** mod.rs:874-880 *)
Fixpoint lx_take_while (src : source) (fuel : nat) (pred : Z -> bool) (l : lexer) : option lexer :=
  match fuel with
  | O => None
  | S f =>
      match lx_current src l with
      | (None, l') => Some l'
      | (Some ch, l') =>
          if pred ch then lx_take_while src f pred (lx_advance src l' (char_len ch)) else Some l'
      end
  end.

(** scan_white_space.rs:15-26 with [char::is_whitespace] as [is_ws]. *)
Definition scan_whitespace (src : source) (unicode : bool) (is_ws : Z -> bool) (kind : nat) (l : lexer)
  : option (bool * lexer) :=
  let start := lx_pos l in
  match (if unicode then lx_take_while src (scan_fuel src) is_ws l
         else lx_scan l (cursor_skip_whitespace src (lx_cur l))) with
  | None => None
  | Some l' => if start <? lx_pos l' then Some (true, add_token l' kind start (lx_pos l'))
               else Some (false, l')
  end.

(** Rust's [char::is_whitespace] (Unicode White_Space). *)
Definition char_is_whitespace (c : Z) : bool :=
  (((9 <=? c) && (c <=? 13)) || (c =? 32) || (c =? 0x85) || (c =? 0xA0) || (c =? 0x1680)
   || ((0x2000 <=? c) && (c <=? 0x200A)) || (c =? 0x2028) || (c =? 0x2029) || (c =? 0x202F)
   || (c =? 0x205F) || (c =? 0x3000))%Z.

(** mod.rs:497-508 *)
Definition scan_ascii_identifier (src : source) (kind : nat) (l : lexer) : option (bool * lexer) :=
  let start := lx_pos l in
  match lx_peek_byte src l with
  | (Some b, l1) =>
      if (b =? 95)%Z || is_ascii_alphabetic b then
        let l2 := lx_advance_byte src l1 in
        match lx_scan l2 (cursor_skip_ident src (lx_cur l2)) with
        | None => None
        | Some l3 => Some (true, add_token l3 kind start (lx_pos l3))
        end
      else Some (false, l1)
  | (None, l1) => Some (false, l1)
  end.

(** mod.rs:519-527 *)
Definition scan_line_comment (src : source) (kind : nat) (prefix : str) (l : lexer)
  : option (bool * lexer) :=
  let start := lx_pos l in
  match lx_consume src l prefix with
  | None => None
  | Some (false, l1) => Some (false, l1)
  | Some (true, l1) =>
      match lx_scan l1 (cursor_skip_until src 10%Z (lx_cur l1)) with
      | None => None
      | Some l2 => Some (true, add_token l2 kind start (lx_pos l2))
      end
  end.

(** mod.rs:543-551: the loop; [end_seq.as_bytes()[0]] panics on an empty sequence. *)
Fixpoint block_loop (src : source) (fuel : nat) (end_seq : str) (l : lexer) : option lexer :=
  match fuel with
  | O => None
  | S f =>
      match lx_peek_byte src l with
      | (None, l1) => Some l1
      | (Some _, l1) =>
          match end_seq with
          | [] => None
          | b0 :: _ =>
              match lx_scan l1 (cursor_skip_until src b0 (lx_cur l1)) with
              | None => None
              | Some l2 =>
                  match lx_consume src l2 end_seq with
                  | None => None
                  | Some (true, l3) => Some l3
                  | Some (false, l3) => block_loop src f end_seq (lx_advance_byte src l3)
                  end
              end
          end
      end
  end.

(** mod.rs:540-557; both exits of the loop emit the same token. *)
Definition scan_block_comment (src : source) (kind : nat) (start_seq end_seq : str) (l : lexer)
  : option (bool * lexer) :=
  let start := lx_pos l in
  match lx_consume src l start_seq with
  | None => None
  | Some (false, l1) => Some (false, l1)
  | Some (true, l1) =>
      match block_loop src (scan_fuel src) end_seq l1 with
      | None => None
      | Some l2 => Some (true, add_token l2 kind start (lx_pos l2))
      end
  end.

(** scan_comment.rs:5-14 *)
Record comment_config := CommentConfig
  { cc_line : str; cc_start : str; cc_end : str; cc_nested : bool }.

Definition nonempty (p : str) : bool := match p with [] => false | _ => true end.

(** [!p.is_empty() && state.starts_with(p)] *)
Definition marker_here (src : source) (p : str) (l : lexer) : option (bool * lexer) :=
  if nonempty p then lx_starts_with src l p else Some (false, l).

(** scan_comment.rs:32-44 *)
Fixpoint depth_loop (src : source) (cfg : comment_config) (fuel depth : nat) (l : lexer) : option lexer :=
  match fuel with
  | O => None
  | S f =>
      if (0 <? depth) && not_at_end src l then
        match (if cc_nested cfg then marker_here src (cc_start cfg) l else Some (false, l)) with
        | None => None
        | Some (true, l1) => depth_loop src cfg f (S depth) (lx_advance src l1 (length (cc_start cfg)))
        | Some (false, l1) =>
            match marker_here src (cc_end cfg) l1 with
            | None => None
            | Some (true, l2) => depth_loop src cfg f (depth - 1) (lx_advance src l2 (length (cc_end cfg)))
            | Some (false, l2) =>
                match lx_current src l2 with
                | (Some ch, l3) => depth_loop src cfg f depth (lx_advance src l3 (char_len ch))
                | (None, l3) => depth_loop src cfg f depth l3
                end
            end
        end
      else Some l
  end.

(** scan_comment.rs:18-50 *)
Definition scan_comment (src : source) (cfg : comment_config) (line_kind block_kind : nat) (l : lexer)
  : option (bool * lexer) :=
  let start := lx_pos l in
  match marker_here src (cc_line cfg) l with
  | None => None
  | Some (true, l1) =>
      let l2 := lx_advance src l1 (length (cc_line cfg)) in
      match lx_scan l2 (take_while_byte src (fun b => negb (b =? 10)%Z) (lx_cur l2)) with
      | None => None
      | Some l3 => Some (true, add_token l3 line_kind start (lx_pos l3))
      end
  | Some (false, l1) =>
      match marker_here src (cc_start cfg) l1 with
      | None => None
      | Some (true, l2) =>
          match depth_loop src cfg (scan_fuel src) 1 (lx_advance src l2 (length (cc_start cfg))) with
          | None => None
          | Some l3 => Some (true, add_token l3 block_kind start (lx_pos l3))
          end
      | Some (false, l2) => Some (false, l2)
      end
  end.

(** scan_string.rs:28-60: the fast path; [q] and [e] are [q_byte] and [e_byte].
    The boolean tells whether a closing quote was found (the token is emitted by
    the caller at either exit). *)
Fixpoint fast_loop (src : source) (q e : Z) (fuel : nat) (l : lexer) : option (bool * lexer) :=
  match fuel with
  | O => None
  | S f =>
      let '(r, c) := rest src (lx_cur l) in
      let l := Lexer c (lx_toks l) in
      match r with
      | [] => Some (false, l)
      | _ :: _ =>
          match find_first_of_4 r q e q e with
          | FuelOut => None
          | Answer None => fast_loop src q e f (lx_advance src l (length r))
          | Answer (Some pos) =>
              match nth_error r pos with
              | None => None
              | Some found =>
                  let l := lx_advance src l pos in
                  if (found =? q)%Z then Some (true, lx_advance src l 1)
                  else
                    let l := lx_advance src l 1 in
                    match lx_current src l with
                    | (Some next, l) => fast_loop src q e f (lx_advance src l (char_len next))
                    | (None, l) => fast_loop src q e f l
                    end
              end
          end
      end
  end.

(** scan_string.rs:67-83: the slow path. *)
Fixpoint slow_loop (src : source) (q : Z) (e : option Z) (fuel : nat) (l : lexer) : option (bool * lexer) :=
  match fuel with
  | O => None
  | S f =>
      match lx_current src l with
      | (None, l) => Some (false, l)
      | (Some ch, l) =>
          if match e with Some x => (ch =? x)%Z | None => false end then
            let l := lx_advance src l (char_len ch) in
            match lx_current src l with
            | (Some next, l) => slow_loop src q e f (lx_advance src l (char_len next))
            | (None, l) => slow_loop src q e f l
            end
          else if (ch =? q)%Z then Some (true, lx_advance src l (char_len ch))
          else slow_loop src q e f (lx_advance src l (char_len ch))
      end
  end.

(** scan_string.rs:17-88 *)
Definition scan_string (src : source) (quotes : list Z) (escape : option Z) (kind : nat) (l : lexer)
  : option (bool * lexer) :=
  let start := lx_pos l in
  match lx_current src l with
  | (Some q, l1) =>
      if existsb (Z.eqb q) quotes then
        let l2 := lx_advance src l1 (char_len q) in
        let fast := (q <? 128)%Z && match escape with Some x => (x <? 128)%Z | None => true end in
        let e := match escape with Some x => x | None => q end in
        match (if fast then fast_loop src q e (scan_fuel src) l2
               else slow_loop src q escape (scan_fuel src) l2) with
        | None => None
        | Some (_, l3) => Some (true, add_token l3 kind start (lx_pos l3))
        end
      else Some (false, l1)
  | (None, l1) => Some (false, l1)
  end.

(** mod.rs:971-984 *)
Definition advance_if_dead_lock (src : source) (safe_point : nat) (l : lexer) : lexer :=
  if lx_pos l =? safe_point then
    match lx_current src l with
    | (Some ch, l') => lx_advance src l' (char_len ch)
    | (None, l') => lx_advance src l' 1
    end
  else l.

(** The loop every lexer of the workspace is written as (for example
    examples/oak-json/src/lexer/mod.rs:40-90): one round tries some rules, then
    calls the guard.  [rules] is everything between. *)
Fixpoint guarded_loop (src : source) (rules : lexer -> option lexer) (fuel : nat) (l : lexer)
  : option lexer :=
  match fuel with
  | O => None
  | S f =>
      if not_at_end src l then
        match rules l with
        | None => None
        | Some l' => guarded_loop src rules f (advance_if_dead_lock src (lx_pos l) l')
        end
      else Some l
  end.

(** A token cache (mod.rs:110-152): the tokens, and whether [get_tokens] offers
    them as a slice (parser/session.rs does).  A cache without tokens is []. *)
Record cache := Cache { ca_toks : list token; ca_slice : bool }.

(** [slice::partition_point]: a binary search.  (On a partitioned slice, the only case
    in which Rust specifies the answer, every binary search gives the same index.) *)
Fixpoint bsearch (fuel : nat) (p : token -> bool) (ts : list token) (left size : nat) : option nat :=
  match fuel with
  | O => None
  | S f =>
      if size =? 0 then Some left
      else
        let half := Nat.div2 size in
        let mid := left + half in
        match nth_error ts mid with
        | None => None
        | Some t => if p t then bsearch f p ts (S mid) (size - half - 1)
                    else bsearch f p ts left half
        end
  end.
Definition partition_point (p : token -> bool) (ts : list token) : option nat :=
  bsearch (S (length ts)) p ts 0 (length ts).

(** mod.rs:327-338: the fallback loop *)
Fixpoint while_before (p : token -> bool) (ts : list token) : list token :=
  match ts with
  | [] => []
  | t :: r => if p t then t :: while_before p r else []
  end.

Definition last_end (ts : list token) : nat :=
  match rev ts with t :: _ => tk_end t | [] => 0 end.

(** mod.rs:284-347 *)
Definition new_with_cache (src : source) (relex_from : nat) (ca : cache) : option lexer :=
  match ca_toks ca with
  | [] => Some (Lexer (cursor_at src 0) [])
  | _ :: _ =>
      let len := src_len src in
      let relex_from := Nat.min relex_from len in
      if len <=? relex_from then
        let offset := Nat.min (last_end (ca_toks ca)) len in
        Some (Lexer (cursor_at src offset) (ca_toks ca))
      else if relex_from =? 0 then Some (Lexer (cursor_at src 0) [])
      else
        let before t := tk_end t <=? relex_from in
        match (if ca_slice ca then
                 match partition_point before (ca_toks ca) with
                 | None => None
                 | Some idx => Some (firstn (idx - 1) (ca_toks ca))
                 end
               else
                 let kept := while_before before (ca_toks ca) in
                 Some (firstn (length kept - 1) kept)) with
        | None => None
        | Some reused => Some (Lexer (cursor_at src (last_end reused)) reused)
        end
  end.
