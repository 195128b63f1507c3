(** Model of the chunked sources.
    Source: projects/oak-core/src/source/rope.rs and
    projects/oak-core/src/source/streaming.rs (whose [chunkify],
    [text_in_chunks] and [chunk_at] are textually identical to the rope's).
    [Arc] sharing is not modelled: chunks are values.  [None] is a panic
    (index out of bounds, slicing off a character boundary) or exhausted fuel. *)
From Verif Require Import Base Utf8 EditModel.

(** rope.rs:19-24 [RopeBuffer], rope.rs:10-15 [RopeSource],
    streaming.rs:10-24 [ChunkedSource]/[ChunkedBuffer] (source id omitted). *)
Record chunked := Chunked { ck_chunks : list str; ck_starts : list nat; ck_len : nat }.

(** [<[usize]>::binary_search] on a sorted slice: position of an equal element
    or the insertion point.  Modelled by linear search, which returns the same
    value on strictly increasing slices (the std contract). *)
Inductive search := Found (i : nat) | Missing (i : nat).

Fixpoint bsearch_from (i : nat) (l : list nat) (x : nat) : search :=
  match l with
  | [] => Missing i
  | y :: l' => if y =? x then Found i
               else if y <? x then bsearch_from (S i) l' x
               else Missing i
  end.

Definition bsearch (l : list nat) (x : nat) : search := bsearch_from 0 l x.

(** rope.rs:203-211 [rebuild_starts]. *)
Fixpoint starts_from (off : nat) (chunks : list str) : list nat :=
  match chunks with
  | [] => []
  | c :: r => off :: starts_from (off + length c) r
  end.

Fixpoint total_len (chunks : list str) : nat :=
  match chunks with [] => 0 | c :: r => length c + total_len r end.

Definition rebuild (chunks : list str) : chunked :=
  Chunked chunks (starts_from 0 chunks) (total_len chunks).

(** rope.rs:221-223 [while end > start && !text.is_char_boundary(end) { end -= 1 }]. *)
Fixpoint back_to_boundary (text : str) (start end_ : nat) : nat :=
  if (start <? end_) && negb (is_boundary text end_)
  then match end_ with O => O | S e => back_to_boundary text start e end
  else end_.

(** rope.rs:213-232 / streaming.rs:109-128 [chunkify]; [csz] is CHUNK_SIZE (4096). *)
Fixpoint chunkify_loop (csz fuel : nat) (text : str) (start : nat) : option (list str) :=
  match fuel with
  | O => None
  | S f =>
      if start <? length text then
        let e0 := Nat.min (start + csz) (length text) in
        let e1 := back_to_boundary text start e0 in
        let e := if e1 =? start then length text else e1 in
        match str_get text start e with
        | None => None
        | Some part =>
            match chunkify_loop csz f text e with
            | None => None
            | Some rest => Some (part :: rest)
            end
        end
      else Some []
  end.

Definition chunkify (csz : nat) (text : str) : option (list str) :=
  match text with
  | [] => Some []
  | _ => chunkify_loop csz (S (length text)) text 0
  end.

(** The constant of rope.rs:6 and streaming.rs:6. *)
Definition CHUNK_SIZE : nat := N.to_nat 4096.

(** rope.rs:33-39 [RopeBuffer::new_with_id]. *)
Definition rope_new (csz : nat) (text : str) : option chunked :=
  match chunkify csz text with
  | None => None
  | Some chunks => Some (rebuild chunks)
  end.

(** rope.rs:144-151 [chunk_index]: chunk number and its start. *)
Definition chunk_index (r : chunked) (offset : nat) : option (nat * nat) :=
  let offset := Nat.min offset (ck_len r - 1) in
  match bsearch (ck_starts r) offset with
  | Found i => match nth_error (ck_starts r) i with Some s => Some (i, s) | None => None end
  | Missing 0 => Some (0, 0)
  | Missing (S i) => match nth_error (ck_starts r) i with Some s => Some (i, s) | None => None end
  end.

(** rope.rs:134-142 [boundary_index]. *)
Definition boundary_index (r : chunked) (offset : nat) : nat :=
  if ck_len r <=? offset then length (ck_chunks r)
  else match bsearch (ck_starts r) offset with Found i => i | Missing i => i end.

Definition is_nil (s : str) : bool := match s with [] => true | _ => false end.

(** rope.rs:105-132 [split_at]. *)
Definition split_at (r : chunked) (offset : nat) : option chunked :=
  if (offset =? 0) || (ck_len r <=? offset) then Some r
  else match chunk_index r offset with
  | None => None
  | Some (idx, start) =>
      let rel := offset - start in
      match nth_error (ck_chunks r) idx with
      | None => None
      | Some s =>
          if (rel =? 0) || (length s <=? rel) then Some r
          else match str_get s 0 rel with
          | None => Some r
          | Some lhs =>
              match str_get_from s rel with
              | None => Some r
              | Some rhs =>
                  if is_nil lhs || is_nil rhs then Some r
                  else Some (rebuild (firstn idx (ck_chunks r)
                                      ++ lhs :: rhs :: skipn (S idx) (ck_chunks r)))
              end
          end
      end
  end.

(** rope.rs:81-103 [replace_range]. *)
Definition rope_replace (csz : nat) (r : chunked) (a b : nat) (t : str) : option chunked :=
  let start := Nat.min a (ck_len r) in
  let end_ := Nat.max (Nat.min b (ck_len r)) start in
  match split_at r start with
  | None => None
  | Some r1 =>
      match split_at r1 end_ with
      | None => None
      | Some r2 =>
          let start_idx := boundary_index r2 start in
          let end_idx := boundary_index r2 end_ in
          let chunks1 :=
            if start_idx <? end_idx
            then firstn start_idx (ck_chunks r2) ++ skipn end_idx (ck_chunks r2)
            else ck_chunks r2 in
          match t with
          | [] => Some (rebuild chunks1)
          | _ =>
              match chunkify csz t with
              | None => None
              | Some new_chunks =>
                  let insert_at := Nat.min start_idx (length chunks1) in
                  Some (rebuild (firstn insert_at chunks1 ++ new_chunks ++ skipn insert_at chunks1))
              end
          end
      end
  end.

(** rope.rs:47-74 [RopeBuffer::apply_edits_range]. *)
Definition rope_apply (csz : nat) (r : chunked) (es : list edit)
  : option (chunked * (nat * Z)) :=
  match es with
  | [] => Some (r, (ck_len r, Z.of_nat (ck_len r)))
  | _ =>
      let sorted := sort_edits es in
      let '(from, to, _) := fold_left range_step sorted (ck_len r, 0%Z, 0%Z) in
      match fold_right (fun e acc =>
              match acc with
              | None => None
              | Some r' => rope_replace csz r' (e_start e) (e_end e) (e_text e)
              end) (Some r) sorted with
      | None => None
      | Some r' => Some (r', (from, to))
      end
  end.

(** rope.rs:185-189, 241-250: index of the chunk containing an offset. *)
Definition find_chunk (starts : list nat) (offset : nat) : nat :=
  match bsearch starts offset with
  | Found i => i
  | Missing 0 => 0
  | Missing (S i) => i
  end.

(** rope.rs:181-192 (and 159-165, streaming.rs:60-71, 87-98) [chunk_at]:
    start offset and text of the chunk. *)
Definition chunk_at (r : chunked) (offset : nat) : option (nat * str) :=
  if ck_len r <=? offset then Some (ck_len r, [])
  else
    let idx := find_chunk (ck_starts r) offset in
    match nth_error (ck_starts r) idx, nth_error (ck_chunks r) idx with
    | Some start, Some text => Some (start, text)
    | _, _ => None
    end.

(** rope.rs:159-165: [RopeBuffer::chunk_at] goes through [chunk_index]. *)
Definition rope_chunk_at (r : chunked) (offset : nat) : option (nat * str) :=
  if ck_len r <=? offset then Some (ck_len r, [])
  else match chunk_index r offset with
  | None => None
  | Some (idx, start) =>
      match nth_error (ck_chunks r) idx with
      | Some text => Some (start, text)
      | None => None
      end
  end.

(** rope.rs:261-269: the multi-chunk copy loop, [i] counts the chunks. *)
Fixpoint copy_segments (starts : list nat) (start end_ start_idx end_idx i : nat)
  (chunks : list str) : option str :=
  match chunks with
  | [] => Some []
  | c :: r =>
      match nth_error starts i with
      | None => None
      | Some base =>
          let seg_start := if i =? start_idx then start - base else 0 in
          let seg_end := if i =? end_idx then end_ - base else length c in
          let seg := match str_get c seg_start seg_end with Some x => x | None => [] end in
          match copy_segments starts start end_ start_idx end_idx (S i) r with
          | None => None
          | Some rest => Some (seg ++ rest)
          end
      end
  end.

(** rope.rs:234-271 [text_in_chunks]. *)
Definition text_in_chunks (r : chunked) (a b : nat) : option str :=
  if (b <=? a) || (ck_len r <=? a) then Some []
  else
    let start := a in
    let end_ := Nat.min b (ck_len r) in
    let start_idx := find_chunk (ck_starts r) start in
    let end_idx := find_chunk (ck_starts r) end_ in
    if start_idx =? end_idx then
      match nth_error (ck_starts r) start_idx, nth_error (ck_chunks r) start_idx with
      | Some base, Some s =>
          Some (match str_get s (start - base) (end_ - base) with Some x => x | None => [] end)
      | _, _ => None
      end
    else
      copy_segments (ck_starts r) start end_ start_idx end_idx start_idx
        (firstn (end_idx - start_idx + 1) (skipn start_idx (ck_chunks r))).

(** text.rs:31-37 [SourceText::chunk_at]. *)
Definition flat_chunk_at (s : str) (offset : nat) : nat * str :=
  if length s <=? offset then (length s, [])
  else (offset, match str_get_from s offset with Some t => t | None => [] end).

(** text.rs:39-41 [SourceText::get_text_in] (and mod.rs:214-216 for [str]). *)
Definition flat_text_in (s : str) (a b : nat) : str :=
  match str_get s a b with Some t => t | None => [] end.

(** streaming.rs:38-47 [ChunkedBuffer::push_str]. *)
Definition push_chunk (b : chunked) (c : str) : chunked :=
  Chunked (ck_chunks b ++ [c]) (ck_starts b ++ [ck_len b]) (ck_len b + length c).

Definition push_str (csz : nat) (b : chunked) (t : str) : option chunked :=
  match t with
  | [] => Some b
  | _ => match chunkify csz t with
         | None => None
         | Some cs => Some (fold_left push_chunk cs b)
         end
  end.

Definition buffer_new : chunked := Chunked [] [] 0.

(** A streaming session: appends and snapshots (streaming.rs:38-52); the state
    keeps the buffer and every snapshot handed out, in order. *)
Inductive stream_op := Push (t : str) | Snapshot.

Definition stream_step (csz : nat) (st : option (chunked * list chunked)) (op : stream_op)
  : option (chunked * list chunked) :=
  match st with
  | None => None
  | Some (b, snaps) =>
      match op with
      | Push t => match push_str csz b t with Some b' => Some (b', snaps) | None => None end
      | Snapshot => Some (b, snaps ++ [b])
      end
  end.

Definition stream_run (csz : nat) (ops : list stream_op) : option (chunked * list chunked) :=
  fold_left (stream_step csz) ops (Some (buffer_new, [])).
