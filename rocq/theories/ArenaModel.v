(** Model of projects/oak-core/src/memory/arena.rs: the bump allocator and its per-thread pool of
    chunks.

    Addresses and sizes are integers; [Layout] bounds sizes by isize::MAX and addresses are far below
    2^64, so [usize] sums do not wrap.  The system allocator is an oracle: the address it would return is
    an input of each allocation ([sys]), constrained in the specification.  Memory contents are not
    modelled.  Only threads whose thread-local pool is reachable are modelled ([try_with] succeeds). *)
From Verif Require Import Base.
Open Scope Z_scope.

(** arena.rs:47, 51, 330 *)
Definition CHUNK_SIZE : Z := 64 * 1024.
Definition ALIGN : Z := 8.
Definition POOL_LIMIT : nat := 64.

(** NonNull::<u8>::dangling(): the alignment of u8 *)
Definition DANGLING : Z := 1.

(** [(x + ALIGN - 1) & !(ALIGN - 1)], arena.rs:224, 267 *)
Definition align_up (x : Z) : Z := Z.land (x + ALIGN - 1) (Z.lnot (ALIGN - 1)).

(** arena.rs:71-84 *)
Record arena := Arena { a_ptr : Z; a_end : Z; a_start : Z; a_full : list (Z * Z); a_meta : list nat }.

(** arena.rs:91-95 *)
Definition arena_new : arena := Arena ALIGN ALIGN DANGLING [] [].

(** arena.rs:98-102; [None]: the handle would be zero (the [expect] panics) *)
Definition add_metadata (a : arena) (m : nat) : option (Z * arena) :=
  let meta := a_meta a ++ [m] in
  let h := Z.of_nat (length meta) mod 2 ^ 32 in
  if h =? 0 then None else Some (h, Arena (a_ptr a) (a_end a) (a_start a) (a_full a) meta).

(** arena.rs:105-108; handles are non-zero *)
Definition get_metadata (a : arena) (h : Z) : option nat := nth_error (a_meta a) (Z.to_nat h - 1).

(** The state of the process: arenas by number ([None] once dropped), the pool of each thread, the
    blocks obtained from the system allocator and not returned. *)
Record world := World { w_arenas : list (option arena); w_pools : list (list Z); w_sys : list (Z * Z) }.

Definition set_nth {A} (l : list A) (i : nat) (x : A) : list A := firstn i l ++ x :: skipn (S i) l.

Definition pool (w : world) (t : nat) : list Z := nth t (w_pools w) [].

(** arena.rs:277-296 [alloc_chunk] on thread [t]: the pool is a stack, its top is the head here *)
Definition alloc_chunk (w : world) (t : nat) (size sys : Z) : Z * world :=
  match (if size =? CHUNK_SIZE then pool w t else []) with
  | p :: rest => (p, World (w_arenas w) (set_nth (w_pools w) t rest) (w_sys w))
  | [] => (sys, World (w_arenas w) (w_pools w) ((sys, size) :: w_sys w))
  end.

(** arena.rs:241-274 *)
Definition alloc_slow (w : world) (t : nat) (a : arena) (size sys : Z) : Z * arena * world :=
  let full := if a_start a =? DANGLING then a_full a
              else a_full a ++ [(a_start a, a_end a - a_start a)] in
  let alloc_size := Z.max (size + ALIGN) CHUNK_SIZE in
  let '(chunk, w1) := alloc_chunk w t alloc_size sys in
  (chunk, Arena (align_up (chunk + size)) (chunk + alloc_size) chunk full (a_meta a), w1).

(** arena.rs:210-233 *)
Definition alloc_raw (w : world) (t : nat) (a : arena) (size sys : Z) : Z * arena * world :=
  let next := align_up (a_ptr a + size) in
  if next <=? a_end a then (a_ptr a, Arena next (a_end a) (a_start a) (a_full a) (a_meta a), w)
  else alloc_slow w t a size sys.

(** arena.rs:325-344 [recycle_chunk] *)
Definition remove_block (l : list (Z * Z)) (b : Z * Z) : list (Z * Z) :=
  filter (fun x => negb ((fst x =? fst b) && (snd x =? snd b))) l.
Definition recycle_chunk (w : world) (t : nat) (ptr size : Z) : world :=
  if size =? CHUNK_SIZE
  then if (length (pool w t) <? POOL_LIMIT)%nat
       then World (w_arenas w) (set_nth (w_pools w) t (ptr :: pool w t)) (w_sys w)
       else w
  else World (w_arenas w) (w_pools w) (remove_block (w_sys w) (ptr, size)).

(** arena.rs:299-317 [Drop] *)
Definition drop_arena (w : world) (t : nat) (a : arena) : world :=
  let w1 := if a_start a =? DANGLING then w else recycle_chunk w t (a_start a) (a_end a - a_start a) in
  fold_left (fun w '(p, n) => recycle_chunk w t p n) (a_full a) w1.

(** What a program can do.  Thread ids and arena numbers that do not exist make no sense and give
    [None]; allocation is what [alloc], [alloc_slice_copy] and [alloc_slice_fill_iter] (122-199) do once
    the layout is known; the answer is the address. *)
Inductive event :=
| ENew                                      (* arena.rs:91 *)
| EAlloc (thread arena : nat) (size sys : Z)  (* arena.rs:122-199 *)
| EDrop (thread arena : nat).               (* arena.rs:299; arenas are [Send] (347) *)

Definition step (w : world) (e : event) : option (option Z * world) :=
  match e with
  | ENew => Some (None, World (w_arenas w ++ [Some arena_new]) (w_pools w) (w_sys w))
  | EAlloc t i size sys =>
      if (t <? length (w_pools w))%nat then
        match nth_error (w_arenas w) i with
        | Some (Some a) =>
            let '(p, a', w1) := alloc_raw w t a size sys in
            Some (Some p, World (set_nth (w_arenas w1) i (Some a')) (w_pools w1) (w_sys w1))
        | _ => None
        end
      else None
  | EDrop t i =>
      if (t <? length (w_pools w))%nat then
        match nth_error (w_arenas w) i with
        | Some (Some a) =>
            let w1 := drop_arena w t a in
            Some (None, World (set_nth (w_arenas w1) i None) (w_pools w1) (w_sys w1))
        | _ => None
        end
      else None
  end.

Definition world_new (threads : nat) : world := World [] (repeat [] threads) [].

(** End of a thread: the pool is a [Vec] of raw pointers without destructor (arena.rs:62-64), so its
    chunks are forgotten. *)
Definition thread_exit (w : world) (t : nat) : world :=
  World (w_arenas w) (set_nth (w_pools w) t []) (w_sys w).

(** [SyntaxArena] is declared [Sync] (arena.rs:348) and [alloc] takes [&self], so safe code may allocate from
    two threads at once.  [alloc_raw]'s fast path then is a read of the pointers (213-214) and a later
    write (227), with nothing in between to keep other threads out.  [alloc_store] answers [None] when the
    slow path would be taken. *)
Definition alloc_load (a : arena) : Z * Z := (a_ptr a, a_end a).
Definition alloc_store (a : arena) (seen : Z * Z) (size : Z) : option (Z * arena) :=
  let next := align_up (fst seen + size) in
  if next <=? snd seen
  then Some (fst seen, Arena next (a_end a) (a_start a) (a_full a) (a_meta a))
  else None.
