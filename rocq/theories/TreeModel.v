(** Model of projects/oak-core/src/tree (green_tree.rs, red_tree.rs, cursor.rs) and
    projects/oak-core/src/visitor/mod.rs.

    Token kinds, element kinds and metadata handles are numbers.  References into the
    arena are values.  Lengths are [u32] in Rust; every stored length is below 2^32
    by its type, so the [as u32] / [as usize] casts below are the identity. *)
From Verif Require Import Base.

(** green_tree.rs:17-22, 108-118, 189-196 *)
Inductive green :=
| GLeaf (kind len : nat) (meta : option nat)
| GNode (kind tlen : nat) (children : list green).

(** green_tree.rs:69-74 [GreenTree::len] *)
Definition glen (t : green) : nat :=
  match t with GLeaf _ n _ => n | GNode _ n _ => n end.

Fixpoint sum_len (ch : list green) : nat :=
  match ch with [] => 0 | c :: r => glen c + sum_len r end.

Definition fits_u32 (n : nat) : bool := (N.of_nat n <? 4294967296)%N.

(** green_tree.rs:245-248 [GreenNode::new]; [None]: the u32 sum overflows (a panic
    in debug builds). *)
Definition new_node (kind : nat) (ch : list green) : option green :=
  if fits_u32 (sum_len ch) then Some (GNode kind (sum_len ch) ch) else None.

(** red_tree.rs:17-22, 121-126, 155-160; a node is shown with the fields of its green
    node. *)
Inductive red :=
| RNode (kind tlen : nat) (children : list green) (offset : nat)
| RLeaf (kind start end_ : nat).

(** The match shared by red_tree.rs:257-260, 331-334 and visitor/mod.rs:54-57 *)
Definition red_of (t : green) (offset : nat) : red :=
  match t with
  | GNode k n ch => RNode k n ch offset
  | GLeaf k n _ => RLeaf k offset (offset + n)
  end.

(** red_tree.rs:57-64, 214-216 [span] *)
Definition red_span (r : red) : nat * nat :=
  match r with
  | RNode _ n _ off => (off, off + n)
  | RLeaf _ a b => (a, b)
  end.

(** red_tree.rs:247-261 [child_at]; [None]: index out of bounds *)
Definition child_at (ch : list green) (off idx : nat) : option red :=
  match nth_error ch idx with
  | None => None
  | Some g => Some (red_of g (fold_left (fun o c => o + glen c) (firstn idx ch) off))
  end.

(** red_tree.rs:322-340: [RedChildren::next] run to the end; [index] and [off] are
    the iterator's fields. *)
Fixpoint children_from (fuel : nat) (ch : list green) (index off : nat) : list red :=
  match fuel with
  | O => []
  | S f =>
      match nth_error ch index with
      | None => []
      | Some c => red_of c off :: children_from f ch (S index) (off + glen c)
      end
  end.

(** red_tree.rs:90-95, 264-266 [children] *)
Definition red_children (r : red) : list red :=
  match r with
  | RNode _ _ ch off => children_from (S (length ch)) ch 0 off
  | RLeaf _ _ _ => []
  end.

(** red_tree.rs:281-287: the loop of [child_index_at_offset] *)
Fixpoint index_loop (rel : nat) (ch : list green) (idx pos : nat) : option nat :=
  match ch with
  | [] => None
  | c :: r => if rel <? pos + glen c then Some idx else index_loop rel r (S idx) (pos + glen c)
  end.

(** red_tree.rs:273-290 *)
Definition child_index_at_offset (tlen : nat) (ch : list green) (self_off offset : nat) : option nat :=
  if (offset <? self_off) || (self_off + tlen <=? offset) then None
  else index_loop (offset - self_off) ch 0 0.

(** red_tree.rs:297-299 *)
Definition child_at_offset (tlen : nat) (ch : list green) (self_off offset : nat) : option red :=
  match child_index_at_offset tlen ch self_off offset with
  | None => None
  | Some idx => child_at ch self_off idx
  end.

(** red_tree.rs:308-316; outer [None]: the loop needs more than [fuel] rounds. *)
Fixpoint leaf_at_offset (fuel : nat) (tlen : nat) (ch : list green) (self_off offset : nat)
  : option (option (nat * nat * nat)) :=
  match fuel with
  | O => None
  | S f =>
      match child_at_offset tlen ch self_off offset with
      | None => Some None
      | Some (RNode _ n ch' off') => leaf_at_offset f n ch' off' offset
      | Some (RLeaf k a b) => Some (Some (k, a, b))
      end
  end.

(** cursor.rs:17-25: a frame is (parent kind, length, children, index, parent offset) *)
Record frame := Frame { fr_kind : nat; fr_len : nat; fr_children : list green;
                        fr_index : nat; fr_offset : nat }.
Record tcursor := TCursor { tc_current : green; tc_offset : nat; tc_stack : list frame }.

(** cursor.rs:29-31 *)
Definition tc_new (root : green) : tcursor := TCursor root 0 [].

(** cursor.rs:68-83 *)
Definition step_into (c : tcursor) : bool * tcursor :=
  match tc_current c with
  | GNode k n ch =>
      match ch with
      | first :: _ => (true, TCursor first (tc_offset c) (Frame k n ch 0 (tc_offset c) :: tc_stack c))
      | [] => (false, c)
      end
  | GLeaf _ _ _ => (false, c)
  end.

(** cursor.rs:87-108 *)
Definition step_over (c : tcursor) : bool * tcursor :=
  match tc_stack c with
  | Frame k n ch idx po :: st =>
      match nth_error ch (idx + 1) with
      | Some sibling =>
          (true, TCursor sibling (tc_offset c + glen (tc_current c)) (Frame k n ch (idx + 1) po :: st))
      | None => (false, c)
      end
  | [] => (false, c)
  end.

(** cursor.rs:112-121 *)
Definition step_out (c : tcursor) : bool * tcursor :=
  match tc_stack c with
  | Frame k n ch _ po :: st => (true, TCursor (GNode k n ch) po st)
  | [] => (false, c)
  end.

(** cursor.rs:132-136, 148-152: [while self.step_out() { if self.step_over() { return true } } false];
    every round pops a frame, so the stack height is enough fuel. *)
Fixpoint out_over (fuel : nat) (c : tcursor) : bool * tcursor :=
  match fuel with
  | O => (false, c)
  | S f =>
      let '(up, c1) := step_out c in
      if up then let '(ok, c2) := step_over c1 in if ok then (true, c2) else out_over f c2
      else (false, c1)
  end.

(** cursor.rs:142-154 *)
Definition step_next (c : tcursor) : bool * tcursor :=
  let '(ok, c1) := step_over c in
  if ok then (true, c1) else out_over (S (length (tc_stack c1))) c1.

(** cursor.rs:125-138 *)
Definition step (c : tcursor) : bool * tcursor :=
  let '(ok, c1) := step_into c in
  if ok then (true, c1)
  else let '(ok, c2) := step_over c1 in
       if ok then (true, c2) else out_over (S (length (tc_stack c2))) c2.

(** [loop { use(c.current(), c.offset()); if !c.step() { break } }]: what is seen, and
    the cursor at the end; [None]: more than [fuel] elements. *)
Fixpoint cursor_walk (fuel : nat) (c : tcursor) : option (list (green * nat) * tcursor) :=
  match fuel with
  | O => None
  | S f =>
      let '(more, c') := step c in
      if more then
        match cursor_walk f c' with
        | Some (l, e) => Some ((tc_current c, tc_offset c) :: l, e)
        | None => None
        end
      else Some ([(tc_current c, tc_offset c)], c')
  end.

(** visitor/mod.rs:52-58: push the children from last to first, [offset] running
    backwards; the stack top is the list head; [None]: underflow panic *)
Fixpoint push_rev (rch : list green) (offset : nat) (st : list red) : option (list red) :=
  match rch with
  | [] => Some st
  | c :: r => if offset <? glen c then None
              else push_rev r (offset - glen c) (red_of c (offset - glen c) :: st)
  end.

(** visitor/mod.rs:45-63 [PreOrder::next] run to the end; outer [None]: a panic or more
    than [fuel] elements *)
Fixpoint preorder_run (fuel : nat) (st : list red) : option (list red) :=
  match fuel with
  | O => match st with [] => Some [] | _ => None end
  | S f =>
      match st with
      | [] => Some []
      | next :: st' =>
          match (match next with
                 | RNode _ n ch off => push_rev (rev ch) (off + n) st'
                 | RLeaf _ _ _ => Some st'
                 end) with
          | None => None
          | Some st'' => match preorder_run f st'' with
                         | Some l => Some (next :: l) | None => None end
          end
      end
  end.

(** visitor/mod.rs:19-26 [walk_node] for a visitor that records each element and
    walks into every node (the usual [visit_node] implementation); [None]: deeper
    than [fuel]. *)
Fixpoint visit (fuel : nat) (r : red) : option (list red) :=
  match fuel with
  | O => None
  | S f =>
      match r with
      | RLeaf _ _ _ => Some [r]
      | RNode _ _ _ _ =>
          match fold_right (fun c acc =>
                  match visit f c, acc with
                  | Some l, Some a => Some (l ++ a)
                  | _, _ => None
                  end) (Some []) (red_children r) with
          | Some l => Some (r :: l)
          | None => None
          end
      end
  end.
