(** Model of the graph algorithms of projects/oak-visualize/src/graph/mod.rs.
    Identifiers are numbers, since they are only compared for equality; sizes, labels and weights are omitted.  The node
    table is the list of its keys in iteration order, which is arbitrary; a hash set is the list of its elements.
    [None] is a panic or exhausted fuel. *)
From Verif Require Import Base.

(** graph/mod.rs:90-94 *)
Record graph := Graph { gr_nodes : list nat; gr_edges : list (nat * nat); gr_directed : bool }.

Definition mem (x : nat) (l : list nat) : bool := existsb (Nat.eqb x) l.

(** graph/mod.rs:111-124 *)
Definition neighbors (g : graph) (n : nat) : list nat :=
  flat_map (fun e => (if fst e =? n then [snd e] else []) ++ (if negb (gr_directed g) && (snd e =? n) then [fst e] else [])) (gr_edges g).

(** graph/mod.rs:126-128 *)
Definition degree (g : graph) (n : nat) : nat := length (neighbors g n).

(** All identifiers that occur in the graph, to bound the loops. *)
Definition universe (g : graph) : list nat := nodup Nat.eq_dec (gr_nodes g ++ map fst (gr_edges g) ++ map snd (gr_edges g)).

(** graph/mod.rs:139-151: the loop over the stack (top first) *)
Fixpoint explore (fuel : nat) (g : graph) (stack visited : list nat) : option (list nat) :=
  match stack with
  | [] => Some visited
  | n :: rest =>
      match fuel with
      | 0 => None
      | S f =>
          if mem n visited then explore f g rest visited
          else
            let visited' := n :: visited in
            explore f g (rev (filter (fun m => negb (mem m visited')) (neighbors g n)) ++ rest) visited'
      end
  end.

Definition explore_fuel (g : graph) : nat := 2 + list_sum (map (degree g) (universe g)).

(** graph/mod.rs:130-154 *)
Definition is_connected (g : graph) : option bool :=
  match gr_nodes g with
  | [] => Some true
  | start :: _ =>
      match explore (explore_fuel g) g [start] [] with
      | Some visited => Some (length visited =? length (gr_nodes g))
      | None => None
      end
  end.

(** State of the search for cycles: visited nodes, the recursion stack as a set, the path (last node first) and the cycles
    found (last first). *)
Record search := Search { se_visited : list nat; se_stack : list nat; se_path : list nat; se_cycles : list (list nat) }.

(** [path\[cycle_start..\]] for the first position of the node *)
Fixpoint from_first (n : nat) (path : list nat) : option (list nat) :=
  match path with
  | [] => None
  | m :: r => if m =? n then Some path else from_first n r
  end.

(** graph/mod.rs:172-191 *)
Fixpoint dfs (fuel : nat) (g : graph) (n : nat) (s : search) : option search :=
  match fuel with
  | 0 => None
  | S f =>
      let fix loop (ns : list nat) (s : search) : option search :=
        match ns with
        | [] => Some s
        | m :: ns' =>
            if negb (mem m (se_visited s)) then
              match dfs f g m s with Some s' => loop ns' s' | None => None end
            else if mem m (se_stack s) then
              match from_first m (rev (se_path s)) with
              | Some c => loop ns' (Search (se_visited s) (se_stack s) (se_path s) (c :: se_cycles s))
              | None => loop ns' s
              end
            else loop ns' s
        end in
      match loop (neighbors g n) (Search (n :: se_visited s) (n :: se_stack s) (n :: se_path s) (se_cycles s)) with
      | None => None
      | Some s' => Some (Search (se_visited s') (filter (fun m => negb (m =? n)) (se_stack s')) (tl (se_path s')) (se_cycles s'))
      end
  end.

(** graph/mod.rs:156-169 *)
Fixpoint find_from (fuel : nat) (g : graph) (keys : list nat) (s : search) : option search :=
  match keys with
  | [] => Some s
  | n :: r =>
      if mem n (se_visited s) then find_from fuel g r s
      else match dfs fuel g n s with Some s' => find_from fuel g r s' | None => None end
  end.
Definition find_cycles (g : graph) : option (list (list nat)) :=
  match find_from (S (length (universe g))) g (gr_nodes g) (Search [] [] [] []) with
  | Some s => Some (rev (se_cycles s))
  | None => None
  end.

(** The in-degree table, in iteration order; removing an entry keeps the order of the others. *)
Definition table := list (nat * nat).
Definition decrement (v : nat) (t : table) : table := map (fun p => if fst p =? v then (fst p, snd p - 1) else p) t.
Definition increment (v : nat) (t : table) : option table :=
  if mem v (map fst t) then Some (map (fun p => if fst p =? v then (fst p, snd p + 1) else p) t) else None.
Definition remove_key (v : nat) (t : table) : table := filter (fun p => negb (fst p =? v)) t.

(** graph/mod.rs:517-519 *)
Fixpoint count_degrees (es : list (nat * nat)) (t : table) : option table :=
  match es with
  | [] => Some t
  | e :: r => match increment (snd e) t with Some t' => count_degrees r t' | None => None end
  end.

(** [Iterator::min_by_key]: the first of the least *)
Fixpoint min_entry (best : nat * nat) (t : table) : nat * nat :=
  match t with
  | [] => best
  | p :: r => min_entry (if snd p <? snd best then p else best) r
  end.

(** graph/mod.rs:539-550 *)
Definition take_out (es : list (nat * nat)) (t : table) (n : nat) : table :=
  fold_left (fun t e => if fst e =? n then decrement (snd e) t else t) es (remove_key n t).

(** graph/mod.rs:522-553 *)
Fixpoint peel (fuel : nat) (es : list (nat * nat)) (t : table) : option (list (list nat)) :=
  match t with
  | [] => Some []
  | p :: r =>
      match fuel with
      | 0 => None
      | S f =>
          let zero := map fst (filter (fun p => snd p =? 0) t) in
          let layer := match zero with [] => [fst (min_entry p r)] | _ => zero end in
          match peel f es (fold_left (take_out es) layer t) with
          | Some layers => Some (layer :: layers)
          | None => None
          end
      end
  end.

(** graph/mod.rs:507-556 [topological_layers] *)
Definition topological_layers (g : graph) : option (list (list nat)) :=
  match count_degrees (gr_edges g) (map (fun n => (n, 0)) (gr_nodes g)) with
  | None => None
  | Some t => peel (length (gr_nodes g)) (gr_edges g) t
  end.
