(** Model of the bridge from syntax trees to drawings in projects/oak-visualize/src/tree/mod.rs.

    A drawn node is a [vtree] of GeoModel: its identifier is the number N of the string "node_N"
    ([node_name] below), and attributes and the words "node" and "leaf" of its type are left out.
    [label] is what the [Debug] output of a kind is. *)
From Verif Require Import Base Utf8 TreeModel GeoModel HiModel.

(** tree/mod.rs:15-17: what [format!] makes of the counter *)
Definition node_name (n : nat) : str := lit "node_" ++ dec n.

Section Draw.
Variable label : nat -> str.

(** tree/mod.rs:79-92 [TreeNode::from(&GreenTree)].  [grants] are the numbers the counter will give to
    this thread; [None] if more are asked for than are listed. *)
Fixpoint draw_green (t : green) (grants : list nat) : option (vtree * list nat) :=
  match grants with
  | [] => None
  | id :: g =>
      match t with
      | GLeaf k _ _ => Some (VNode id (label k) None [], g)
      | GNode k _ ch =>
          match (fix each (l : list green) (g : list nat) : option (list vtree * list nat) :=
                   match l with
                   | [] => Some ([], g)
                   | c :: r =>
                       match draw_green c g with
                       | None => None
                       | Some (v, g1) =>
                           match each r g1 with
                           | None => None
                           | Some (vs, g2) => Some (v :: vs, g2)
                           end
                       end
                   end) ch g with
          | None => None
          | Some (cs, g') => Some (VNode id (label k) None cs, g')
          end
      end
  end.

(** Drawings made one after the other. *)
Fixpoint draw_list (l : list green) (g : list nat) : option (list vtree * list nat) :=
  match l with
  | [] => Some ([], g)
  | c :: r =>
      match draw_green c g with
      | None => None
      | Some (v, g1) =>
          match draw_list r g1 with
          | None => None
          | Some (vs, g2) => Some (v :: vs, g2)
          end
      end
  end.

(** tree/mod.rs:94-107 [TreeNode::from(&RedTree)]; [None] also if the fuel, a bound on the depth, is spent *)
Fixpoint draw_red (fuel : nat) (r : red) (grants : list nat) : option (vtree * list nat) :=
  match fuel, grants with
  | S f, id :: g =>
      match r with
      | RLeaf k _ _ => Some (VNode id (label k) None [], g)
      | RNode k _ _ _ =>
          match (fix each (l : list red) (g : list nat) : option (list vtree * list nat) :=
                   match l with
                   | [] => Some ([], g)
                   | c :: r =>
                       match draw_red f c g with
                       | None => None
                       | Some (v, g1) =>
                           match each r g1 with
                           | None => None
                           | Some (vs, g2) => Some (v :: vs, g2)
                           end
                       end
                   end) (red_children r) g with
          | None => None
          | Some (cs, g') => Some (VNode id (label k) None cs, g')
          end
      end
  | _, _ => None
  end.
End Draw.

(** tree/mod.rs:13-16: the counter shared by all threads.  [schedule] says which thread performs each
    [fetch_add], which wraps around at 2^64; the result is what thread [i] gets. *)
Fixpoint grants_of (next : N) (schedule : list nat) (i : nat) : list nat :=
  match schedule with
  | [] => []
  | j :: r =>
      let rest := grants_of ((next + 1) mod 2 ^ 64)%N r i in
      if j =? i then N.to_nat next :: rest else rest
  end.

(** tree/mod.rs:55-57 *)
Definition v_is_leaf (t : vtree) : bool := match v_children t with [] => true | _ => false end.

(** tree/mod.rs:59-61 *)
Fixpoint v_depth (t : vtree) : nat :=
  match t with
  | VNode _ _ _ [] => 1
  | VNode _ _ _ cs => 1 + (fix most (l : list vtree) : nat := match l with [] => 0 | c :: r => Nat.max (v_depth c) (most r) end) cs
  end.

(** tree/mod.rs:63-65 *)
Fixpoint v_count (t : vtree) : nat :=
  match t with
  | VNode _ _ _ cs => 1 + (fix sum (l : list vtree) : nat := match l with [] => 0 | c :: r => v_count c + sum r end) cs
  end.

(** tree/mod.rs:67-69 *)
Fixpoint v_leaves (t : vtree) : nat :=
  match t with
  | VNode _ _ _ [] => 1
  | VNode _ _ _ cs => (fix sum (l : list vtree) : nat := match l with [] => 0 | c :: r => v_leaves c + sum r end) cs
  end.
