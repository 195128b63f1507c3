(** Model of projects/oak-semantic-search/src/lib.rs: the collector of chunks and the searcher. *)
From Verif Require Import Base Utf8 TreeModel.

(** lib.rs:36-47, with the role as a number *)
Record chunk := Chunk { ch_text : str; ch_start : nat; ch_end : nat; ch_role : nat }.

Section Collect.
  (** [kind.role().universal()], and the roles of lib.rs:74 (definitions, statements, documentation) *)
  Variable (role : nat -> nat) (wanted : nat -> bool) (source : str).

  (** lib.rs:70-84: what a node adds; [None]: the slice panics *)
  Definition chunk_here (kind a b : nat) : option (list chunk) :=
    if wanted (role kind) then
      match str_get source a b with
      | None => None
      | Some t => if 20 <? length t then Some [Chunk t a b (role kind)] else Some []
      end
    else Some [].

  (** lib.rs:68-89 [visit_node], [visit_token] with visitor/mod.rs:19-26 [walk_node]; [None]: a panic, or deeper than [fuel] *)
  Fixpoint collect (fuel : nat) (r : red) : option (list chunk) :=
    match fuel with
    | O => None
    | S f =>
        match r with
        | RLeaf _ _ _ => Some []
        | RNode kind n _ off =>
            match chunk_here kind off (off + n),
                  fold_right (fun c acc => match collect f c, acc with Some l, Some a => Some (l ++ a) | _, _ => None end) (Some []) (red_children r) with
            | Some l, Some rest => Some (l ++ rest)
            | _, _ => None
            end
        end
    end.
End Collect.

(** lib.rs:91-118: the searcher keeps nothing of what it is given *)
Definition searcher := unit.
Definition index_code (role : nat -> nat) (wanted : nat -> bool) (s : searcher) (fuel : nat) (root : red) (source : str) : option searcher :=
  option_map (fun _ => s) (collect role wanted source fuel root).
Definition search (s : searcher) (query : str) (limit : nat) : list str := [].
