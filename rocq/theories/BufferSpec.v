(** What emitting pieces means, on characters. *)
From Verif Require Import Base Utf8.
Local Open Scope Z_scope.

Section Alnum.
Variable alnum : Z -> bool.

(** Word characters: letters, digits, underscore. *)
Definition word (c : Z) : bool := alnum c || (c =? 95).
Definition starts_in_word (p : list Z) : bool := match p with [] => false | c :: _ => word c end.
Definition ends_in_word (p : list Z) : bool := match rev p with [] => false | c :: _ => word c end.

(** Two pieces are separated by one space exactly if word meets word. *)
Definition join (a b : list Z) : list Z :=
  a ++ (if ends_in_word a && starts_in_word b then [32] else []) ++ b.

Definition join_nonempty (a b : list Z) : list Z :=
  match b with [] => a | _ => join a b end.

(** The maximal runs of word characters of a text, in order. *)
Fixpoint runs (cur : list Z) (cs : list Z) : list (list Z) :=
  match cs with
  | [] => match cur with [] => [] | _ => [cur] end
  | c :: cs' =>
      if word c then runs (cur ++ [c]) cs'
      else (match cur with [] => [] | _ => [cur] end) ++ runs [] cs'
  end.
Definition words (cs : list Z) : list (list Z) := runs [] cs.
End Alnum.
