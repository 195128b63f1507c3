(** Specification of HTML reports: the tree a piece of HTML stands for, and the report found in a tree. *)
From Verif Require Import Base Utf8 HiSpec.

Inductive html :=
| HChar (c : Z)
| HElem (name : list Z) (class : option (list Z)) (kids : list html).

Definition letters (s : list Z) : Prop := s <> [] /\ Forall (fun c => (97 <= c <= 122)%Z) s.
(** The value of a class attribute needs no escaping. *)
Definition simple (s : list Z) : Prop := Forall (fun c => c <> 34 /\ c <> 38 /\ c <> 60 /\ c <> 62)%Z s.

Definition opening (name : list Z) (class : option (list Z)) : list Z :=
  [60%Z] ++ name ++ (match class with Some k => lit " class=""" ++ k ++ [34%Z] | None => [] end) ++ [62%Z].
Definition closing (name : list Z) : list Z := lit "</" ++ name ++ [62%Z].

(** Elements are closed in order; the other characters are written as themselves or as entities. *)
Inductive written : list Z -> list html -> Prop :=
| WEnd : written [] []
| WChar c s x : c <> 60%Z -> c <> 62%Z -> c <> 38%Z -> written s x -> written (c :: s) (HChar c :: x)
| WEntity e c s x : In (e, c) entities -> written s x -> written (e ++ s) (HChar c :: x)
| WElem name class b k s x : letters name -> (forall v, class = Some v -> simple v) -> written b k -> written s x ->
    written (opening name class ++ b ++ closing name ++ s) (HElem name class k :: x).

(** The characters a reader sees. *)
Fixpoint visible (t : html) : list Z :=
  match t with HChar c => [c] | HElem _ _ k => flat_map visible k end.
(** What is seen in the elements chosen by [f], in document order. *)
Fixpoint chosen (f : list Z -> option (list Z) -> bool) (t : html) : list (list Z) :=
  match t with
  | HChar _ => []
  | HElem n c k => (if f n c then [flat_map visible k] else []) ++ flat_map (chosen f) k
  end.
Definition same (a b : list Z) : bool := if list_eq_dec Z.eq_dec a b then true else false.
Definition of_class (k : list Z) (t : list html) : list (list Z) :=
  flat_map (chosen (fun _ c => match c with Some v => same v k | None => false end)) t.
Definition of_name (n : list Z) (t : list html) : list (list Z) := flat_map (chosen (fun m _ => same m n)) t.

(** The report read off a page: what is tagged, the message, every location with its listing, the help. *)
Definition reports (t : list html) (p : list Z) : Prop :=
  exists tag msg,
    of_class (lit "code") t ++ of_class (lit "severity") t = [tag] /\ of_class (lit "message") t = [msg] /\
    length (of_class (lit "location") t) = length (of_name (lit "pre") t) /\
    p = tag ++ lit " " ++ msg ++ [10%Z] ++
        concat (map (fun lp => fst lp ++ [10%Z] ++ snd lp) (combine (of_class (lit "location") t) (of_name (lit "pre") t))) ++
        concat (map (fun h => [10%Z] ++ h ++ [10%Z]) (of_class (lit "help") t)).

(** The first line of a text. *)
Fixpoint first_line (s : list Z) : list Z :=
  match s with [] => [] | c :: r => if (c =? 10)%Z then [] else c :: first_line r end.
