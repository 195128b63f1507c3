(** Specification of symbol tables, document symbols, references and workspace folders. *)
From Verif Require Import Base Utf8 TreeModel TreeSpec SymModel.

(** ** Histories of updates, newest first *)
Definition update := (str * list symbol)%type.

(** The symbols of a file after a history: those of its newest update. *)
Inductive current : list update -> str -> list symbol -> Prop :=
| CNever u : current [] u []
| CHere u l h : current ((u, l) :: h) u l
| COther u v l l' h : u <> v -> current h u l -> current ((v, l') :: h) u l.

(** [q] is the qualified name of [s]. *)
Definition named (q : str) (s : symbol) : Prop :=
  match sy_container s with
  | None => q = sy_name s
  | Some c => q = c ++ lit "::" ++ sy_name s
  end.

(** [s] is the last symbol of [l] named [q]. *)
Definition last_named (q : str) (l : list symbol) (s : symbol) : Prop :=
  exists l1 l2, l = l1 ++ s :: l2 /\ named q s /\ forall s', In s' l2 -> ~ named q s'.

(** No update ever gave a file a name that another file had at that time. *)
Inductive calm : list update -> Prop :=
| CalmNil : calm []
| CalmCons u l h : calm h ->
    (forall v lv q s s', v <> u -> current h v lv -> In s l -> In s' lv -> named q s -> ~ named q s') ->
    calm ((u, l) :: h).

Definition substring (p s : str) : Prop := exists a b, s = a ++ p ++ b.

(** ** Document symbols *)

(** Every element with its offset and the elements around it (innermost first), in document order. *)
Fixpoint scoped (t : green) (off : nat) (around : list (green * nat)) : list (green * nat * list (green * nat)) :=
  (t, off, around) ::
  match t with
  | GLeaf _ _ _ => []
  | GNode _ _ ch =>
      let inside := (t, off) :: around in
      (fix go off ch := match ch with
                        | [] => []
                        | c :: r => scoped c off inside ++ go (off + width c) r
                        end) off ch
  end.

Section Symbols.
  Variables (is_definition is_name : nat -> bool) (debug_kind : nat -> str) (text_in : nat -> nat -> str) (uri : str).

  Definition gkind_of (t : green) : nat := match t with GLeaf k _ _ => k | GNode k _ _ => k end.
  Definition is_node (t : green) : bool := match t with GLeaf _ _ _ => false | GNode _ _ _ => true end.
  Definition defines (t : green) : bool := is_node t && is_definition (gkind_of t).

  (** The direct children with their offsets. *)
  Definition children_at (t : green) (off : nat) : list (green * nat) :=
    match t with GLeaf _ _ _ => [] | GNode _ _ ch => lay (fun c o => [(c, o)]) off ch end.

  (** The name a definition goes by. *)
  Definition definition_name (t : green) (off : nat) : str :=
    match find (fun c => negb (is_node (fst c)) && is_name (gkind_of (fst c))) (children_at t off) with
    | Some (c, o) => text_in o (o + width c)
    | None => lit "<" ++ debug_kind (gkind_of t) ++ lit ">"
    end.

  (** The symbol of a definition among its surroundings. *)
  Definition symbol_of (e : green * nat * list (green * nat)) : symbol :=
    let '(t, off, around) := e in
    Symbol (definition_name t off) uri (off, off + width t)
      (match find (fun a => defines (fst a)) around with
       | Some (d, o) => Some (definition_name d o)
       | None => None
       end).

  Definition definitions_of (root : green) : list symbol :=
    map symbol_of (filter (fun e => defines (fst (fst e))) (scoped root 0 [])).
End Symbols.

(** ** References: the name tokens whose text is [name] *)
Definition refers (is_name : nat -> bool) (source name : str) (l : nat * nat * nat) : bool :=
  let '(k, a, b) := l in is_name k && (if list_eq_dec Z.eq_dec (substr source a b) name then true else false).

(** ** Paths *)

(** The names along a path: slashes separate, empty names and [.] do not count. *)
Definition ends_name (p : str) : Prop := match p with [] => True | c :: _ => c = 47%Z end.
Inductive names : str -> list str -> Prop :=
| NEnd : names [] []
| NSlash p l : names p l -> names (47%Z :: p) l
| NDot p l : ends_name p -> names p l -> names (46%Z :: p) l
| NName n p l : n <> [] -> n <> lit "." -> ~ In 47%Z n -> ends_name p -> names p l -> names (n ++ p) (n :: l).

Definition inside (path folder : str) : Prop :=
  exists l r, names folder l /\ names path (l ++ r).

Definition deeper (p q : str) : Prop := exists l m, names p l /\ names q m /\ length m < length l.

(** An absolute path without redundant slashes or dots, perhaps with a slash at the end. *)
Definition tidy (p : str) : Prop :=
  exists l, Forall (fun n => n <> [] /\ n <> lit "." /\ ~ In 47%Z n) l /\
    (p = flat_map (fun n => 47%Z :: n) l \/ p = flat_map (fun n => 47%Z :: n) l ++ lit "/").
