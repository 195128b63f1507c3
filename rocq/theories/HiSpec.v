(** Specification of highlighting: scopes, tilings and the readers of the exported formats. *)
From Verif Require Import Base Utf8 VfsModel TreeModel TreeSpec HiModel JsonSpec.

(** ** Scopes *)
Definition ancestor (p s : str) : Prop := p <> [] /\ (s = p \/ exists r, s = p ++ lit "." ++ r).

(** The theme has [st] for [p], the longest of the ancestors of [s] it knows. *)
Definition best_ancestor (t : theme) (s p : str) (st : style) : Prop :=
  ancestor p s /\ mget str_eqb t p = Some st /\
  forall q st', ancestor q s -> mget str_eqb t q = Some st' -> length q <= length p.
Definition unknown (t : theme) (s : str) : Prop := forall p, ancestor p s -> mget str_eqb t p = None.

Definition dots (p : str) : nat := count_occ Z.eq_dec p 46%Z.

Definition default_style (t : theme) (st : style) : Prop :=
  mget str_eqb t (lit "none") = Some st \/ (mget str_eqb t (lit "none") = None /\ st = style_default).

(** ** Segments *)
Definition segment_span (s : segment) : nat * nat := (sg_start s, sg_end s).

(** ** What a browser shows of a piece of HTML: tags are dropped, entities decoded *)
Definition entities : list (list Z * Z) :=
  [(lit "&lt;", 60); (lit "&gt;", 62); (lit "&amp;", 38); (lit "&quot;", 34); (lit "&#39;", 39)]%Z.
Inductive shows : list Z -> list Z -> Prop :=
| SEnd : shows [] []
| STag t r x : ~ In 60%Z t -> ~ In 62%Z t -> shows r x -> shows (60%Z :: t ++ 62%Z :: r) x
| SEntity e c r x : In (e, c) entities -> shows r x -> shows (e ++ r) (c :: x)
| SChar c r x : c <> 60%Z -> c <> 62%Z -> c <> 38%Z -> shows r x -> shows (c :: r) (c :: x).

(** ** What a terminal shows: colour sequences are dropped *)
Inductive displays : list Z -> list Z -> Prop :=
| DEnd : displays [] []
| DCode codes r x : Forall (fun c => (48 <= c <= 57)%Z \/ c = 59%Z) codes -> displays r x ->
    displays (27%Z :: 91%Z :: codes ++ 109%Z :: r) x
| DChar c r x : c <> 27%Z -> displays r x -> displays (c :: r) (c :: x).

(** ** The JSON value of a segment *)
Definition decimal (text : list Z) (n : nat) : Prop :=
  jnumber text /\ fold_left (fun a c => 10 * a + (c - 48))%Z text 0%Z = Z.of_nat n.

Definition optional (key : list Z) (v : option (list Z)) : list (list Z * json) :=
  match v with Some s => [(key, JString s)] | None => [] end.

Definition segment_value (s : segment) (v : json) : Prop :=
  exists a b, decimal a (sg_start s) /\ decimal b (sg_end s) /\
  v = JObject
    [(lit "span", JObject [(lit "start", JNumber a); (lit "end", JNumber b)]);
     (lit "style", JObject ([(lit "bold", JBool (st_bold (sg_style s))); (lit "italic", JBool (st_italic (sg_style s)));
                             (lit "underline", JBool (st_underline (sg_style s)))] ++
                            optional (lit "color") (st_color (sg_style s)) ++
                            optional (lit "background_color") (st_background (sg_style s))));
     (lit "text", JString (sg_text s))].

Definition scalars (s : list Z) : Prop := Forall is_scalar s.
Definition style_scalars (s : style) : Prop :=
  (forall c, st_color s = Some c -> scalars c) /\ (forall c, st_background s = Some c -> scalars c).
