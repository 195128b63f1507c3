(** Specification of rule choice and of formatting. *)
From Verif Require Import Base Utf8 PrettyModel TreeModel TreeSpec FormatModel.

(** The rules that got into a set: each unless it conflicts with one already in. *)
Inductive registered (conflicts : rule -> rule -> bool) : list rule -> list rule -> Prop :=
| rg_nil : registered conflicts [] []
| rg_add rs acc r : registered conflicts rs acc ->
    (forall e, In e acc -> conflicts r e = false /\ conflicts e r = false) -> registered conflicts (rs ++ [r]) (acc ++ [r])
| rg_skip rs acc r : registered conflicts rs acc ->
    (exists e, In e acc /\ (conflicts r e = true \/ conflicts e r = true)) -> registered conflicts (rs ++ [r]) acc.

(** Rule number [i] goes before rule number [j]: higher priority, or as high and registered earlier. *)
Definition before (rs : list rule) (i j : nat) : Prop :=
  exists a b, nth_error rs i = Some a /\ nth_error rs j = Some b /\
    (r_priority b < r_priority a \/ r_priority a = r_priority b /\ i < j).

(** Rule number [i] decides: it applies, does not decline, and all before it do not apply or decline. *)
Definition decides (rs : list rule) (applies : rule -> bool) (apply : rule -> res (option doc)) (i : nat) (o : res (option doc)) : Prop :=
  (exists r, nth_error rs i = Some r /\ applies r = true /\ apply r = o /\ o <> Ok None) /\
  forall j r, before rs j i -> nth_error rs j = Some r -> applies r = false \/ apply r = Ok None.
