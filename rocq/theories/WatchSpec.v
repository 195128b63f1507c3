(** What the watcher is compared with. *)
From Verif Require Import Base Utf8 WatchModel.

(** [u] is watched after these acts: there is a [Watch] with nothing after it that ends it *)
Definition watched (acts : list act) (u : str) : Prop :=
  exists before after, acts = before ++ Watch u :: after /\ ~ In (Unwatch u) after /\ ~ In UnwatchAll after.
Definition below (u p : str) : Prop := p = u \/ exists rest, p = u ++ [47%Z] ++ rest.
Definition of_interest (acts : list act) (p : str) : Prop := exists u, watched acts u /\ below u p.

(** What is to be told about a path *)
Inductive news : ekind -> str -> vevent -> Prop :=
| NModify p : news KModify p (Changed p)
| NCreate p : news KCreate p (Created p)
| NRemove p : news KRemove p (Removed p).
(** One call for every path of interest, in order *)
Inductive told (acts : list act) (k : ekind) : list str -> list vevent -> Prop :=
| ToldNil : told acts k [] []
| ToldYes p ps v vs : of_interest acts p -> news k p v -> told acts k ps vs -> told acts k (p :: ps) (v :: vs)
| ToldNo p ps vs : (~ of_interest acts p \/ forall v, ~ news k p v) -> told acts k ps vs -> told acts k (p :: ps) vs.
