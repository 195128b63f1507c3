(** What an INI file is, for the properties of IniProps.v: sections and pairs of plain words and numbers, one per
    line.  This is the least any INI reader takes. *)
From Verif Require Import Base Utf8.

Inductive entry := Section_ (name : str) | Pair_ (key value : str).

Definition word (s : str) : Prop := s <> [] /\ Forall (fun c => (97 <= c <= 122)%Z) s.
Definition number (s : str) : Prop := s <> [] /\ Forall (fun c => (48 <= c <= 57)%Z) s.

Definition plain (e : entry) : Prop :=
  match e with
  | Section_ name => word name
  | Pair_ key value => word key /\ number value
  end.

Definition line (e : entry) : str :=
  match e with
  | Section_ name => lit "[" ++ name ++ lit "]" ++ [10%Z]
  | Pair_ key value => key ++ lit "=" ++ value ++ [10%Z]
  end.

Definition ini_file (es : list entry) : str := concat (map line es).
