(** Specification of line and column positions, on the text alone. *)
From Verif Require Import Base Utf8 RopeModel CursorModel CursorSpec LineMapModel.
From Coq Require Import Sorting.Sorted.

(** The reader delivers [text]. *)
Definition reads (r : reader) (text : str) : Prop :=
  serves (rd_src r) text /\
  forall a b, a <= b -> b <= length text -> is_boundary text a = true -> is_boundary text b = true ->
    rd_text_in r a b = substr text a b.

(** A line begins at offset zero and after every line feed. *)
Definition begins_line (text : str) (x : nat) : Prop :=
  x = 0 \/ exists i, x = S i /\ nth_error text i = Some 10%Z.

(** Offset [o] is on line number [n] that begins at [s]: [n] line feeds come before [o], the last one
    just before [s]. *)
Definition feeds_before (text : str) (o : nat) : nat := count_occ Z.eq_dec (firstn o text) 10%Z.
Definition on_line (text : str) (o n s : nat) : Prop :=
  n = feeds_before text o /\ s <= o /\ begins_line text s /\ (forall i, s <= i < o -> nth_error text i <> Some 10%Z).

(** UTF-16 code units of a list of characters. *)
Definition utf16_len (cs : list Z) : nat := list_sum (map (fun c => if (c <? 65536)%Z then 1 else 2) cs).
