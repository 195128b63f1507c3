(** Byte-level meaning of scanning. *)
From Verif Require Import Base Utf8.
Local Open Scope Z_scope.

(** [i] is the length of the longest prefix of [s] whose bytes satisfy [p]. *)
Definition longest_run (p : Z -> Prop) (s : str) (i : nat) : Prop :=
  (i <= length s)%nat /\
  (forall k b, (k < i)%nat -> nth_error s k = Some b -> p b) /\
  (forall b, nth_error s i = Some b -> ~ p b).

(** [r] is the position of the first byte of [s] satisfying [p], if any. *)
Definition first_position (p : Z -> Prop) (s : str) (r : option nat) : Prop :=
  match r with
  | Some i => (exists b, nth_error s i = Some b /\ p b) /\
              (forall k b, (k < i)%nat -> nth_error s k = Some b -> ~ p b)
  | None => forall k b, nth_error s k = Some b -> ~ p b
  end.

Definition whitespace_byte (b : Z) : Prop := b = 32 \/ b = 9 \/ b = 10 \/ b = 13.
Definition digit_byte (b : Z) : Prop := 48 <= b <= 57.
Definition ident_byte (b : Z) : Prop :=
  97 <= b <= 122 \/ 65 <= b <= 90 \/ 48 <= b <= 57 \/ b = 95.
Definition hex_byte (b : Z) : Prop :=
  48 <= b <= 57 \/ 97 <= b <= 102 \/ 65 <= b <= 70.
