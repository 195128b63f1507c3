(** Model of projects/oak-core/src/source/simd.rs.

    A 32-lane vector is the list of its 32 bytes, a mask the list of lane
    booleans; [mask.all()], [mask.any()] and [mask.first_set()] act on that list.
    The block loop and the scalar tail loop of each function are transcribed
    separately, with the lane predicate and the scalar predicate of that
    function.  [None] in the loops means exhausted fuel. *)
From Verif Require Import Base Utf8.
Local Open Scope Z_scope.

Definition LANES : nat := 32.

(** [Mask::first_set] *)
Fixpoint first_set (m : list bool) : option nat :=
  match m with
  | [] => None
  | true :: _ => Some 0%nat
  | false :: m' => match first_set m' with Some i => Some (S i) | None => None end
  end.

Definition mask_all (m : list bool) : bool := forallb (fun b => b) m.
Definition mask_any (m : list bool) : bool := existsb (fun b => b) m.

(** Lane comparisons against a splat vector. *)
Definition lane_eq (x b : Z) : bool := b =? x.
Definition lane_ge (x b : Z) : bool := x <=? b.
Definition lane_le (x b : Z) : bool := b <=? x.

(** Common shape of the "skip" functions, simd.rs:37-63 etc.: [rest] is
    [text[i..]]; blocks while [i + LANES <= len], then the scalar loop. *)
Fixpoint skip_tail (scalar : Z -> bool) (rest : str) (i : nat) : nat :=
  match rest with
  | [] => i
  | b :: r => if negb (scalar b) then i else skip_tail scalar r (S i)
  end.

Fixpoint skip_blocks (fuel : nat) (lane scalar : Z -> bool) (rest : str) (i : nat) : option nat :=
  match fuel with
  | O => None
  | S f =>
      if (LANES <=? length rest)%nat then
        let mask := map lane (firstn LANES rest) in
        if negb (mask_all mask) then
          match first_set (map negb mask) with
          | Some idx => Some (i + idx)%nat
          | None => skip_blocks f lane scalar (skipn LANES rest) (i + LANES)
          end
        else skip_blocks f lane scalar (skipn LANES rest) (i + LANES)
      else Some (skip_tail scalar rest i)
  end.

Definition simd_skip (lane scalar : Z -> bool) (text : str) : option nat :=
  skip_blocks (S (length text)) lane scalar text 0.

(** Common shape of the "find" functions, simd.rs:9-33, 219-247. *)
Fixpoint find_tail (scalar : Z -> bool) (rest : str) (i : nat) : option nat :=
  match rest with
  | [] => None
  | b :: r => if scalar b then Some i else find_tail scalar r (S i)
  end.

Inductive find_result := FuelOut | Answer (r : option nat).

Fixpoint find_blocks (fuel : nat) (lane scalar : Z -> bool) (rest : str) (i : nat) : find_result :=
  match fuel with
  | O => FuelOut
  | S f =>
      if (LANES <=? length rest)%nat then
        let mask := map lane (firstn LANES rest) in
        match first_set mask with
        | Some idx => Answer (Some (i + idx)%nat)
        | None => find_blocks f lane scalar (skipn LANES rest) (i + LANES)
        end
      else Answer (find_tail scalar rest i)
  end.

(** Variant guarded by [mask.any()], simd.rs:231-235, 259-263. *)
Fixpoint find_blocks_any (fuel : nat) (lane scalar : Z -> bool) (rest : str) (i : nat) : find_result :=
  match fuel with
  | O => FuelOut
  | S f =>
      if (LANES <=? length rest)%nat then
        let mask := map lane (firstn LANES rest) in
        if mask_any mask then
          match first_set mask with
          | Some idx => Answer (Some (i + idx)%nat)
          | None => find_blocks_any f lane scalar (skipn LANES rest) (i + LANES)
          end
        else find_blocks_any f lane scalar (skipn LANES rest) (i + LANES)
      else Answer (find_tail scalar rest i)
  end.

(** simd.rs:9-33 *)
Definition find_byte (text : str) (needle : Z) : find_result :=
  find_blocks (S (length text)) (lane_eq needle) (fun b => b =? needle) text 0.

(** simd.rs:37-63 *)
Definition skip_byte (text : str) (byte : Z) : option nat :=
  simd_skip (lane_eq byte) (fun b => negb (negb (b =? byte))) text.

(** simd.rs:67-94 *)
Definition skip_two_bytes (text : str) (b1 b2 : Z) : option nat :=
  simd_skip (fun b => lane_eq b1 b || lane_eq b2 b)
            (fun b => negb (negb (b =? b1) && negb (b =? b2))) text.

(** simd.rs:98-125 *)
Definition skip_ascii_whitespace (text : str) : option nat :=
  simd_skip (fun b => lane_eq 32 b || lane_eq 9 b || lane_eq 10 b || lane_eq 13 b)
            (fun b => negb (negb (b =? 32) && negb (b =? 9) && negb (b =? 10) && negb (b =? 13)))
            text.

(** [u8::is_ascii_digit], [is_ascii_alphanumeric], [is_ascii_hexdigit] (std). *)
Definition is_ascii_digit (b : Z) : bool := (48 <=? b) && (b <=? 57).
Definition is_ascii_lower (b : Z) : bool := (97 <=? b) && (b <=? 122).
Definition is_ascii_upper (b : Z) : bool := (65 <=? b) && (b <=? 90).
Definition is_ascii_alphabetic (b : Z) : bool := is_ascii_lower b || is_ascii_upper b.
Definition is_ascii_alphanumeric (b : Z) : bool := is_ascii_alphabetic b || is_ascii_digit b.
Definition is_ascii_hexdigit (b : Z) : bool :=
  is_ascii_digit b || ((97 <=? b) && (b <=? 102)) || ((65 <=? b) && (b <=? 70)).

(** simd.rs:129-154 *)
Definition skip_ascii_digits (text : str) : option nat :=
  simd_skip (fun b => lane_ge 48 b && lane_le 57 b)
            (fun b => negb (negb (is_ascii_digit b))) text.

(** simd.rs:158-185 *)
Definition skip_ascii_ident_continue (text : str) : option nat :=
  simd_skip (fun b => (lane_ge 97 b && lane_le 122 b) || (lane_ge 65 b && lane_le 90 b)
                      || (lane_ge 48 b && lane_le 57 b) || lane_eq 95 b)
            (fun b => negb (negb (is_ascii_alphanumeric b) && negb (b =? 95))) text.

(** simd.rs:189-215 *)
Definition skip_ascii_hexdigits (text : str) : option nat :=
  simd_skip (fun b => (lane_ge 48 b && lane_le 57 b) || (lane_ge 97 b && lane_le 102 b)
                      || (lane_ge 65 b && lane_le 70 b))
            (fun b => negb (negb (is_ascii_hexdigit b))) text.

(** simd.rs:219-247 *)
Definition find_first_of_4 (text : str) (a b c d : Z) : find_result :=
  find_blocks_any (S (length text))
    (fun x => lane_eq a x || lane_eq b x || lane_eq c x || lane_eq d x)
    (fun x => (x =? a) || (x =? b) || (x =? c) || (x =? d)) text 0.

(** simd.rs:251-274: like a find, but the tail loop breaks with [i = len]. *)
Definition skip_until (text : str) (target : Z) : option nat :=
  match find_blocks_any (S (length text)) (lane_eq target) (fun b => b =? target) text 0 with
  | FuelOut => None
  | Answer (Some i) => Some i
  | Answer None => Some (length text)
  end.
