(** UTF-8 strings as byte lists.

    A Rust [&str] is modelled by the list of its bytes, each byte a [Z].
    [encode] is [char::encode_utf8], [decode1] is core's [next_code_point]
    (used by [str::chars]) and [is_boundary] is [str::is_char_boundary].
    These are Rust standard library functions on which the oak code relies. *)
From Verif Require Import Base.
Local Open Scope Z_scope.

Definition str := list Z.

(** Unicode scalar values (Rust [char]). *)
Definition is_scalar (c : Z) : Prop :=
  0 <= c < 0xD800 \/ 0xE000 <= c <= 0x10FFFF.

Definition is_scalarb (c : Z) : bool :=
  ((0 <=? c) && (c <? 0xD800)) || ((0xE000 <=? c) && (c <=? 0x10FFFF)).

(** [char::len_utf8] *)
Definition char_len (c : Z) : nat :=
  if c <? 0x80 then 1%nat
  else if c <? 0x800 then 2%nat
  else if c <? 0x10000 then 3%nat
  else 4%nat.

(** [char::len_utf16] *)
Definition char_len16 (c : Z) : nat :=
  if c <? 0x10000 then 1%nat else 2%nat.

(** [char::encode_utf8] *)
Definition encode_char (c : Z) : str :=
  if c <? 0x80 then [c]
  else if c <? 0x800 then [0xC0 + c / 64; 0x80 + c mod 64]
  else if c <? 0x10000 then
    [0xE0 + c / 4096; 0x80 + (c / 64) mod 64; 0x80 + c mod 64]
  else
    [0xF0 + c / 262144; 0x80 + (c / 4096) mod 64; 0x80 + (c / 64) mod 64;
     0x80 + c mod 64].

Fixpoint encode (cs : list Z) : str :=
  match cs with
  | [] => []
  | c :: cs' => encode_char c ++ encode cs'
  end.

(** A well-formed Rust string: the encoding of some list of scalar values. *)
Definition valid (s : str) : Prop :=
  exists cs, Forall is_scalar cs /\ s = encode cs.

(** Continuation bytes [0x80..=0xBF]. *)
Definition is_cont (b : Z) : bool := (0x80 <=? b) && (b <? 0xC0).

(** [str::is_char_boundary] *)
Definition is_boundary (s : str) (i : nat) : bool :=
  match i with
  | O => true
  | _ => match nth_error s i with
         | Some b => negb (is_cont b)
         | None => Nat.eqb i (length s)
         end
  end.

(** core [next_code_point]: decodes the first character, returns it with the
    remaining bytes. [None] on the empty string (and on truncated input,
    which a valid string never contains). *)
Definition decode1 (s : str) : option (Z * str) :=
  match s with
  | [] => None
  | x :: s1 =>
      if x <? 0x80 then Some (x, s1)
      else match s1 with
      | [] => None
      | y :: s2 =>
          if x <? 0xE0 then Some ((x mod 32) * 64 + y mod 64, s2)
          else match s2 with
          | [] => None
          | z :: s3 =>
              if x <? 0xF0 then
                Some ((x mod 32) * 4096 + (y mod 64) * 64 + z mod 64, s3)
              else match s3 with
              | [] => None
              | w :: s4 =>
                  Some ((x mod 8) * 262144 + (y mod 64) * 4096
                        + (z mod 64) * 64 + w mod 64, s4)
              end
          end
      end
  end.

(** [str::chars().collect()]; fuel is the byte length, which suffices because
    every character takes at least one byte. *)
Fixpoint chars_fuel (fuel : nat) (s : str) : list Z :=
  match fuel with
  | O => []
  | S f => match decode1 s with
           | None => []
           | Some (c, r) => c :: chars_fuel f r
           end
  end.

Definition chars (s : str) : list Z := chars_fuel (length s) s.

(** [&s[a..b]] for in-range bounds, as bytes. *)
Definition substr (s : str) (a b : nat) : str := firstn (b - a) (skipn a s).

(** [str::get(a..b)] *)
Definition str_get (s : str) (a b : nat) : option str :=
  if (a <=? b)%nat && (b <=? length s)%nat && is_boundary s a && is_boundary s b
  then Some (substr s a b) else None.

(** [str::get(a..)] *)
Definition str_get_from (s : str) (a : nat) : option str :=
  if (a <=? length s)%nat && is_boundary s a then Some (skipn a s) else None.

(** [String::replace_range(a..b, t)]; [None] is a panic. *)
Definition replace_range (s : str) (a b : nat) (t : str) : option str :=
  if (a <=? b)%nat && (b <=? length s)%nat && is_boundary s a && is_boundary s b
  then Some (firstn a s ++ t ++ skipn b s) else None.

(** Coq string literals as byte lists, for examples. *)
From Coq Require String Ascii.
Export String.StringSyntax.

Fixpoint lit (s : String.string) : str :=
  match s with
  | String.EmptyString => []
  | String.String a s' => Z.of_nat (Ascii.nat_of_ascii a) :: lit s'
  end.
Delimit Scope string_scope with string.
Arguments lit s%string.
