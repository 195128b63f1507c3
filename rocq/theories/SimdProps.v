(** Property C11: the block-wise scanners compute the byte-wise answer. *)
From Verif Require Import Base Utf8 SimdModel ScanSpec SimdProofs.
Local Open Scope Z_scope.

Theorem find_byte_correct : forall s x,
  exists r, find_byte s x = Answer r /\ first_position (fun b => b = x) s r.
Proof. exact find_byte_ok. Qed.
Print Assumptions find_byte_correct.

Theorem skip_byte_correct : forall s x,
  exists i, skip_byte s x = Some i /\ longest_run (fun b => b = x) s i.
Proof. intros s x. apply simd_skip_ok; lanes. Qed.
Print Assumptions skip_byte_correct.

Theorem skip_two_bytes_correct : forall s x y,
  exists i, skip_two_bytes s x y = Some i /\ longest_run (fun b => b = x \/ b = y) s i.
Proof. intros s x y. apply simd_skip_ok; lanes. Qed.
Print Assumptions skip_two_bytes_correct.

Theorem skip_whitespace_correct : forall s,
  exists i, skip_ascii_whitespace s = Some i /\ longest_run whitespace_byte s i.
Proof. intros s. apply simd_skip_ok; lanes. Qed.
Print Assumptions skip_whitespace_correct.

Theorem skip_digits_correct : forall s,
  exists i, skip_ascii_digits s = Some i /\ longest_run digit_byte s i.
Proof. intros s. apply simd_skip_ok; lanes. Qed.
Print Assumptions skip_digits_correct.

Theorem skip_ident_correct : forall s,
  exists i, skip_ascii_ident_continue s = Some i /\ longest_run ident_byte s i.
Proof. intros s. apply simd_skip_ok; lanes. Qed.
Print Assumptions skip_ident_correct.

Theorem skip_hex_correct : forall s,
  exists i, skip_ascii_hexdigits s = Some i /\ longest_run hex_byte s i.
Proof. intros s. apply simd_skip_ok; lanes. Qed.
Print Assumptions skip_hex_correct.

Theorem find_first_of_4_correct : forall s a b c d, exists r,
  find_first_of_4 s a b c d = Answer r /\
  first_position (fun x => x = a \/ x = b \/ x = c \/ x = d) s r.
Proof. exact find_first_of_4_ok. Qed.
Print Assumptions find_first_of_4_correct.

Theorem skip_until_correct : forall s x, exists i,
  skip_until s x = Some i /\ longest_run (fun b => b <> x) s i.
Proof. exact skip_until_ok. Qed.
Print Assumptions skip_until_correct.

(** The specification determines the answer. *)
Theorem longest_run_determined : forall P s i j,
  longest_run P s i -> longest_run P s j -> i = j.
Proof. exact longest_run_unique. Qed.
Print Assumptions longest_run_determined.

Definition long_line : str := lit "identifier_number_0123456789_that_is_longer_than_a_vector = 1".

Example simd_example :
  skip_ascii_ident_continue long_line = Some 57%nat /\
  find_byte long_line 61 = Answer (Some 58%nat) /\
  find_first_of_4 long_line 1 2 3 49 = Answer (Some 19%nat) /\
  skip_until long_line 32 = Some 57%nat /\
  skip_ascii_hexdigits (lit "0123456789abcdefABCDEF0123456789abcdefg") = Some 38%nat.
Proof. repeat split; vm_compute; reflexivity. Qed.
