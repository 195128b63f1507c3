(** Theorems about the LLVM IR builder and printer. *)
From Verif Require Import Base Utf8 LexModel IniModel LlModel LlSpec LlBuildSpec.
From Verif Require LlProps LlBuildProofs.

(** ** C216: global variables, printed and read again *)
(** Global variables whose names are made of the characters of a name, whose types are one word and whose values are words with one blank
    between them, none with a quote or semicolon: the printed text is read without a diagnostic, and the builder gives them back. *)
Theorem llvm_globals_round_trip : forall alpha alnum gs, tables alpha alnum -> Forall (good_global alpha alnum) gs ->
  (Z.of_nat (length (encode (ll_print (map LItemGlobal gs)))) < 2 ^ 32)%Z ->
  ll_build alpha alnum (encode (ll_print (map LItemGlobal gs))) = Some (Some (map LItemGlobal gs), []).
Proof. intros alpha alnum gs Tb F L. exact (LlBuildProofs.globals_round alpha alnum Tb gs F L). Qed.
Print Assumptions llvm_globals_round_trip.

Lemma ascii_tables : tables ascii_alpha_c LlProps.ascii_alnum_c.
Proof.
  intros c _. unfold LlProps.ascii_alnum_c, ascii_alpha_c, ascii_digit_c, vletter, vdigit. rewrite !orb_true_iff, !andb_true_iff, !Z.leb_le. lia.
Qed.
Lemma ascii_plain c : (33 <= c < 128)%Z -> c <> 34%Z -> c <> 59%Z -> c <> 127%Z -> vplain ascii_alpha_c c.
Proof.
  intros H N1 N2 N3. split; [unfold is_scalar; lia|]. split; [|repeat split; try assumption; lia]. unfold char_is_whitespace.
  repeat match goal with |- context [(?a <=? ?b)%Z] => destruct (Z.leb_spec a b); try lia | |- context [(?a =? ?b)%Z] => destruct (Z.eqb_spec a b); try lia end; reflexivity.
Qed.
Definition sample_globals : list lglobal := [LGlobal (lit "x.1") (lit "i32") (lit "5") false; LGlobal (lit "p") (lit "ptr") (lit "@x.1, align 8") true; LGlobal (lit "z") (lit "i8") [] false].
Example llvm_globals_case : tables ascii_alpha_c LlProps.ascii_alnum_c /\ Forall (good_global ascii_alpha_c LlProps.ascii_alnum_c) sample_globals /\
  ll_print (map LItemGlobal sample_globals) = lit "@x.1 = global i32 5" ++ [10%Z] ++ lit "@p = constant ptr @x.1, align 8" ++ [10%Z] ++ lit "@z = global i8 " /\
  ll_build ascii_alpha_c LlProps.ascii_alnum_c (encode (ll_print (map LItemGlobal sample_globals))) = Some (Some (map LItemGlobal sample_globals), []).
Proof.
  split; [exact ascii_tables|]. split; [|split; vm_compute; reflexivity].
  assert (W : forall w, w <> [] -> forallb (fun c => (33 <=? c)%Z && (c <? 127)%Z && negb (c =? 34)%Z && negb (c =? 59)%Z) w = true -> vword ascii_alpha_c w).
  { intros w N H. split; [exact N|]. rewrite forallb_forall in H. apply Forall_forall. intros c I. specialize (H c I). rewrite !andb_true_iff, !negb_true_iff, Z.leb_le, Z.ltb_lt, !Z.eqb_neq in H. apply ascii_plain; lia. }
  assert (Nm : forall n, forallb (fun c => (c <? 128)%Z && (0 <=? c)%Z && (LlProps.ascii_alnum_c c || (c =? 46)%Z)) n = true -> Forall (fun c => is_scalar c /\ vname LlProps.ascii_alnum_c c) n).
  { intros n H. rewrite forallb_forall in H. apply Forall_forall. intros c I. specialize (H c I). rewrite !andb_true_iff, orb_true_iff, Z.ltb_lt, Z.leb_le, Z.eqb_eq in H. split; [unfold is_scalar; lia|]. destruct H as [_ [H | ->]]; [now left | right; now left]. }
  unfold sample_globals. constructor; [|constructor; [|constructor; [|constructor]]].
  - split; [discriminate|]. split; [apply Nm; reflexivity|]. split; [apply W; [discriminate | reflexivity]|]. exists [lit "5"]. split; [reflexivity|]. constructor; [apply W; [discriminate | reflexivity] | constructor].
  - split; [discriminate|]. split; [apply Nm; reflexivity|]. split; [apply W; [discriminate | reflexivity]|]. exists [lit "@x.1,"; lit "align"; lit "8"]. split; [reflexivity|]. constructor; [apply W; [discriminate | reflexivity]|]. constructor; [apply W; [discriminate | reflexivity]|]. constructor; [apply W; [discriminate | reflexivity] | constructor].
  - split; [discriminate|]. split; [apply Nm; reflexivity|]. split; [apply W; [discriminate | reflexivity]|]. exists []. split; [reflexivity | constructor].
Qed.

(** A comment behind the value becomes a part of the value, *)
Theorem llvm_comment_value_refuted : exists alpha alnum g, tables alpha alnum /\ lg_value g = lit "5 ; c" /\
  ll_build alpha alnum (lit "@x = global i32 5 ; c") = Some (Some [LItemGlobal g], []).
Proof. exists ascii_alpha_c, LlProps.ascii_alnum_c, (LGlobal (lit "x") (lit "i32") (lit "5 ; c") false). split; [exact ascii_tables|]. split; vm_compute; reflexivity. Qed.
Print Assumptions llvm_comment_value_refuted.
(** blanks within a string are lost, so that two constants become one, and an array type is cut after its first word, *)
Theorem llvm_string_blanks_refuted : exists alpha alnum a b g, tables alpha alnum /\ a = lit "c""a  b""" /\ b = lit "c""a b""" /\ a <> b /\ lg_ty g = lit "[4" /\
  ll_build alpha alnum (lit "@s = constant [4 x i8] " ++ a) = Some (Some [LItemGlobal g], []) /\
  ll_build alpha alnum (lit "@s = constant [4 x i8] " ++ b) = Some (Some [LItemGlobal g], []).
Proof.
  exists ascii_alpha_c, LlProps.ascii_alnum_c, (lit "c""a  b"""), (lit "c""a b"""), (LGlobal (lit "s") (lit "[4") (lit "x i8] c""a b""") true).
  split; [exact ascii_tables|]. split; [reflexivity|]. split; [reflexivity|]. split; [discriminate|]. split; [reflexivity|]. split; vm_compute; reflexivity.
Qed.
Print Assumptions llvm_string_blanks_refuted.
(** an equals sign in a comment makes the instruction before it the name of a result, *)
Definition one_line (i : str) : str := lit "define i32 @f() {" ++ [10%Z] ++ lit "  " ++ i ++ [10%Z] ++ lit "}" ++ [10%Z].
Theorem llvm_equals_comment_refuted : exists alpha alnum, tables alpha alnum /\
  ll_build alpha alnum (one_line (lit "ret i32 0 ; a=b")) =
    Some (Some [LItemFunction (LFunction (lit "f") (lit "i32") [] [LBlock None [LInst (Some (lit "ret i32 0 ; a")) (lit "b") []]])], []).
Proof. exists ascii_alpha_c, LlProps.ascii_alnum_c. split; [exact ascii_tables | vm_compute; reflexivity]. Qed.
Print Assumptions llvm_equals_comment_refuted.
(** and a function does not come back: its text is printed with a comma behind the type. *)
Theorem llvm_function_print_refuted : exists alpha alnum f, tables alpha alnum /\
  ll_build alpha alnum (one_line (lit "%r = add i32 %a, %b")) = Some (Some [LItemFunction f], []) /\ ll_print_function f = one_line (lit "%r = add i32, %a, %b").
Proof.
  exists ascii_alpha_c, LlProps.ascii_alnum_c, (LFunction (lit "f") (lit "i32") [] [LBlock None [LInst (Some (lit "r")) (lit "add") [lit "i32"; lit "%a"; lit "%b"]]]). split; [exact ascii_tables|]. split; vm_compute; reflexivity.
Qed.
Print Assumptions llvm_function_print_refuted.
