(** Theorems about whole LLVM IR modules, printed and read again. *)
From Verif Require Import Base Utf8 LexModel IniModel LlModel LlSpec LlBuildSpec.
From Verif Require LlProps LlBuildProps LlModuleProofs.

(** ** C217: modules with functions, printed and read again *)
(** Globals and functions in any order and number: the printed text is read without a diagnostic, and the builder gives the module back, with
    the names, types, parameters, labels, results, opcodes and operands of its functions. *)
Theorem llvm_module_round_trip : forall alpha alnum items, tables alpha alnum -> Forall (good_item alpha alnum) items ->
  (Z.of_nat (length (encode (ll_print items))) < 2 ^ 32)%Z ->
  ll_build alpha alnum (encode (ll_print items)) = Some (Some items, []).
Proof. intros alpha alnum items Tb F L. exact (LlModuleProofs.module_round alpha alnum Tb items F L). Qed.
Print Assumptions llvm_module_round_trip.

(** Two modules of this form with the same text are the same. *)
Theorem llvm_print_injective : forall alpha alnum a b, tables alpha alnum -> Forall (good_item alpha alnum) a -> Forall (good_item alpha alnum) b ->
  (Z.of_nat (length (encode (ll_print a))) < 2 ^ 32)%Z -> ll_print a = ll_print b -> a = b.
Proof.
  intros alpha alnum a b Tb Fa Fb L E. pose proof (llvm_module_round_trip alpha alnum a Tb Fa L) as Ra. rewrite E in L, Ra.
  rewrite (llvm_module_round_trip alpha alnum b Tb Fb L) in Ra. congruence.
Qed.
Print Assumptions llvm_print_injective.

Definition sample_module : list litem :=
  [LItemGlobal (LGlobal (lit "g") (lit "i32") (lit "7") true);
   LItemFunction (LFunction (lit "f.1") (lit "i32") [LParam (lit "i32") (lit "a"); LParam (lit "ptr") (lit "b")]
     [LBlock None [LInst (Some (lit "r")) (lit "add") [lit "%a"; lit "<1,2>"; lit "k=v"]; LInst None (lit "fence") []];
      LBlock (Some (lit "done")) [LInst None (lit "ret") [lit "%r"]]; LBlock (Some (lit "last")) []]);
   LItemFunction (LFunction (lit "h") (lit "void") [] [])].

Section Case.
  Local Notation A := ascii_alpha_c.
  Local Notation N := LlProps.ascii_alnum_c.
  Lemma case_word w : w <> [] -> forallb (fun c => (33 <=? c)%Z && (c <? 127)%Z && negb (c =? 34)%Z && negb (c =? 59)%Z) w = true -> vword A w.
  Proof.
    intros Ne H. split; [exact Ne|]. rewrite forallb_forall in H. apply Forall_forall. intros c I. specialize (H c I).
    rewrite !andb_true_iff, !negb_true_iff, Z.leb_le, Z.ltb_lt, !Z.eqb_neq in H. apply LlBuildProps.ascii_plain; lia.
  Qed.
  Lemma case_but no w : w <> [] -> forallb (fun c => (33 <=? c)%Z && (c <? 127)%Z && negb (c =? 34)%Z && negb (c =? 59)%Z) w = true ->
    forallb (fun c => forallb (fun d => negb (c =? d)%Z) no) w = true -> vword_but A no w.
  Proof.
    intros Ne H K. split; [now apply case_word|]. intros c I J. rewrite forallb_forall in K. specialize (K c I). rewrite forallb_forall in K. specialize (K c J).
    now rewrite Z.eqb_refl in K.
  Qed.
  Lemma case_absent d w : forallb (fun c => negb (c =? d)%Z) w = true -> ~ In d w.
  Proof. intros H I. rewrite forallb_forall in H. specialize (H d I). now rewrite Z.eqb_refl in H. Qed.
  Lemma case_operand w : w <> [] -> forallb (fun c => (33 <=? c)%Z && (c <? 127)%Z && negb (c =? 34)%Z && negb (c =? 59)%Z) w = true ->
    forallb (fun c => negb (c =? 125)%Z) w = true -> hd_error w <> Some 44%Z -> hd_error (rev w) <> Some 44%Z -> voperand A w.
  Proof. intros Ne H K L R. split; [now apply case_word|]. split; [now apply case_absent | now split]. Qed.
  Lemma case_name w : forallb (fun c => (33 <=? c)%Z && (c <? 127)%Z && (N c || (c =? 46)%Z)) w = true -> vname_of A N w.
  Proof.
    intros H. rewrite forallb_forall in H. apply Forall_forall. intros c I. specialize (H c I).
    rewrite !andb_true_iff, orb_true_iff, Z.leb_le, Z.ltb_lt, Z.eqb_eq in H. destruct H as [B D].
    assert (Q : c <> 34%Z /\ c <> 59%Z). { split; intros ->; destruct D as [D | D]; discriminate D. }
    split; [apply LlBuildProps.ascii_plain; lia|]. destruct D as [D | ->]; [now left | right; now left].
  Qed.
  Lemma case_label w : forallb (fun c => (33 <=? c)%Z && (c <? 127)%Z && (N c || (c =? 46)%Z)) w = true -> match w with c :: _ => A c | [] => false end = true -> vlabel A N w.
  Proof.
    intros H L. split; [now apply case_name|]. destruct w as [|c r]; [discriminate L|]. exists c, r. split; [reflexivity|].
    unfold ascii_alpha_c in L. rewrite orb_true_iff, !andb_true_iff, !Z.leb_le in L. unfold vletter. lia.
  Qed.
End Case.

Local Ltac word := first [apply case_absent; reflexivity | apply case_operand; [discriminate | reflexivity | reflexivity | vm_compute; discriminate | vm_compute; discriminate] | apply case_but; [discriminate | reflexivity | reflexivity] | apply case_word; [discriminate | reflexivity] | apply case_label; reflexivity | apply case_name; reflexivity].
Local Ltac parts := repeat first [exact I | discriminate | progress cbn [li_result li_opcode li_operands lb_insts lb_label lp_ty lp_name] | word | apply Forall_nil | apply Forall_cons | split].

Example llvm_module_case : tables ascii_alpha_c LlProps.ascii_alnum_c /\ Forall (good_item ascii_alpha_c LlProps.ascii_alnum_c) sample_module /\
  ll_print sample_module = lit "@g = constant i32 7" ++ [10%Z] ++ lit "define i32 @f.1(i32 %a, ptr %b) {" ++ [10%Z] ++ lit "  %r = add %a, <1,2>, k=v" ++ [10%Z] ++ lit "  fence " ++ [10%Z] ++
    lit "done:" ++ [10%Z] ++ lit "  ret %r" ++ [10%Z] ++ lit "last:" ++ [10%Z] ++ lit "}" ++ [10%Z] ++ [10%Z] ++ lit "define void @h() {" ++ [10%Z] ++ lit "}" ++ [10%Z] /\
  ll_build ascii_alpha_c LlProps.ascii_alnum_c (encode (ll_print sample_module)) = Some (Some sample_module, []).
Proof.
  split; [exact LlBuildProps.ascii_tables|]. split; [|split; vm_compute; reflexivity].
  unfold sample_module. constructor; [|constructor; [|constructor; [|constructor]]].
  - split; [discriminate|]. split; [|split; [word|]].
    + constructor; [|constructor]. split; [unfold is_scalar; cbn; lia | left; reflexivity].
    + exists [lit "7"]. split; [reflexivity|]. constructor; [word | constructor].
  - unfold good_item, good_function, good_blocks, good_param, good_inst. cbn [lf_name lf_ret lf_params lf_blocks tl]. parts.
  - unfold good_item, good_function, good_blocks. cbn [lf_name lf_ret lf_params lf_blocks tl]. parts.
Qed.

(** A later block without a label is read into the block before it, *)
Definition wrapped (bs : list lblock) : list litem := [LItemFunction (LFunction (lit "f") (lit "i32") [] bs)].
Theorem llvm_unlabelled_block_refuted : exists alpha alnum i j, tables alpha alnum /\
  ll_build alpha alnum (encode (ll_print (wrapped [LBlock None [i]; LBlock None [j]]))) = Some (Some (wrapped [LBlock None [i; j]]), []).
Proof.
  exists ascii_alpha_c, LlProps.ascii_alnum_c, (LInst None (lit "nop") []), (LInst None (lit "ret") [lit "0"]). split; [exact LlBuildProps.ascii_tables | vm_compute; reflexivity].
Qed.
Print Assumptions llvm_unlabelled_block_refuted.
(** an operand with an equals sign where there is no result is read as one, *)
Theorem llvm_operand_equals_refuted : exists alpha alnum, tables alpha alnum /\
  ll_build alpha alnum (encode (ll_print (wrapped [LBlock None [LInst None (lit "ret") [lit "k=v"]]]))) = Some (Some (wrapped [LBlock None [LInst (Some (lit "ret k")) (lit "v") []]]), []).
Proof. exists ascii_alpha_c, LlProps.ascii_alnum_c. split; [exact LlBuildProps.ascii_tables | vm_compute; reflexivity]. Qed.
Print Assumptions llvm_operand_equals_refuted.
(** an operand with a blank, such as a vector, comes back as two, *)
Theorem llvm_operand_blank_refuted : exists alpha alnum, tables alpha alnum /\
  ll_build alpha alnum (encode (ll_print (wrapped [LBlock None [LInst None (lit "ret") [lit "<1, 2>"]]]))) = Some (Some (wrapped [LBlock None [LInst None (lit "ret") [lit "<1"; lit "2>"]]]), []).
Proof. exists ascii_alpha_c, LlProps.ascii_alnum_c. split; [exact LlBuildProps.ascii_tables | vm_compute; reflexivity]. Qed.
Print Assumptions llvm_operand_blank_refuted.
(** and one with a closing brace, as a structure has it, ends the function. *)
Theorem llvm_operand_brace_refuted : exists alpha alnum items, tables alpha alnum /\ items <> wrapped [LBlock None [LInst None (lit "ret") [lit "{1}"]; LInst None (lit "nop") []]] /\
  exists d, ll_build alpha alnum (encode (ll_print (wrapped [LBlock None [LInst None (lit "ret") [lit "{1}"]; LInst None (lit "nop") []]]))) = Some (Some items, d).
Proof.
  exists ascii_alpha_c, LlProps.ascii_alnum_c, (wrapped [LBlock None [LInst None (lit "ret") [lit "{1"]]]). split; [exact LlBuildProps.ascii_tables|]. split; [discriminate|].
  eexists. vm_compute. reflexivity.
Qed.
Print Assumptions llvm_operand_brace_refuted.
(** A global without a name comes back as one that is called "unknown". *)
Theorem llvm_unnamed_global_refuted : exists alpha alnum ty v, tables alpha alnum /\
  ll_build alpha alnum (encode (ll_print [LItemGlobal (LGlobal [] ty v false)])) = Some (Some [LItemGlobal (LGlobal (lit "unknown") ty v false)], []).
Proof. exists ascii_alpha_c, LlProps.ascii_alnum_c, (lit "i32"), (lit "5"). split; [exact LlBuildProps.ascii_tables | vm_compute; reflexivity]. Qed.
Print Assumptions llvm_unnamed_global_refuted.
