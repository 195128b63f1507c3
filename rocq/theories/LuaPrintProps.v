(** Theorems about printed Lua programs. *)
From Verif Require Import Base Utf8 Utf8Facts LexModel TreeModel JsonLangSpec LangSpec LuaModel LuaSpec LuaAstModel LuaAstSpec LuaPrintSpec.
From Verif Require LuaAstProps LuaPrintProofs.

(** Printing a program that needs no parentheses and building the text gives the program again.  Missing: the programs that
    are left out by [fit_block], for which [lua_printed_refuted] and [lua_built_refuted] have examples. *)
Theorem lua_printed_partial {F} (parse : str -> option F) (show : F -> str) b : fit_block parse show false b -> (Z.of_nat (length (print_root show b)) < 2 ^ 32)%Z ->
  exists n, forall fuel, n <= fuel -> lua_build parse fuel (print_root show b) = Some (b, length (print_root show b), [(0, length (print_root show b))]).
Proof.
  intros H L. destruct (LuaPrintProofs.program_printed parse show b H) as (cs & ps & E & Sc & Md & C & B). rewrite <- E in *. exact (LuaAstProps.lua_built_partial parse cs ps b Sc Md L C B).
Qed.
Print Assumptions lua_printed_partial.
(** In particular different programs are printed differently. *)
Theorem lua_printed_injective {F} (parse : str -> option F) (show : F -> str) b1 b2 : fit_block parse show false b1 -> fit_block parse show false b2 ->
  (Z.of_nat (length (print_root show b1)) < 2 ^ 32)%Z -> print_root show b1 = print_root show b2 -> b1 = b2.
Proof.
  intros H1 H2 L E. destruct (lua_printed_partial parse show b1 H1 L) as (n1 & B1). rewrite E in L. destruct (lua_printed_partial parse show b2 H2 L) as (n2 & B2).
  specialize (B1 (max n1 n2) (Nat.le_max_l _ _)). specialize (B2 (max n1 n2) (Nat.le_max_r _ _)). rewrite E, B2 in B1. congruence.
Qed.
Print Assumptions lua_printed_injective.

(** A program with most kinds of statements; numbers are all [1] *)
Definition num : uexpr nat := ENumber 1.
Definition program : list (ustmt nat) :=
  [SLocal [lit "a"; lit "b"] [EBinary (EBinary (EName (lit "x")) (lit "*") num) (lit "+") (EUnary (lit "#") (ECall (EMember (EName (lit "m")) (lit "f") true) [EString (lit "s"); ETable [FNamed (lit "k") ENil; FList num]]))];
   SFunction [lit "m"; lit "g"] None [lit "p"] true
     [SIf (EBinary (EName (lit "p")) (lit "==") num) [SReturn []] [(EBool true, [SBreak])] (Some [SGoto (lit "e")]);
      SNumeric (lit "i") num num (Some num) [SAssign [EName (lit "q")] [EFunction [] false [SReturn [EName (lit "i")]]]]];
   SRepeat [SGeneric [lit "k"; lit "v"] [ECall (EName (lit "pairs")) []] []] (EName (lit "done"));
   SLabel (lit "e")].
Lemma plain_of s c t : s = c :: t -> start c -> Forall word t -> forallb (fun p => negb (VfsModel.str_eqb s (fst p))) keywords = true -> plain_name s.
Proof.
  intros E Hc Ht K. exists c, t. split; [exact E|]. split; [exact Hc|]. split; [exact Ht|]. intros k I. rewrite forallb_forall in K. specialize (K _ I). cbn [fst] in K. rewrite (proj2 (VfsProofs.str_eqb_spec s s) eq_refl) in K. discriminate.
Qed.
Ltac plain := eapply plain_of; [reflexivity|left; unfold letter; cbn; lia|repeat (apply Forall_cons; [left; left; unfold letter; cbn; lia|]); apply Forall_nil|reflexivity].
Lemma num_fit : fit (fun _ => Some 1) (fun _ => lit "1") 14 14 num.
Proof. apply FitNumber; [|reflexivity]. exists (lit "1"), [], []. split; [reflexivity|]. split; [discriminate|]. split; [repeat constructor; cbn; lia|]. split; [now left|]. split; [now left|]. unfold ends. repeat split; discriminate. Qed.
Example lua_printed_run : fit_block (fun _ => Some 1) (fun _ => lit "1") false program /\
  lua_build (fun _ => Some 1) 80 (print_root (fun _ => lit "1") program) = Some (program, 234, [(0, 234)]).
Proof.
  split; [|vm_compute; reflexivity]. assert (N : forall s, plain_name s -> fit (fun _ => Some 1) (fun _ => lit "1") 14 14 (EName s)) by (intros; now apply FitName). pose proof num_fit as U.
  unfold program. apply FitBCons; [|apply FitBCons; [|apply FitBCons; [|apply FitBCons; [|apply FitBNil| |]| |]| |]| |]; try discriminate; try (intros _ s' Es; injection Es as <-; intros X; exact X); try easy.
  - apply FitLocal; [discriminate|repeat constructor; plain|]. eapply FitsCons; [|constructor]. eapply (FitBinary _ _ (lit "+") 9 false); [LuaPrintProofs.member| |shelve| |shelve].
    + eapply (FitBinary _ _ (lit "*") 10 false); [LuaPrintProofs.member|apply N; plain|lia|exact U|lia].
    + eapply FitUnary; [LuaPrintProofs.member|eapply FitCall; [eapply FitMember; [apply N; plain|lia|intros (x & X); discriminate|plain]|lia|]|cbn; lia].
      eapply FitsCons; [apply (FitString _ _ (lit "s")); [repeat constructor; unfold is_scalar; cbn; lia|apply LuaAstProps.ascii_mild; repeat constructor; lia|repeat constructor; cbn; try discriminate; unfold eol; lia]|].
      eapply FitsCons; [|constructor]. apply FitTable. eapply FitFsNamed; [plain|constructor|]. eapply FitFsList; [exact U|constructor].
    Unshelve. all: cbn; lia.
  - apply FitDeclaration; [discriminate|repeat constructor; plain|repeat constructor; plain|]. apply FitBCons; [|apply FitBCons; [|apply FitBNil| |]| |]; try discriminate; try easy.
    + eapply FitIfElse; [eapply (FitBinary _ _ (lit "==") 3 false); [LuaPrintProofs.member|apply N; plain|lia|exact U|lia]| | |].
      * apply FitBCons; [apply FitReturn; constructor|constructor|discriminate|easy].
      * eapply FitEsCons; [constructor| |constructor]. apply FitBCons; [constructor|constructor|easy|discriminate].
      * apply FitBCons; [apply FitGoto; plain|constructor|easy|discriminate].
    + eapply FitNumericStep; [plain|exact U|exact U|exact U|]. apply FitBCons; [|constructor|discriminate|discriminate]. apply FitAssign; [easy|eapply FitsCons; [apply N; plain|constructor]|discriminate|eapply FitsCons; [|constructor]].
      apply FitFunction; [constructor|]. apply FitBCons; [apply FitReturn; eapply FitsCons; [apply N; plain|constructor]|constructor|discriminate|discriminate].
  - eapply FitRepeat; [|apply N; plain]. apply FitBCons; [|constructor|discriminate|discriminate]. apply FitGeneric; [discriminate|repeat constructor; plain|discriminate| |constructor]. eapply FitsCons; [eapply FitCall; [apply N; plain|lia|constructor]|constructor].
  - apply FitLabel. plain.
Qed.

(** What is printed for two programs that are left out *)
Example lua_printed_left_out : print_root (fun _ : nat => lit "1") [SExpr (EIndex (EName (lit "t")) (ENumber 1))] = lit "t[1]" ++ [10%Z] /\
  print_root (fun _ : nat => lit "1") [SFunction [lit "a"; lit "b"] (Some (lit "c")) [lit "x"] true [SBreak]] = lit "function a.b:c(x, ...)" ++ [10%Z] ++ lit "break" ++ [10%Z] ++ lit "end" ++ [10%Z].
Proof. split; vm_compute; reflexivity. Qed.
