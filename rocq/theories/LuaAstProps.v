(** Theorems about the values the Lua builder makes of a text, and about the texts printed for them. *)
From Verif Require Import Base Utf8 Utf8Facts LexModel LexSpec TreeModel TreeSpec ParserModel ParserSpec JsonLangSpec LangModel LangSpec LangLexProofs LuaModel LuaSpec LuaAstModel LuaAstSpec.
From Verif Require LuaLexProofs LuaProofs LuaAstProofs.

(** ** Building *)
(** A text whose pieces are statements for the values [vs] is built to [vs], with a diagnostic at the end of the file and no
    other.  Missing: what the grammar leaves out, which is [lua_built_refuted], and the texts of [lua_tiling_refuted]. *)
Theorem lua_built_partial {F} (parse : str -> option F) cs ps vs : Forall is_scalar cs -> mild cs -> (Z.of_nat (length (encode cs)) < 2 ^ 32)%Z -> cut lua_piece cs ps ->
  is_block parse UEof ps vs ->
  exists n, forall fuel, n <= fuel -> lua_build parse fuel (encode cs) = Some (vs, length (encode cs), [(0, length (encode cs))]).
Proof. intros Sc Md L C B. exact (LuaAstProofs.text_built parse cs ps Sc Md L C vs B). Qed.
Print Assumptions lua_built_partial.

(** Pieces for the examples, computed *)
Fixpoint pieces (n : nat) (cs : list Z) : option (list piece) :=
  match cs, n with
  | [], _ => Some []
  | _, O => None
  | _, S m => let '(k, s, t) := LuaLexProofs.lua1 cs in option_map (cons (Some k, s)) (pieces m t)
  end.
Lemma pieces_cut : forall n cs ps, pieces n cs = Some ps -> cut lua_piece cs ps.
Proof.
  induction n as [| n IH]; intros [| c cs] ps E; cbn [pieces] in E; try discriminate; try (injection E as <-; constructor). pose proof (LuaLexProofs.lua1_piece c cs) as H. destruct (LuaLexProofs.lua1 (c :: cs)) as [[k s] t]. destruct H as (Q & N & P).
  destruct (pieces n t) as [r|] eqn:R; [|discriminate]. injection E as <-. rewrite Q. apply CutPiece; [exact N | exact P | exact (IH t r R)].
Qed.
Definition ascii_only (cs : list Z) : Prop := Forall (fun x => (0 <= x < 128)%Z) cs.
Lemma ascii_scalar cs : ascii_only cs -> Forall is_scalar cs.
Proof. intros H. eapply Forall_impl; [|exact H]. intros x Hx. cbn beta in Hx. unfold is_scalar. lia. Qed.
Lemma ascii_mild cs : ascii_only cs -> mild cs.
Proof. intros H a c d b E _. unfold ascii_only in H. rewrite E in H. apply Forall_app in H. destruct H as [_ H]. inversion H as [| ? ? _ H2]; subst. inversion H2; subst. lia. Qed.

(** [local n=f(y)+1], a line feed, [return n] *)
Definition sample : list Z := [108; 111; 99; 97; 108; 32; 110; 61; 102; 40; 121; 41; 43; 49; 10; 114; 101; 116; 117; 114; 110; 32; 110]%Z.
Example lua_built_run : exists ps vs, ascii_only sample /\ cut lua_piece sample ps /\ is_block (fun s => Some (length s)) UEof ps vs /\
  vs = [SLocal [lit "n"] [EBinary (ECall (EName (lit "f")) [EName (lit "y")]) (lit "+") (ENumber 1)]; SReturn [EName (lit "n")]] /\
  lua_build (fun s => Some (length s)) 30 (encode sample) = Some (vs, 23, [(0, 23)]).
Proof.
  exists [(Some ULocal, [108; 111; 99; 97; 108]%Z); (Some UWhitespace, [32]%Z); (Some UIdentifier, [110]%Z); (Some UEq, [61]%Z); (Some UIdentifier, [102]%Z); (Some ULeftParen, [40]%Z); (Some UIdentifier, [121]%Z); (Some URightParen, [41]%Z);
          (Some UPlus, [43]%Z); (Some UNumber, [49]%Z); (Some UNewline, [10]%Z); (Some UReturn, [114; 101; 116; 117; 114; 110]%Z); (Some UWhitespace, [32]%Z); (Some UIdentifier, [110]%Z)].
  eexists. split; [unfold ascii_only, sample; repeat constructor; lia|]. split; [apply (pieces_cut 20); vm_compute; reflexivity|]. assert (T : forall k s w, Forall trivia w -> tok k s ((Some k, s) :: w)) by (intros k s w H; now exists w).
  assert (W : Forall trivia [(Some UWhitespace, [32]%Z)]) by (constructor; [cbn; tauto | constructor]). assert (Nl : Forall trivia [(Some UNewline, [10]%Z)]) by (constructor; [cbn; tauto | constructor]).
  assert (N : forall s, is_expr (fun s => Some (length s)) 14 14 [(Some UIdentifier, s)] (EName (encode s))) by (intros s; apply XName, T; constructor). assert (O : over UEof /\ over UReturn). { split; (split; [cbn; intuition discriminate|]); intros p r (ks & I & K); cbn in I; repeat (destruct I as [I | I]; [injection I as <- <- <-; cbn in K; intuition discriminate|]); contradiction. }
  split; [|split; [|vm_compute; reflexivity]]; [|reflexivity].
  apply (BMore _ UEof ([(Some ULocal, [108; 111; 99; 97; 108]%Z); (Some UWhitespace, [32]%Z)] ++ [(Some UIdentifier, [110]%Z)] ++ [(Some UEq, [61]%Z)] ++ ((([(Some UIdentifier, [102]%Z)] ++ [(Some ULeftParen, [40]%Z)] ++ [(Some UIdentifier, [121]%Z)] ++ [(Some URightParen, [41]%Z)]) ++ [(Some UPlus, [43]%Z)] ++ [(Some UNumber, [49]%Z); (Some UNewline, [10]%Z)])) ++ [])
                     ([(Some UReturn, [114; 101; 116; 117; 114; 110]%Z); (Some UWhitespace, [32]%Z)] ++ [(Some UIdentifier, [110]%Z)] ++ [])).
  - eapply (TLocalValues _ UReturn _ _ _ _ [] _ _ [encode [110]%Z]); [apply T, W | apply NamesOne, T; constructor | apply T; constructor | | now constructor | exact (proj2 O) | discriminate]. eapply XsOne.
    eapply (XBinary _ _ _ _ _ _ _ _ UPlus 9 false [43]%Z).
    + exists [UPlus; UMinus]. split; [cbn; tauto | now left].
    + eapply XCall; [exact (N [102]%Z) | lia |]. eapply ArgSome; [apply T; constructor | eapply XsOne; exact (N [121]%Z) | apply T; constructor].
    + lia.
    + apply T. constructor.
    + eapply XLiteral; [apply (LNumber _ [49]%Z); reflexivity | apply T, Nl].
    + lia.
  - apply (BMore _ UEof [(Some UReturn, [114; 101; 116; 117; 114; 110]%Z); (Some UWhitespace, [32]%Z); (Some UIdentifier, [110]%Z)] []); [|constructor]. apply (TReturnValues _ UEof [(Some UReturn, [114; 101; 116; 117; 114; 110]%Z); (Some UWhitespace, [32]%Z)] [(Some UIdentifier, [110]%Z)] [] [114; 101; 116; 117; 114; 110]%Z); [apply T, W | eapply XsOne; exact (N [110]%Z) | now constructor | exact (proj1 O) | discriminate].
Qed.

(** Larger programs *)
Definition built (t : str) := lua_build (fun s => Some (length s)) 80 t.
Example lua_built_more :
  built (lit "if a.b then f{x=1,'s'} elseif not c then else goto e end") =
    Some ([SIf (EMember (EName (lit "a")) (lit "b") false) [SExpr (ECall (EName (lit "f")) [ETable [FNamed (lit "x") (ENumber 1); FList (EString (lit "s"))]])]
             [(EUnary (lit "not") (EName (lit "c")), [])] (Some [SGoto (lit "e")])], 56, [(0, 56)]) /\
  built (lit "for i=1,2 do x,y=i..y..1,2^3^4 end") =
    Some ([SNumeric (lit "i") (ENumber 1) (ENumber 1) None
             [SAssign [EName (lit "x"); EName (lit "y")]
                [EBinary (EName (lit "i")) (lit "..") (EBinary (EName (lit "y")) (lit "..") (ENumber 1)); EBinary (ENumber 1) (lit "^") (EBinary (ENumber 1) (lit "^") (ENumber 1))]]], 34, [(0, 34)]) /\
  built (lit "function m.f(a,...) repeat local b until a == b return; end") =
    Some ([SFunction [lit "m"; lit "f"] None [lit "a"] true [SRepeat [SLocal [lit "b"] []] (EBinary (EName (lit "a")) (lit "==") (EName (lit "b"))); SReturn []]], 59, [(0, 59)]).
Proof. repeat split; vm_compute; reflexivity. Qed.

(** A correct program should be built to its statements.  The texts of names and literals are taken at wrong offsets after
    leading blanks; a local function is a declaration of its name and its parameters, without a body; the name of a method
    becomes the name of the function, and its object the method; three points as an expression are dropped; a long string
    keeps one bracket on each side. *)
Theorem lua_built_refuted :
  built (lit " x=y") = Some ([SAssign [EName (lit " ")] [EName (lit "=")]], 3, [(0, 4)]) /\
  built (lit "local function f(a) return a end") = Some ([SLocal [lit "f"; lit "a"] []], 32, [(0, 32)]) /\
  built (lit "function a:b() end") = Some ([SFunction [lit "b"] (Some (lit "a")) [] false []], 18, [(0, 18)]) /\
  built (lit "x = ...") = Some ([SAssign [EName (lit "x")] []], 7, [(0, 7)]) /\
  built (lit "x=[[ab]]") = Some ([SAssign [EName (lit "x")] [EString (lit "[ab]")]], 8, [(0, 8)]).
Proof. repeat split; vm_compute; reflexivity. Qed.
Print Assumptions lua_built_refuted.

(** Building should not panic on a text that can be parsed.  A string that is not closed is cut inside a character. *)
Theorem lua_build_panic_refuted : exists cs root errs, Forall is_scalar cs /\ lua_tree 20 (encode cs) = Some (root, errs) /\ lua_build (F := nat) (fun _ => None) 20 (encode cs) = None.
Proof.
  exists [120; 61; 34; 233]%Z. do 2 eexists. split; [repeat (apply Forall_cons; [unfold is_scalar; cbn; lia|]); apply Forall_nil|]. split; vm_compute; reflexivity.
Qed.
Print Assumptions lua_build_panic_refuted.

(** ** Printing *)
Definition shown (t : str) : option str := option_map (fun r => print_root (fun _ => lit "1") (fst (fst r))) (built t).
(** What is printed should be a program for the same statements.  Parentheses are lost, [not] runs into its operand, a quote
    inside a string is printed bare. *)
Theorem lua_printed_refuted :
  shown (lit "x=(a+b)*c") = Some (lit "x = a + b * c" ++ [10%Z]) /\
  (exists v w, built (lit "x=(a+b)*c") = Some ([v], 9, [(0, 9)]) /\ built (lit "x = a + b * c") = Some ([w], 13, [(0, 13)]) /\ v <> w) /\
  shown (lit "x=not a") = Some (lit "x = nota" ++ [10%Z]) /\
  shown (lit "x='a""b'") = Some (lit "x = ""a""b""" ++ [10%Z]).
Proof.
  split; [vm_compute; reflexivity|]. split; [|split; vm_compute; reflexivity]. do 2 eexists. split; [vm_compute; reflexivity|]. split; [vm_compute; reflexivity|]. discriminate.
Qed.
Print Assumptions lua_printed_refuted.
