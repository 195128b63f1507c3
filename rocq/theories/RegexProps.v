(** The properties of the language of regular expressions. *)
From Verif Require Import Base Utf8 RopeModel LexModel TreeModel TreeSpec ParserModel JsonLangSpec LangSpec RegexModel RegexSpec.
From Verif Require RegexLexProofs RegexProofs RegexTreeProofs.

Ltac scalars := repeat (apply Forall_cons; [unfold is_scalar; cbn; lia|]); apply Forall_nil.

(** Every text is cut into items in exactly one way, and the tokens are those of the items. *)
Theorem regex_tokens_exact cs : Forall is_scalar cs ->
  exists its, rx_items cs its /\ (forall its', rx_items cs its' -> its' = its) /\ rx_lex (encode cs) = Some (rx_tokens cs its).
Proof.
  intros F. destruct (RegexLexProofs.rx_lex_items cs F) as (its & R & E). exists its. split; [assumption|]. split; [|assumption]. intros its' R'. exact (RegexLexProofs.items_unique _ _ R' _ R).
Qed.
Print Assumptions regex_tokens_exact.
Example regex_tokens_case : rx_lex (lit "[^a\]]{2,}\d# x") =
  Some [Token RLBrack 0 1; Token RHat 1 2; Token RCharacter 2 3; Token RBackslash 3 4; Token RCharacter 4 5; Token RRBrack 5 6; Token RLBrace 6 7; Token RDigit 7 8;
        Token RComma 8 9; Token RRBrace 9 10; Token RBackslash 10 11; Token RCharacter 11 12; Token RComment 12 15; Token REof 15 15].
Proof. vm_compute. reflexivity. Qed.

(** The tokens do not tile the text: a comma is in no token, and the digit of a count that is broken off is in two. *)
Definition covers (t : token) (i : nat) : Prop := tk_start t <= i < tk_end t.
Theorem regex_tiling_refuted :
  (exists cs toks i, Forall is_scalar cs /\ rx_lex (encode cs) = Some toks /\ i < length (encode cs) /\ forall t, In t toks -> ~ covers t i) /\
  (exists cs toks i t u, Forall is_scalar cs /\ rx_lex (encode cs) = Some toks /\ In t toks /\ In u toks /\ t <> u /\ covers t i /\ covers u i).
Proof.
  split.
  - exists (lit "a,b"), [Token RCharacter 0 1; Token RCharacter 2 3; Token REof 3 3], 1. split; [scalars|]. split; [vm_compute; reflexivity|]. split; [vm_compute; lia|]. intros t H. cbn in H. unfold covers. repeat (destruct H as [<- | H]; [cbn; lia|]). destruct H.
  - exists (lit "a{2"), [Token RCharacter 0 1; Token RLBrace 1 2; Token RDigit 2 3; Token RError 1 3; Token REof 3 3], 2, (Token RDigit 2 3), (Token RError 1 3). split; [scalars|]. split; [vm_compute; reflexivity|]. split; [cbn; tauto|]. split; [cbn; tauto|]. split; [discriminate|]. unfold covers. cbn. lia.
Qed.
Print Assumptions regex_tiling_refuted.

(** The builder has a value exactly for texts that begin with an ordinary character without an operator after it; the
    value is the literal of that one character, and there are no diagnostics. *)
Theorem regex_value_exact cs v errs : Forall is_scalar cs -> (rx_build (encode cs) = Some (Some v, errs) <->
  exists g c r, cs = g ++ c :: r /\ Forall gap g /\ ordinary c /\ ~ operated r /\ v = one_literal (flat_text_in (encode cs) 0 (char_len c)) (char_len c) /\ errs = []).
Proof. apply RegexProofs.value_exact. Qed.
Print Assumptions regex_value_exact.
Example regex_value_case : rx_build (lit "hello (world)*") = Some (Some (one_literal (lit "h") 1), []).
Proof. vm_compute. reflexivity. Qed.

(** So different texts have one value, and what is not a character has none. *)
Theorem regex_value_refuted :
  (exists cs ds v, Forall is_scalar cs /\ Forall is_scalar ds /\ cs <> ds /\ rx_build (encode cs) = Some (Some v, []) /\ rx_build (encode ds) = Some (Some v, [])) /\
  Forall (fun cs => rx_build (encode cs) = Some (None, [])) [lit "."; lit "[a]"; lit "(a)"; lit "a*"; lit "a|b"; lit "^a"; lit "\d"].
Proof.
  split.
  - exists (lit "ab"), (lit "a"), (one_literal (lit "a") 1). split; [scalars|]. split; [scalars|]. split; [discriminate|]. split; vm_compute; reflexivity.
  - repeat (apply Forall_cons; [vm_compute; reflexivity|]). apply Forall_nil.
Qed.
Print Assumptions regex_value_refuted.

(** Ordinary characters with bars between them are read as alternatives that nest to the left, without diagnostics. *)
Theorem regex_alternatives_exact c cs : Forall is_scalar (c :: cs) -> ordinary c -> Forall ordinary cs -> (2 * Z.of_nat (length (encode (barred c cs))) < 2 ^ 32)%Z ->
  rx_tree (encode (barred c cs)) = Some (gnode RPattern [alternatives (char_tree c) cs], []).
Proof. apply RegexTreeProofs.tree_alternatives. Qed.
Print Assumptions regex_alternatives_exact.
Example regex_alternatives_case : barred 97 (lit "bc") = lit "a|b|c" /\
  alternatives (char_tree 97) (lit "bc") =
    GNode RPattern 5 [GNode RPattern 3 [GNode RPattern 1 [GLeaf RCharacter 1 None]; GLeaf RPipe 1 None; GNode RPattern 1 [GLeaf RCharacter 1 None]]; GLeaf RPipe 1 None; GNode RPattern 1 [GLeaf RCharacter 1 None]].
Proof. split; reflexivity. Qed.

(** In general the tree is not the tree of the text: the operand of a star is in it twice, the members of a class and all
    that follows the first expression are not in it, and nothing is reported. *)
Theorem regex_tree_refuted :
  rx_tree (lit "a*") = Some (gnode RPattern [char_tree 97; gnode RPattern [char_tree 97; leaf RStar (lit "*")]], []) /\
  rx_tree (lit "[bc]d") = Some (gnode RPattern [gnode RPattern [leaf RLBrack (lit "["); leaf RRBrack (lit "]")]], []) /\
  (exists cs root, Forall is_scalar cs /\ rx_tree (encode cs) = Some (root, []) /\ length (encode cs) < width root) /\
  (exists cs root, Forall is_scalar cs /\ rx_tree (encode cs) = Some (root, []) /\ width root < length (encode cs)).
Proof.
  split; [vm_compute; reflexivity|]. split; [vm_compute; reflexivity|]. split.
  - exists (lit "a*"). eexists. split; [scalars|]. split; [vm_compute; reflexivity|]. vm_compute. lia.
  - exists (lit "ab"). eexists. split; [scalars|]. split; [vm_compute; reflexivity|]. vm_compute. lia.
Qed.
Print Assumptions regex_tree_refuted.

(** Parsing ends with a tree for texts without quantifiers.  Missing: texts with quantifiers, where it need not. *)
Theorem regex_parse_total_partial cs : Forall is_scalar cs -> (2 * Z.of_nat (length (encode cs)) < 2 ^ 32)%Z -> Forall (fun c => ~ In c (lit "*+?")) cs ->
  exists root errs, rx_tree (encode cs) = Some (root, errs).
Proof. apply RegexTreeProofs.tree_total. Qed.
Print Assumptions regex_parse_total_partial.
Example regex_parse_total_case : Forall (fun c => ~ In c (lit "*+?")) (lit "(a|[b") /\ option_map snd (rx_tree (lit "(a|[b")) = Some [(0, 5); (0, 5)].
Proof. split; [|vm_compute; reflexivity]. repeat (apply Forall_cons; [cbn; intuition discriminate|]). apply Forall_nil. Qed.

(** A text of 94 characters on which parsing panics, however many steps it is given: groups in each other, each with a
    star.  Every star puts its operand into the tree again, so that the width doubles with each group and is no longer a
    [u32]. *)
Theorem regex_parse_total_refuted : exists cs toks, Forall is_scalar cs /\ length cs = 94 /\ rx_lex (encode cs) = Some toks /\
  (forall fuel n, rx_parse fuel None 0 (ps_new rx_ign toks n []) = None) /\ rx_tree (encode cs) = None.
Proof.
  destruct (RegexTreeProofs.starred_fails 31) as (toks & E & P); [lia|]. exists (starred 31), toks. split; [apply RegexTreeProofs.starred_scalar|]. split; [reflexivity|]. split; [assumption|]. split; [assumption|]. unfold rx_tree. rewrite E. cbv zeta. now rewrite P.
Qed.
Print Assumptions regex_parse_total_refuted.
Example regex_starred_case : starred 2 = lit "((x*)*)" /\ exists root, rx_tree (lit "((x*)*)*") = Some (root, []) /\ width root = 27.
Proof. split; [reflexivity|]. eexists. split; [vm_compute; reflexivity | reflexivity]. Qed.
