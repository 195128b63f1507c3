(** Theorems about rule sets and the formatter (C47, C81-C84). *)
From Coq Require Import Sorting.Sorted.
From Verif Require Import Base Utf8 PrettyModel PrettySpec PrettyProofs TreeModel TreeSpec TreeProofs
  FormatModel FormatSpec FormatProofs.

(** C47: after any history of registrations, a node gets the outcome of the first rule, by priority and then
    by registration, that applies and does not decline; none if all decline. *)
Theorem node_rules_by_priority conflicts history accepted n c src ch : registered conflicts history accepted ->
  let rules := fold_left (fun s r => snd (add_rule conflicts s r)) history [] in
  (forall o, o <> Ok None -> apply_node_rules rules n c src ch = o <->
     exists i, decides accepted (fun r => r_on_node r n) (fun r => r_node r n c src ch) i o) /\
  (apply_node_rules rules n c src ch = Ok None <->
     forall r, In r accepted -> r_on_node r n = false \/ r_node r n c src ch = Ok None).
Proof.
  intros Hr rules. unfold rules. rewrite (registered_sorted _ _ _ Hr). unfold apply_node_rules. split.
  - intros o Ho. now apply decides_spec.
  - apply none_spec.
Qed.
Print Assumptions node_rules_by_priority.

Theorem token_rules_by_priority conflicts history accepted t c src : registered conflicts history accepted ->
  let rules := fold_left (fun s r => snd (add_rule conflicts s r)) history [] in
  (forall o, o <> Ok None -> apply_token_rules rules t c src = o <->
     exists i, decides accepted (fun r => r_on_token r t) (fun r => r_token r t c src) i o) /\
  (apply_token_rules rules t c src = Ok None <->
     forall r, In r accepted -> r_on_token r t = false \/ r_token r t c src = Ok None).
Proof.
  intros Hr rules. unfold rules. rewrite (registered_sorted _ _ _ Hr). unfold apply_token_rules. split.
  - intros o Ho. now apply decides_spec.
  - apply none_spec.
Qed.
Print Assumptions token_rules_by_priority.

(** C47: every history has its accepted rules, and a refused rule leaves the set as it was. *)
Theorem registration_outcome conflicts history r : let rules := fold_left (fun s r => snd (add_rule conflicts s r)) history [] in
  exists accepted, registered conflicts history accepted /\ Permutation rules accepted /\
  (fst (add_rule conflicts rules r) = true -> registered conflicts (history ++ [r]) (accepted ++ [r])) /\
  (fst (add_rule conflicts rules r) = false -> snd (add_rule conflicts rules r) = rules /\
     exists e, In e accepted /\ (conflicts r e = true \/ conflicts e r = true)).
Proof.
  intros rules. destruct (registered_total conflicts history) as (acc & Ha). exists acc. split; [assumption|].
  assert (Er : rules = sort_rules acc) by (apply registered_sorted; assumption).
  assert (Hp := sort_rules_perm acc). rewrite <- Er in Hp. split; [exact Hp|]. unfold add_rule.
  destruct (existsb _ rules) eqn:E; simpl; split; intros H; try discriminate.
  - split; [reflexivity|]. apply existsb_exists in E. destruct E as (e & Hi & He). exists e.
    split; [apply (Permutation_in _ Hp Hi)|]. apply orb_true_iff in He. exact He.
  - apply rg_add; [assumption|]. intros e He.
    assert (Hf : conflicts r e || conflicts e r = false).
    { destruct (conflicts r e || conflicts e r) eqn:Ex; [|reflexivity]. rewrite <- E. symmetry. apply existsb_exists. exists e.
      split; [apply (Permutation_in _ (Permutation_sym Hp) He)|assumption]. }
    apply orb_false_iff in Hf. exact Hf.
Qed.
Print Assumptions registration_outcome.

(** C47: rules of different priorities may be registered in any order. *)
Theorem registration_order_irrelevant rs1 rs2 : Permutation rs1 rs2 -> NoDup (map r_priority rs1) ->
  let add := fold_left (fun s r => snd (add_rule (fun _ _ => false) s r)) in add rs1 [] = add rs2 [].
Proof.
  intros Hp Hnd add. unfold add.
  assert (Hreg : forall rs, registered (fun _ _ => false) rs rs).
  { induction rs as [|r rs IH] using rev_ind; [constructor|]. apply rg_add; auto. }
  rewrite (registered_sorted _ _ _ (Hreg rs1)), (registered_sorted _ _ _ (Hreg rs2)).
  assert (H1 := sort_rules_sorted rs1). assert (H2 := sort_rules_sorted rs2).
  assert (Hp' : Permutation (sort_rules rs1) (sort_rules rs2)).
  { etransitivity; [apply sort_rules_perm|]. etransitivity; [exact Hp|]. symmetry. apply sort_rules_perm. }
  assert (Hnd' : NoDup (map r_priority (sort_rules rs1))).
  { eapply Permutation_NoDup; [|exact Hnd]. apply Permutation_map. symmetry. apply sort_rules_perm. }
  clear Hp Hnd. revert Hnd' H2 Hp'. generalize (sort_rules rs2). revert H1. generalize (sort_rules rs1). clear.
  intros l1 H1. induction H1 as [|a l1 Hs IH HF]; intros l2 Hnd H2 Hp.
  - apply Permutation_nil in Hp. now subst.
  - destruct l2 as [|b l2]; [now apply Permutation_sym, Permutation_nil in Hp|].
    inversion H2 as [|? ? H2' HF2]; subst. cbn [map] in Hnd. inversion Hnd as [|? ? Hni Hnd']; subst.
    assert (a = b).
    { assert (Ha : In a (b :: l2)) by (apply (Permutation_in _ Hp); now left).
      assert (Hb : In b (a :: l1)) by (apply (Permutation_in _ (Permutation_sym Hp)); now left).
      destruct Ha as [Ha|Ha]; [congruence|]. destruct Hb as [Hb|Hb]; [congruence|]. exfalso.
      rewrite Forall_forall in HF, HF2. apply HF in Hb as Hx. apply HF2 in Ha as Hy. apply Hni.
      replace (r_priority a) with (r_priority b) by lia. now apply in_map. }
    subst b. f_equal. apply IH; [assumption|assumption|]. eapply Permutation_cons_inv. exact Hp.
Qed.
Print Assumptions registration_order_irrelevant.

Definition say (id prio : nat) (on : nat -> bool) (o : res (option doc)) : rule :=
  Rule id [] prio (fun n => on (n_kind n)) (fun _ => false) (fun _ _ _ _ => o) no_token.
Example rules_case :
  let r1 := say 1 5 (fun _ => true) (Ok (Some (Text (lit "low")))) in
  let r2 := say 2 9 (fun _ => true) (Ok None) in
  let r3 := say 3 7 (fun k => k =? 4) (Ok (Some (Text (lit "first")))) in
  let r4 := say 4 7 (fun _ => true) (Ok (Some (Text (lit "second")))) in
  let clash a b := (r_id a =? 5) && (r_id b =? 1) in
  let r5 := say 5 200 (fun _ => true) (Err []) in
  let rules := fold_left (fun s r => snd (add_rule clash s r)) [r1; r2; r3; r4; r5] [] in
  map r_id rules = [2; 3; 4; 1] /\
  apply_node_rules rules (Node 4 [] 0) (Context 0 []) [] Panic = Ok (Some (Text (lit "first"))) /\
  apply_node_rules rules (Node 0 [] 0) (Context 0 []) [] Panic = Ok (Some (Text (lit "second"))).
Proof. repeat split. Qed.

(** C81: formatting with the built-in rules keeps every visible character of the source, in order, for any
    language; and the changed flag tells whether the text is different. *)
Theorem builtin_formatting_keeps_content container statement punctuation cfg root src out changed :
  built root -> width root = length src -> ink (indent_text cfg) = [] ->
  format cfg (builtin container statement punctuation) root src = Ok (out, changed) ->
  ink out = ink src /\ (changed = true <-> out <> src).
Proof.
  intros Hb Hw Hi E. unfold format in E. destruct (format_tree _ _ _ _ _) as [d|e|] eqn:Ef; try discriminate.
  injection E as <- <-. split.
  - destruct (print_spec cfg d) as (ps & c & L & ->). rewrite ink_finish, ink_lines by exact Hi.
    rewrite <- (proj1 (lays_texts _ _) _ _ _ _ _ _ L). cbn [ink filter app].
    destruct (builtin_keeps container statement punctuation) as (H1 & H2).
    rewrite (format_keeps _ src H1 H2 root Hb _ _ _ Ef). rewrite Hw. unfold substr. simpl.
    now rewrite Nat.sub_0_r, firstn_all.
  - rewrite negb_true_iff. destruct (str_same (print cfg d) src) eqn:Es.
    + apply str_same_spec in Es. split; [discriminate|contradiction].
    + split; [|reflexivity]. intros _ Hx. apply str_same_spec in Hx. congruence.
Qed.
Print Assumptions builtin_formatting_keeps_content.

(** C81: it succeeds whenever the tokens of the tree are slices of the source. *)
Theorem builtin_formatting_succeeds container statement punctuation cfg root src : built root ->
  (forall k a b, In (k, a, b) (leaves root 0) -> str_get src a b <> None) ->
  exists out changed, format cfg (builtin container statement punctuation) root src = Ok (out, changed).
Proof.
  intros Hb Hl. unfold format. destruct (format_runs container statement punctuation src root Hb (Context 0 []) 0 Hl) as (d & ->).
  do 2 eexists. reflexivity.
Qed.
Print Assumptions builtin_formatting_succeeds.

(** A list "a,b" in brackets: kinds 1 bracket node (container), 2 statement, 3 punctuation, 4 word. *)
Definition small_tree : green :=
  GNode 2 6 [GNode 1 5 [GLeaf 3 1 None; GLeaf 4 1 None; GLeaf 3 1 None; GLeaf 4 1 None; GLeaf 3 1 None]; GLeaf 3 1 None].
Example format_case :
  built small_tree /\ width small_tree = length (lit "[a,b];") /\
  format default_config (builtin (Nat.eqb 1) (Nat.eqb 2) (Nat.eqb 3)) small_tree (lit "[a,b];") =
    Ok (lit " [a, b];" ++ [10%Z], true) /\
  (forall k a b, In (k, a, b) (leaves small_tree 0) -> str_get (lit "[a,b];") a b <> None).
Proof.
  split; [|split; [reflexivity|split; [reflexivity|]]].
  - eapply BNode with (k := 2) (ch := [GNode 1 5 [GLeaf 3 1 None; GLeaf 4 1 None; GLeaf 3 1 None; GLeaf 4 1 None; GLeaf 3 1 None]; GLeaf 3 1 None]); [|reflexivity].
    constructor; [|repeat constructor].
    eapply BNode with (k := 1) (ch := [GLeaf 3 1 None; GLeaf 4 1 None; GLeaf 3 1 None; GLeaf 4 1 None; GLeaf 3 1 None]); [|reflexivity].
    repeat constructor.
  - intros k a b H. cbn in H. repeat (destruct H as [H|H]; [injection H as <- <- <-; discriminate|]). contradiction.
Qed.

(** C82, refuted: formatting formatted text changes it again; each pass adds a space after the comma. *)
Definition list_tree (blanks : nat) (rest : list green) : green :=
  match new_node 0 ([GLeaf 4 1 None; GLeaf 3 1 None; GLeaf 5 blanks None; GLeaf 4 1 None] ++ rest) with
  | Some t => t | None => GLeaf 0 0 None end.
Theorem formatting_idempotent_refuted : let go := format default_config (builtin (Nat.eqb 1) (Nat.eqb 2) (Nat.eqb 3)) in
  exists t1 t2 s1 s2 s3, built t1 /\ built t2 /\ width t1 = length s1 /\ width t2 = length s2 /\
    map fst (map fst (leaves t2 0)) = map fst (map fst (leaves t1 0)) ++ [6] /\ s1 = lit "a, b" /\
    go t1 s1 = Ok (s2, true) /\ go t2 s2 = Ok (s3, true) /\
    s2 = lit "a,  b" ++ [10%Z] /\ s3 = lit "a,   b" ++ [10%Z].
Proof.
  intros go. exists (list_tree 1 []), (list_tree 2 [GLeaf 6 1 None]), (lit "a, b"), (lit "a,  b" ++ [10%Z]), (lit "a,   b" ++ [10%Z]).
  split; [|split]; [eapply (BNode 0 [GLeaf 4 1 None; GLeaf 3 1 None; GLeaf 5 1 None; GLeaf 4 1 None]); [repeat constructor|reflexivity]
                   |eapply (BNode 0 [GLeaf 4 1 None; GLeaf 3 1 None; GLeaf 5 2 None; GLeaf 4 1 None; GLeaf 6 1 None]); [repeat constructor|reflexivity]|].
  repeat split.
Qed.
Print Assumptions formatting_idempotent_refuted.

(** C83, refuted: asked for the parent kind, a token rule is told the kind of the grandparent. *)
Theorem token_parent_kind_refuted : exists rules t src, t = GNode 7 1 [GNode 8 1 [GLeaf 9 1 None]] /\
  rules = [Rule 0 [] 0 (fun _ => false) (fun _ => true) no_node
             (fun _ c _ => Ok (option_map (fun k => Text [Z.of_nat k]) (parent_kind c)))] /\
  format (Config [] Unix 80 false false 0) rules t src = Ok ([7%Z], true).
Proof.
  eexists. exists (GNode 7 1 [GNode 8 1 [GLeaf 9 1 None]]), (lit "x").
  split; [reflexivity|]. split; [reflexivity|]. reflexivity.
Qed.
Print Assumptions token_parent_kind_refuted.

(** C83, for nodes: the parent kind and the kinds around a node are those of its ancestors. *)
Theorem node_ancestor_kinds c k k' ks : cx_path c = k' :: ks ->
  parent_kind (enter c k) = Some k' /\
  (forall x, is_inside (enter c k) x = true <-> In x (k :: k' :: ks)).
Proof.
  intros E. split; [unfold parent_kind, enter; cbn; now rewrite E|]. intros x. unfold is_inside, enter. cbn [cx_path]. rewrite E.
  generalize (k :: k' :: ks). induction l as [|y l IH]; cbn [path_has]; [split; [discriminate|intros []]|].
  destruct (Nat.eqb_spec y x) as [-> |Hne]; [split; [left; reflexivity|reflexivity]|].
  rewrite IH. simpl. split; [auto|intros [H|H]; [congruence|assumption]].
Qed.
Print Assumptions node_ancestor_kinds.

(** C84, refuted: turning comment formatting off makes the context's processor drop every comment. *)
Theorem unformatted_comments_kept_refuted : exists contents, contents <> [] /\
  forall f, process_comments f (context_processor false) contents = [] /\
            length (process_comments f (context_processor true) contents) = length contents.
Proof. exists [lit " note"]. split; [discriminate|]. intros f. split; reflexivity. Qed.
Print Assumptions unformatted_comments_kept_refuted.
