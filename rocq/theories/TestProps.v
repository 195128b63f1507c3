(** Properties of the testers of oak-testing. *)
From Verif Require Import Base Utf8 CursorModel RopeModel LexModel TreeModel HiModel VfsModel TestModel TestSpec TestProofs.

Section Testers.
  Context {R : Type} (subject : str -> behaviour R) (show : R -> str) (read : str -> option R) (eqb : R -> R -> bool).

  (** C132.  When a run passes, every test file has been read, the subject has answered in time, and the record beside
      the file says what it answered; the test files are as before. *)
  Theorem tester_pass (t : tester) timeout force exts fs n b fs' :
    (forall r, read (show r) = Some r) -> (forall a b, eqb a b = true <-> a = b) -> In t [lexer_tester; parser_tester; builder_tester] ->
    run_tests subject show read eqb t force timeout exts fs = Returned n (Passed b) fs' ->
    forall p, In p (map fst fs) -> test_file exts p ->
      exists text k r c, get fs p = Some text /\ get fs' p = Some text /\ subject text = Done k r /\ k <= timeout /\ get fs' (beside (t_suffix t) p) = Some c /\ read c = Some r.
  Proof.
    intros Hr He Ht E p I T. apply selected_iff in T. unfold run_tests in E. destruct (all_recorded subject show read eqb Hr He t timeout Ht exts force _ _ _ _ _ _ (found exts fs) E) as [F _].
    assert (J : In p (find_test_files exts fs)) by (apply filter_In; now split). rewrite Forall_forall in F. destruct (F p J) as (text & k & r & c & G & S & L & C & Rd). rewrite (record_beside t exts p T) in C.
    exists text, k, r, c. repeat split; try assumption. rewrite <- G. symmetry. apply (all_kept subject show read eqb t timeout Ht exts force _ _ _ _ _ _ p (found exts fs) E). destruct (selected_ext _ _ T) as (_ & _ & _ & O). exact O.
  Qed.

  (** C133.  Without REGENERATE_TESTS a record is never changed, whatever the outcome; so a record that differs from what
      the subject answers makes the run fail. *)
  Theorem tester_record_kept (t : tester) timeout exts fs n v fs' p c :
    In t [lexer_tester; parser_tester; builder_tester] -> test_file exts p ->
    run_tests subject show read eqb t false timeout exts fs = Returned n v fs' -> get fs (beside (t_suffix t) p) = Some c -> get fs' (beside (t_suffix t) p) = Some c.
  Proof.
    intros Ht T E G. apply selected_iff in T. rewrite <- (record_beside t exts p T) in *. apply (all_record subject show read eqb t timeout _ _ _ _ _ _ _ _ E); [|exact G]. intros p'. now apply record_legacy.
  Qed.
  Theorem tester_difference_fails (t : tester) timeout exts fs p text k r c n b fs' :
    (forall r, read (show r) = Some r) -> (forall a b, eqb a b = true <-> a = b) -> In t [lexer_tester; parser_tester; builder_tester] ->
    In p (map fst fs) -> test_file exts p -> get fs p = Some text -> subject text = Done k r -> get fs (beside (t_suffix t) p) = Some c -> read c <> Some r ->
    run_tests subject show read eqb t false timeout exts fs <> Returned n (Passed b) fs'.
  Proof.
    intros Hr He Ht I T G S C D E. pose proof (tester_record_kept _ _ _ _ _ _ _ _ _ Ht T E C) as C'.
    destruct (tester_pass _ _ _ _ _ _ _ _ Hr He Ht E p I T) as (text' & k' & r' & c' & G' & _ & S' & _ & C'' & Rd). rewrite C' in C''. injection C'' as <-. rewrite G in G'. injection G' as <-. rewrite S in S'. injection S' as _ <-. exact (D Rd).
  Qed.
  (** The parser tester passes only when every test file had a record, under its own or its old name. *)
  Theorem parser_tester_records_partial timeout exts fs n b fs' :
    run_tests subject show read eqb parser_tester false timeout exts fs = Returned n (Passed b) fs' ->
    forall p, In p (map fst fs) -> test_file exts p ->
      get fs (beside (lit ".parsed.json") p) <> None \/ exists stem e, snd p = stem ++ lit "." ++ e /\ ~ In 46%Z e /\ get fs (fst p, stem ++ lit ".expected.json") <> None.
  Proof.
    intros E p I T. apply selected_iff in T. assert (Ht : one_of parser_tester) by (cbn; auto). pose proof (all_has subject show read eqb parser_tester timeout Ht exts eq_refl _ _ _ _ _ _ (found exts fs) E) as F. rewrite Forall_forall in F.
    destruct (F p) as [G | G]; [apply filter_In; now split | left; rewrite (record_beside parser_tester exts p T) in G; exact G|]. right. destruct (selected_ext _ _ T) as (stem & e & S & _). exists stem, e. unfold legacy_of, with_extension in G. rewrite S in G. unfold stem_ext in S.
    destruct (split_last (snd p)) as [[[| x a] d]|] eqn:Q; try discriminate. injection S as <- <-. apply split_last_iff in Q. destruct Q as [-> N]. repeat split; assumption.
  Qed.

  (** C135.  After a run has passed, running again passes and writes nothing. *)
  Theorem tester_again (t : tester) timeout force exts fs n b fs' :
    (forall r, read (show r) = Some r) -> (forall a b, eqb a b = true <-> a = b) -> In t [lexer_tester; parser_tester; builder_tester] ->
    run_tests subject show read eqb t force timeout exts fs = Returned n (Passed b) fs' ->
    exists m, run_tests subject show read eqb t false timeout exts fs' = Returned m (Passed false) fs'.
  Proof.
    intros Hr He Ht E. unfold run_tests in *. rewrite (all_find subject show read eqb t timeout Ht exts force _ _ _ _ _ _ E). apply (recorded_all subject show read eqb Hr He t timeout).
    exact (proj1 (all_recorded subject show read eqb Hr He t timeout Ht exts force _ _ _ _ _ _ (found exts fs) E)).
  Qed.
End Testers.
Print Assumptions tester_pass.
Print Assumptions tester_record_kept.
Print Assumptions tester_difference_fails.
Print Assumptions parser_tester_records_partial.
Print Assumptions tester_again.

(** A subject that answers with the length of the text, at once, and a directory with a test and its record. *)
Definition measure (text : str) : behaviour nat := Done 0 (length text).
Definition show_n (n : nat) : str := repeat 49%Z n.
Definition read_n (s : str) : option nat := Some (length s).
Definition dir (p : str) : path := (lit "tests", p).
Example tester_case : run_tests measure show_n read_n Nat.eqb lexer_tester false 10 [lit "x"]
    [(dir (lit "a.x"), lit "abc"); (dir (lit "a.x.lexed.json"), lit "111"); (dir (lit "b.x"), lit "q"); (dir (lit "b.expected.json"), lit "1"); (dir (lit "c.y"), [])]
  = Returned 0 (Passed false) [(dir (lit "b.x.lexed.json"), lit "1"); (dir (lit "a.x"), lit "abc"); (dir (lit "a.x.lexed.json"), lit "111"); (dir (lit "b.x"), lit "q"); (dir (lit "c.y"), [])].
Proof. vm_compute. reflexivity. Qed.
Example tester_case_inputs : (forall r, read_n (show_n r) = Some r) /\ (forall a b, Nat.eqb a b = true <-> a = b) /\ test_file [lit "x"] (dir (lit "a.x")).
Proof.
  split; [intros r; unfold read_n, show_n; now rewrite repeat_length|]. split; [intros a b; apply Nat.eqb_eq|]. apply selected_iff. vm_compute. reflexivity.
Qed.
Example tester_difference : run_tests measure show_n read_n Nat.eqb lexer_tester false 10 [lit "x"] [(dir (lit "a.x"), lit "abc"); (dir (lit "a.x.lexed.json"), lit "11")]
  = Returned 0 Mismatch [(dir (lit "a.x"), lit "abc"); (dir (lit "a.x.lexed.json"), lit "11")].
Proof. vm_compute. reflexivity. Qed.
Example parser_tester_missing : run_tests measure show_n read_n Nat.eqb parser_tester false 10 [lit "x"] [(dir (lit "a.x"), lit "abc")]
  = Returned 0 Regenerated [(dir (lit "a.x.parsed.json"), lit "111"); (dir (lit "a.x"), lit "abc")].
Proof. vm_compute. reflexivity. Qed.

(** The lexer and the builder tester pass without anything to compare with. *)
Theorem tester_records_refuted : forall t, In t [lexer_tester; builder_tester] ->
  exists (subject : str -> behaviour nat) fs p, In p (map fst fs) /\ test_file [lit "x"] p /\ map fst fs = [p] /\
    exists n b fs', run_tests subject show_n read_n Nat.eqb t false 10 [lit "x"] fs = Returned n (Passed b) fs'.
Proof.
  intros t H. exists measure, [(dir (lit "a.x"), lit "abc")], (dir (lit "a.x")). split; [now left|]. split; [apply selected_iff; vm_compute; reflexivity|]. split; [reflexivity|].
  destruct H as [<- | [<- | []]]; eexists _, _, _; vm_compute; reflexivity.
Qed.
Print Assumptions tester_records_refuted.

(** C134.  The timeout: the call comes back when the subject does, and not before. *)
Theorem tester_timeout_partial {R} (subject : str -> behaviour R) show read eqb t force timeout fs p text n r :
  get fs p = Some text -> subject text = Done n r -> timeout < n ->
  test_single_file subject show read eqb t force timeout fs p = Returned n TimedOut fs.
Proof. intros G S L. unfold test_single_file. rewrite G, S. now destruct (Nat.ltb_spec timeout n); [|lia]. Qed.
Print Assumptions tester_timeout_partial.
Theorem tester_timeout_refuted : exists (subject : str -> behaviour nat) fs, forall t force timeout,
  run_tests subject show_n read_n Nat.eqb t force timeout [lit "x"] fs = Hanging.
Proof. exists (fun _ => Loops), [(dir (lit "a.x"), lit "abc")]. intros t force timeout. reflexivity. Qed.
Print Assumptions tester_timeout_refuted.
Theorem tester_late_refuted : forall bound, exists (subject : str -> behaviour nat) fs n, bound < n /\ forall t force,
  run_tests subject show_n read_n Nat.eqb t force 10 [lit "x"] fs = Returned n TimedOut fs.
Proof.
  intros bound. exists (fun _ => Done (11 + bound) 0), [(dir (lit "a.x"), lit "abc")], (11 + bound). split; [lia|]. intros t force. unfold run_tests.
  change (find_test_files [lit "x"] [(dir (lit "a.x"), lit "abc")]) with [dir (lit "a.x")]. cbn [run_all]. erewrite tester_timeout_partial; [reflexivity | reflexivity | reflexivity | lia].
Qed.
Print Assumptions tester_late_refuted.
Theorem tester_panic_refuted : exists (subject : str -> behaviour nat) fs, forall t force timeout,
  run_tests subject show_n read_n Nat.eqb t force timeout [lit "x"] fs = Crashed.
Proof. exists (fun _ => Panics 0), [(dir (lit "a.x"), lit "abc")]. intros t force timeout. reflexivity. Qed.
Print Assumptions tester_panic_refuted.

(** C136.  What a parser test compares: two trees have the same record exactly if they agree up to the kinds and the
    places of leaves within their node. *)
Theorem parser_record_partial name t t' : (forall a b, name a = name b -> a = b) ->
  (exists k n ch, t = GNode k n ch) -> (exists k n ch, t' = GNode k n ch) -> (to_ast name t = to_ast name t' <-> alike t t').
Proof. intros H (k & n & ch & ->) (k' & n' & ch' & ->). now apply ast_alike. Qed.
Print Assumptions parser_record_partial.
Example alike_case : alike (GNode 1 6 [GLeaf 2 3 None; GNode 4 2 [GLeaf 5 2 None]; GLeaf 3 1 None]) (GNode 1 6 [GNode 4 2 [GLeaf 6 2 None]; GLeaf 9 2 None; GLeaf 3 2 None]).
Proof. repeat constructor. Qed.

Theorem parser_record_refuted : exists t t', t <> t' /\ forall name, to_ast name t = to_ast name t'.
Proof. exists (GNode 1 3 [GLeaf 2 1 None; GLeaf 3 2 None]), (GNode 1 3 [GLeaf 3 2 None; GLeaf 4 1 None]). split; [discriminate | reflexivity]. Qed.
Print Assumptions parser_record_refuted.

(** The node count: the nodes, and one more for each that has leaves. *)
Theorem parser_count name t : (exists k n ch, t = GNode k n ch) -> count_nodes (to_ast name t) = nodes_of t + leafy t.
Proof. intros (k & n & ch & ->). apply count_alike. exact I. Qed.
Print Assumptions parser_count.
Example parser_count_case : count_nodes (to_ast (fun _ => []) (GNode 1 6 [GLeaf 2 3 None; GNode 4 2 [GLeaf 5 2 None]; GLeaf 3 1 None])) = 4.
Proof. reflexivity. Qed.

(** What a lexer test compares: two results with the same record have the same tokens but for ignored ones, and the same
    diagnostics. *)
Theorem lexer_record_partial ign name text ts ds ts' ds' : (forall a b, name a = name b -> a = b) ->
  (lexed_record ign name text (inl ts) ds = lexed_record ign name text (inl ts') ds' <-> visible ign ts = visible ign ts' /\ ds = ds').
Proof.
  intros H. unfold lexed_record. fold (visible ign ts). fold (visible ign ts'). split.
  - intros E. injection E as _ _ E ->. split; [|reflexivity]. revert E. generalize (visible ign ts) as l, (visible ign ts') as l'. induction l as [| [k a b] l IH]; intros [| [k' a' b'] l'] E; try discriminate; [reflexivity|].
    cbn [map tk_kind tk_start tk_end] in E. injection E as E1 _ -> -> E. apply H in E1. subst k'. f_equal. now apply IH.
  - intros [-> ->]. reflexivity.
Qed.
Print Assumptions lexer_record_partial.
(** The record says success exactly if there was neither an error nor a diagnostic, and lists them all. *)
Theorem lexer_record_errors ign name text result ds :
  ld_errors (lexed_record ign name text result ds) = ds ++ match result with inl _ => [] | inr e => [e] end /\
  (ld_success (lexed_record ign name text result ds) = true <-> ds = [] /\ exists ts, result = inl ts).
Proof.
  unfold lexed_record. destruct result as [ts | e]; cbn [ld_errors ld_success].
  - rewrite app_nil_r. split; [reflexivity|]. destruct ds; split; try discriminate; [intros _; split; [reflexivity | now exists ts] | reflexivity | intros [H _]; discriminate].
  - split; [reflexivity|]. split; [destruct ds; discriminate | intros [_ [ts H]]; discriminate].
Qed.
Print Assumptions lexer_record_errors.
Theorem lexer_record_refuted : exists ign ts ts', ts <> ts' /\ forall name text, lexed_record ign name text (inl ts) [] = lexed_record ign name text (inl ts') [].
Proof. exists (fun k => k =? 0), [Token 0 0 1; Token 1 1 2], [Token 1 1 2]. split; [discriminate | reflexivity]. Qed.
Print Assumptions lexer_record_refuted.
