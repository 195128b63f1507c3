(** Proofs about the testers. *)
From Verif Require Import Base Utf8 CursorModel CursorProofs RopeModel LexModel TreeModel TreeSpec TreeProofs HiModel HiSpec HiProofs VfsModel VfsProofs TestModel TestSpec.

Lemma path_eqb_spec a b : path_eqb a b = true <-> a = b.
Proof.
  unfold path_eqb. rewrite andb_true_iff, !str_eqb_spec. destruct a, b; cbn. split; [intros [-> ->]; reflexivity | now intros [= -> ->]].
Qed.
Notation gmget_insert := (mget_insert path_eqb path_eqb_spec).
Notation gmget_remove := (mget_remove path_eqb path_eqb_spec).

Lemma ends_with_iff s p : ends_with s p = true <-> exists a, s = a ++ p.
Proof.
  unfold ends_with. rewrite prefixb_iff. split.
  - intros [r E]. exists (rev r). apply (f_equal (@rev Z)) in E. rewrite rev_involutive, rev_app_distr, rev_involutive in E. exact E.
  - intros [a ->]. exists (rev a). apply rev_app_distr.
Qed.

Lemma split_last_spec s : forall a b, split_last s = Some (a, b) -> s = a ++ lit "." ++ b.
Proof.
  induction s as [| c r IH]; intros a b E; cbn [split_last] in E; [discriminate|]. destruct (split_last r) as [[a' b']|].
  - injection E as <- <-. cbn. now rewrite (IH a' b' eq_refl).
  - destruct (Z.eqb_spec c 46) as [-> |]; [|discriminate]. injection E as <- <-. reflexivity.
Qed.
Lemma stem_ext_spec name stem e : stem_ext name = (stem, Some e) -> name = stem ++ lit "." ++ e.
Proof.
  unfold stem_ext. destruct (split_last name) as [[[| c a] b]|] eqn:E; intros [= <- <-]. exact (split_last_spec _ _ _ E).
Qed.

Definition one_of (t : tester) : Prop := In t [lexer_tester; parser_tester; builder_tester].

Lemma selected_ext exts p : selected exts p = true -> exists stem e, stem_ext (snd p) = (stem, Some e) /\ is_output (snd p) = false.
Proof.
  unfold selected. destruct (stem_ext (snd p)) as [stem [e|]]; cbn [snd]; [|discriminate]. intros H. apply andb_true_iff in H. destruct H as [_ H]. exists stem, e. split; [reflexivity|]. now destruct (is_output (snd p)).
Qed.
Lemma record_beside t exts p : selected exts p = true -> record_of t p = beside (t_suffix t) p.
Proof.
  intros H. destruct (selected_ext _ _ H) as (stem & e & E & _). unfold record_of, with_extension, beside. rewrite E. cbn [fst snd]. f_equal. rewrite (stem_ext_spec _ _ _ E). now rewrite <- !app_assoc.
Qed.
Lemma beside_inj s p q : beside s p = beside s q -> p = q.
Proof. unfold beside. destruct p, q; cbn. intros [= -> E]. now rewrite (app_inv_tail _ _ _ E). Qed.

Lemma record_output t p : one_of t -> is_output (snd (record_of t p)) = true.
Proof.
  intros H. unfold record_of, with_extension. cbn [snd]. set (a := fst (stem_ext (snd p))). set (e := match snd _ with Some _ => _ | None => _ end). unfold is_output.
  assert (E : forall x, ends_with (a ++ lit "." ++ e ++ x) x = true). { intros x. apply ends_with_iff. exists (a ++ lit "." ++ e). now rewrite <- !app_assoc. }
  destruct H as [<- | [<- | [<- | []]]]; cbn [t_suffix lexer_tester parser_tester builder_tester]; rewrite E; now rewrite ?orb_true_r.
Qed.
Lemma legacy_output p : is_output (snd (legacy_of p)) = true.
Proof.
  unfold legacy_of, with_extension, is_output. cbn [snd]. assert (ends_with (fst (stem_ext (snd p)) ++ lit "." ++ lit "expected.json") (lit ".expected.json") = true) as ->; [|now rewrite !orb_true_r].
  apply ends_with_iff. now exists (fst (stem_ext (snd p))).
Qed.
Lemma record_legacy t p q : one_of t -> record_of t p <> legacy_of q.
Proof.
  intros H E. unfold record_of, legacy_of, with_extension in E. injection E as _ E. set (a := fst (stem_ext (snd p))) in *. set (e := match snd _ with Some _ => _ | None => _ end) in *. set (b := fst (stem_ext (snd q))) in *. clearbody a e b.
  assert (K : rev (t_suffix t) = firstn (length (t_suffix t)) (rev (a ++ lit "." ++ e ++ t_suffix t))).
  { rewrite !app_assoc, rev_app_distr, firstn_app, rev_length, Nat.sub_diag, firstn_O, app_nil_r. rewrite <- (rev_length (t_suffix t)). now rewrite firstn_all. }
  change (lit "." ++ e ++ t_suffix t) with (46%Z :: e ++ t_suffix t) in K. rewrite E in K. rewrite rev_app_distr in K. destruct H as [<- | [<- | [<- | []]]]; vm_compute in K; discriminate.
Qed.

Section Runs.
  Context {R : Type} (subject : str -> behaviour R) (show : R -> str) (read : str -> option R) (eqb : R -> R -> bool).
  Hypothesis Hread : forall r, read (show r) = Some r.
  Hypothesis Heqb : forall a b, eqb a b = true <-> a = b.
  Variable (t : tester) (timeout : nat).
  Hypothesis Ht : one_of t.
  Notation single force := (test_single_file subject show read eqb t force timeout).
  Notation all force := (run_all subject show read eqb t force timeout).

  Lemma get_migrate fs p q : get (migrate t fs p) q = get fs q \/ (q = record_of t p /\ get fs q = None /\ get (migrate t fs p) q = get fs (legacy_of p)) \/ (q = legacy_of p /\ get (migrate t fs p) q = None).
  Proof.
    unfold migrate. destruct (get fs (record_of t p)) eqn:E; [now left|]. destruct (get fs (legacy_of p)) as [c|] eqn:L; [|now left]. unfold get in *. rewrite gmget_insert, gmget_remove.
    destruct (path_eqb (record_of t p) q) eqn:Q. { apply path_eqb_spec in Q. subst q. right. left. rewrite E. auto. }
    destruct (path_eqb (legacy_of p) q) eqn:Q'; [|now left]. apply path_eqb_spec in Q'. right. right. auto.
  Qed.

  (** A file that is neither the record nor the old record of [p] is as before. *)
  Lemma migrate_other fs p q : q <> record_of t p -> q <> legacy_of p -> get (migrate t fs p) q = get fs q.
  Proof. intros A B. destruct (get_migrate fs p q) as [E | [(E & _) | (E & _)]]; [exact E | contradiction | contradiction]. Qed.
  Lemma judge_other force fs p r v fs' q : judge show read eqb t force fs p r = (v, fs') -> q <> record_of t p -> q <> legacy_of p -> get fs' q = get fs q.
  Proof.
    intros J A B. rewrite <- (migrate_other fs p q A B). unfold judge in J. set (m := migrate t fs p) in *. assert (I : forall c, get (minsert path_eqb m (record_of t p) c) q = get m q).
    { intros c. unfold get. rewrite gmget_insert. destruct (path_eqb (record_of t p) q) eqn:Q; [|reflexivity]. apply path_eqb_spec in Q. congruence. }
    destruct (get m (record_of t p)); destruct force; try (injection J as _ <-; apply I). destruct (read s); injection J as _ <-; reflexivity.
  Qed.
  Lemma single_inv force fs p n v fs' : single force fs p = Returned n v fs' -> fs' = fs /\ ~ (exists b, v = Passed b) \/
    exists text r, get fs p = Some text /\ subject text = Done n r /\ n <= timeout /\ judge show read eqb t force fs p r = (v, fs').
  Proof.
    unfold test_single_file. destruct (get fs p) as [text|]; [|intros [= <- <- <-]; left; split; [reflexivity | intros [b E]; discriminate]]. destruct (subject text) as [k r | |] eqn:Sub; try discriminate.
    destruct (Nat.ltb_spec timeout k); [intros [= <- <- <-]; left; split; [reflexivity | intros [b E]; discriminate]|]. destruct (judge _ _ _ _ _ _ _ _) as [v0 fs0] eqn:J. intros [= <- <- <-]. right. exists text, r. now repeat split.
  Qed.
  Lemma single_other force fs p n v fs' q : single force fs p = Returned n v fs' -> q <> record_of t p -> q <> legacy_of p -> get fs' q = get fs q.
  Proof. intros E A B. destruct (single_inv _ _ _ _ _ _ E) as [[-> _] | (text & r & _ & _ & _ & J)]; [reflexivity | exact (judge_other _ _ _ _ _ _ _ J A B)]. Qed.
  Lemma output_other q p : is_output (snd q) = false -> q <> record_of t p /\ q <> legacy_of p.
  Proof. intros O. split; intros ->; [rewrite record_output in O by exact Ht | rewrite legacy_output in O]; discriminate. Qed.

  (** The record of [p] says what the subject does with [p]. *)
  Definition recorded (fs : files) (p : path) : Prop :=
    exists text n r c, get fs p = Some text /\ subject text = Done n r /\ n <= timeout /\ get fs (record_of t p) = Some c /\ read c = Some r.

  Lemma single_recorded force fs p n b fs' : is_output (snd p) = false -> single force fs p = Returned n (Passed b) fs' -> recorded fs' p.
  Proof.
    intros O E. destruct (output_other p p O) as [A B]. pose proof (single_other _ _ _ _ _ _ p E A B) as Same. destruct (single_inv _ _ _ _ _ _ E) as [[_ N] | (text & r & G & S & L & J)]; [exfalso; apply N; now exists b|].
    rewrite G in Same. unfold judge in J. set (m := migrate t fs p) in *.
    assert (W : forall x : files, x = minsert path_eqb m (record_of t p) (show r) -> get x (record_of t p) = Some (show r)). { intros x ->. unfold get. rewrite gmget_insert. assert (path_eqb (record_of t p) (record_of t p) = true) as -> by now apply path_eqb_spec. reflexivity. }
    destruct (get m (record_of t p)) as [c|] eqn:C; destruct force.
    - injection J as _ J. exists text, n, r, (show r). repeat split; auto.
    - destruct (read c) as [r'|] eqn:Rc; [|discriminate]. injection J as V <-. destruct (eqb r r') eqn:Q; [|discriminate]. apply Heqb in Q. subst r'. exists text, n, r, c. repeat split; auto.
    - injection J as _ J. exists text, n, r, (show r). repeat split; auto.
    - injection J as _ J. exists text, n, r, (show r). repeat split; auto.
  Qed.

  Lemma recorded_kept exts force fs p q n b fs' : selected exts p = true -> selected exts q = true -> single force fs q = Returned n (Passed b) fs' -> recorded fs p -> recorded fs' p.
  Proof.
    intros Sp Sq E (text & k & r & c & G & S & L & C & Rd). destruct (selected_ext _ _ Sp) as (_ & _ & _ & Op), (selected_ext _ _ Sq) as (_ & _ & _ & Oq).
    destruct (path_eqb (record_of t q) (record_of t p)) eqn:Q.
    - apply path_eqb_spec in Q. rewrite (record_beside t exts q Sq), (record_beside t exts p Sp) in Q. apply beside_inj in Q. subst q. exact (single_recorded _ _ _ _ _ _ Op E).
    - assert (N : record_of t p <> record_of t q). { intros H. rewrite H in Q. assert (path_eqb (record_of t q) (record_of t q) = true) by now apply path_eqb_spec. congruence. }
      exists text, k, r, c. destruct (output_other p q Op) as [A B]. rewrite (single_other _ _ _ _ _ _ p E A B), (single_other _ _ _ _ _ _ (record_of t p) E N (record_legacy t p q Ht)). repeat split; auto.
  Qed.

  Lemma all_recorded exts force : forall ps any fs n b fs', Forall (fun p => selected exts p = true) ps -> all force ps any fs = Returned n (Passed b) fs' ->
    Forall (recorded fs') ps /\ (forall p, selected exts p = true -> recorded fs p -> recorded fs' p).
  Proof.
    induction ps as [| p ps IH]; intros any fs n b fs' F E; cbn [run_all] in E; [injection E as _ _ <-; split; [constructor | auto]|]. apply Forall_cons_iff in F. destruct F as [Sp F].
    destruct (single force fs p) as [k v f1 | |] eqn:S1; try discriminate. destruct v as [b1| | | | |]; try discriminate. destruct (all force ps (any || b1) f1) as [m w f2 | |] eqn:S2; try discriminate. injection E as _ -> <-.
    destruct (IH _ _ _ _ _ F S2) as [G K]. split.
    - constructor; [|exact G]. apply K; [exact Sp|]. destruct (selected_ext _ _ Sp) as (_ & _ & _ & Op). exact (single_recorded _ _ _ _ _ _ Op S1).
    - intros q Sq Rq. apply K; [exact Sq|]. exact (recorded_kept exts force fs q p k b1 f1 Sq Sp S1 Rq).
  Qed.

  Lemma all_kept exts force : forall ps any fs n v fs' q, Forall (fun p => selected exts p = true) ps -> all force ps any fs = Returned n v fs' -> is_output (snd q) = false -> get fs' q = get fs q.
  Proof.
    induction ps as [| p ps IH]; intros any fs n v fs' q F E O; cbn [run_all] in E; [injection E as _ _ <-; reflexivity|]. apply Forall_cons_iff in F. destruct F as [_ F]. destruct (output_other q p O) as [A B].
    destruct (single force fs p) as [k w f1 | |] eqn:S1; try discriminate. pose proof (single_other _ _ _ _ _ _ q S1 A B) as Sm. destruct w as [b1| | | | |]; try (injection E as _ _ <-; exact Sm).
    destruct (all force ps (any || b1) f1) as [m w f2 | |] eqn:S2; try discriminate. injection E as _ _ <-. rewrite (IH _ _ _ _ _ q F S2 O). exact Sm.
  Qed.

  (** Without [force] a record is never changed. *)
  Lemma single_record fs p q c n v fs' : single false fs p = Returned n v fs' -> (forall p', q <> legacy_of p') -> get fs q = Some c -> get fs' q = Some c.
  Proof.
    intros E A G. destruct (path_eqb (record_of t p) q) eqn:Q.
    - apply path_eqb_spec in Q. destruct (single_inv _ _ _ _ _ _ E) as [[-> _] | (text & r & _ & _ & _ & J)]; [exact G|]. unfold judge in J. rewrite <- Q in G.
      assert (M : migrate t fs p = fs) by (unfold migrate; now rewrite G). rewrite M, G in J. rewrite <- Q. destruct (read c); injection J as _ <-; exact G.
    - rewrite (single_other _ _ _ _ _ _ q E); [exact G| |apply A]. intros ->. assert (path_eqb (record_of t p) (record_of t p) = true) by now apply path_eqb_spec. congruence.
  Qed.
  Lemma all_record : forall ps any fs n v fs' q c, all false ps any fs = Returned n v fs' -> (forall p', q <> legacy_of p') -> get fs q = Some c -> get fs' q = Some c.
  Proof.
    induction ps as [| p ps IH]; intros any fs n v fs' q c E A G; cbn [run_all] in E; [injection E as _ _ <-; exact G|].
    destruct (single false fs p) as [k w f1 | |] eqn:S1; try discriminate. pose proof (single_record _ _ _ _ _ _ _ S1 A G) as G1. destruct w as [b1| | | | |]; try (injection E as _ _ <-; exact G1).
    destruct (all false ps (any || b1) f1) as [m w f2 | |] eqn:S2; try discriminate. injection E as _ _ <-. exact (IH _ _ _ _ _ _ _ S2 A G1).
  Qed.

  (** A strict tester passes only what had a record. *)
  Definition has (fs : files) (p : path) : Prop := get fs (record_of t p) <> None \/ get fs (legacy_of p) <> None.
  Lemma single_has fs p n b fs' : t_strict t = true -> single false fs p = Returned n (Passed b) fs' -> has fs p /\ fs' = migrate t fs p.
  Proof.
    intros St E. destruct (single_inv _ _ _ _ _ _ E) as [[_ N] | (text & r & G & S & L & J)]; [exfalso; apply N; now exists b|]. unfold judge in J. rewrite St in J. cbn [andb negb] in J.
    destruct (get (migrate t fs p) (record_of t p)) as [c|] eqn:C; [|discriminate]. split; [|destruct (read c); now injection J].
    destruct (get_migrate fs p (record_of t p)) as [M | [(_ & _ & M) | (M & _)]]; [left; congruence | right; congruence | exfalso; exact (record_legacy t p p Ht M)].
  Qed.
  Lemma all_has exts : t_strict t = true -> forall ps any fs n b fs', Forall (fun p => selected exts p = true) ps -> all false ps any fs = Returned n (Passed b) fs' -> Forall (has fs) ps.
  Proof.
    intros St. induction ps as [| p ps IH]; intros any fs n b fs' F E; cbn [run_all] in E; [constructor|]. apply Forall_cons_iff in F. destruct F as [Sp F].
    destruct (single false fs p) as [k v f1 | |] eqn:S1; try discriminate. destruct v as [b1| | | | |]; try discriminate. destruct (all false ps (any || b1) f1) as [m w f2 | |] eqn:S2; try discriminate. injection E as _ -> <-.
    destruct (single_has _ _ _ _ _ St S1) as [H1 ->]. constructor; [exact H1|]. pose proof (IH _ _ _ _ _ F S2) as G. rewrite Forall_forall in G, F |- *. intros q Iq. specialize (G q Iq). specialize (F q Iq).
    destruct G as [G | G].
    - destruct (get_migrate fs p (record_of t q)) as [M | [(M & _) | (M & _)]]; [left; congruence| |exfalso; exact (record_legacy t q p Ht M)].
      rewrite (record_beside t exts q F), (record_beside t exts p Sp) in M. apply beside_inj in M. now subst q.
    - destruct (get_migrate fs p (legacy_of q)) as [M | [(M & _) | (_ & M)]]; [right; congruence | exfalso; exact (record_legacy t p q Ht (eq_sym M)) | congruence].
  Qed.

  (** The files to test are the same after a run. *)
  Lemma find_insert exts fs k c : is_output (snd k) = true -> find_test_files exts (minsert path_eqb fs k c) = find_test_files exts fs /\ find_test_files exts (mremove path_eqb fs k) = find_test_files exts fs.
  Proof.
    intros O. assert (S : selected exts k = false). { unfold selected. rewrite O. destruct (snd (stem_ext (snd k))); [apply andb_false_r | reflexivity]. }
    assert (Rm : find_test_files exts (mremove path_eqb fs k) = find_test_files exts fs).
    { unfold find_test_files, mremove. induction fs as [| [q x] fs IH]; [reflexivity|]. cbn [filter map fst]. destruct (path_eqb q k) eqn:Q; cbn [negb].
      - apply path_eqb_spec in Q. subst q. rewrite IH, S. reflexivity.
      - cbn [map filter fst]. now rewrite IH. }
    split; [|exact Rm]. unfold find_test_files, minsert in *. cbn [map filter fst]. rewrite S. exact Rm.
  Qed.
  Lemma single_find exts force fs p n v fs' : single force fs p = Returned n v fs' -> find_test_files exts fs' = find_test_files exts fs.
  Proof.
    intros E. destruct (single_inv _ _ _ _ _ _ E) as [[-> _] | (text & r & _ & _ & _ & J)]; [reflexivity|].
    assert (M : find_test_files exts (migrate t fs p) = find_test_files exts fs).
    { unfold migrate. destruct (get fs (record_of t p)); [reflexivity|]. destruct (get fs (legacy_of p)) as [c|]; [|reflexivity]. destruct (find_insert exts (mremove path_eqb fs (legacy_of p)) (record_of t p) c (record_output t p Ht)) as [-> _]. apply (find_insert exts fs (legacy_of p) c). apply legacy_output. }
    rewrite <- M. unfold judge in J. destruct (get (migrate t fs p) (record_of t p)) as [c|]; destruct force; try (injection J as _ <-; apply find_insert; now apply record_output). destruct (read c); injection J as _ <-; reflexivity.
  Qed.
  Lemma all_find exts force : forall ps any fs n v fs', all force ps any fs = Returned n v fs' -> find_test_files exts fs' = find_test_files exts fs.
  Proof.
    induction ps as [| p ps IH]; intros any fs n v fs' E; cbn [run_all] in E; [injection E as _ _ <-; reflexivity|].
    destruct (single force fs p) as [k w f1 | |] eqn:S1; try discriminate. pose proof (single_find exts _ _ _ _ _ _ S1) as F1. destruct w as [b1| | | | |]; try (injection E as _ _ <-; exact F1).
    destruct (all force ps (any || b1) f1) as [m w f2 | |] eqn:S2; try discriminate. injection E as _ _ <-. now rewrite (IH _ _ _ _ _ S2).
  Qed.

  Lemma recorded_pass fs p : recorded fs p -> exists n, single false fs p = Returned n (Passed false) fs.
  Proof.
    intros (text & n & r & c & G & S & L & C & Rd). exists n. unfold test_single_file. rewrite G, S. destruct (Nat.ltb_spec timeout n); [lia|]. unfold judge. assert (migrate t fs p = fs) as -> by (unfold migrate; now rewrite C).
    rewrite C, Rd. assert (eqb r r = true) as -> by now apply Heqb. reflexivity.
  Qed.
  Lemma recorded_all : forall ps fs, Forall (recorded fs) ps -> exists n, all false ps false fs = Returned n (Passed false) fs.
  Proof.
    induction ps as [| p ps IH]; intros fs F; cbn [run_all]; [now exists 0|]. apply Forall_cons_iff in F. destruct F as [Rp F]. destruct (recorded_pass fs p Rp) as (n & ->). destruct (IH fs F) as (m & E). cbn [orb]. rewrite E. eexists. reflexivity.
  Qed.

  Lemma found exts fs : Forall (fun p => selected exts p = true) (find_test_files exts fs).
  Proof. apply Forall_forall. intros p I. unfold find_test_files in I. now apply filter_In in I. Qed.
End Runs.

(** ** Trees *)
Lemma dec_inj a b : dec a = dec b -> a = b.
Proof. intros E. pose proof (proj2 (dec_decimal a)) as A. pose proof (proj2 (dec_decimal b)) as B. rewrite E in A. lia. Qed.

Section Ast.
  Variable name : nat -> str.
  Hypothesis Hname : forall a b, name a = name b -> a = b.
  Notation ast_of := (to_ast name).

  Definition leaves_ast (lens : list nat) : list ast := match lens with [] => [] | _ => [Ast (lit "Leaves(" ++ dec (length lens) ++ lit ")") [] (list_sum lens) true] end.
  Lemma to_ast_node k n ch : ast_of (GNode k n ch) = Ast (name k) (map ast_of (sub_nodes ch) ++ leaves_ast (leaf_lens ch)) n false.
  Proof.
    cbn [to_ast]. f_equal. f_equal. unfold sub_nodes. induction ch as [| c ch IH]; [reflexivity|]. destruct c; cbn [flat_map filter map app]; [exact IH | f_equal; exact IH].
  Qed.
  Lemma map_ast_leaf ch : Forall (fun a => match a with Ast _ _ _ b => b = false end) (map ast_of (sub_nodes ch)).
  Proof.
    apply Forall_map, Forall_forall. intros t I. unfold sub_nodes in I. apply filter_In in I. destruct t; [destruct I; discriminate|]. now rewrite to_ast_node.
  Qed.
  Lemma leaves_ast_leaf l : Forall (fun a => match a with Ast _ _ _ b => b = true end) (leaves_ast l).
  Proof. destruct l; cbn; constructor; [reflexivity | constructor]. Qed.
  Lemma split_flag (f : ast -> bool) : forall a a' b b', Forall (fun x => f x = false) a -> Forall (fun x => f x = false) a' -> Forall (fun x => f x = true) b -> Forall (fun x => f x = true) b' -> a ++ b = a' ++ b' -> a = a' /\ b = b'.
  Proof.
    induction a as [| x a IH]; intros a' b b' A A' B B' E.
    - destruct a' as [| y a']; [now split|]. cbn in E. subst b. apply Forall_cons_iff in B, A'. destruct B as [B _], A' as [A' _]. congruence.
    - apply Forall_cons_iff in A. destruct A as [Ax A]. destruct a' as [| y a']; [cbn in E; subst b'; apply Forall_cons_iff in B'; destruct B' as [B' _]; congruence|]. injection E as <- E. apply Forall_cons_iff in A'. destruct (IH a' b b' A (proj2 A') B B' E) as [-> ->]. now split.
  Qed.
  Lemma leaves_ast_eq l l' : leaves_ast l = leaves_ast l' <-> length l = length l' /\ list_sum l = list_sum l'.
  Proof.
    split.
    - destruct l as [| x l], l' as [| y l']; intros E; try discriminate; [now split|]. unfold leaves_ast in E. injection E as E1 E2. apply app_inv_tail in E1. apply dec_inj in E1. split; [exact E1 | exact E2].
    - intros [E1 E2]. destruct l as [| x l], l' as [| y l']; try discriminate; [reflexivity|]. unfold leaves_ast. now rewrite E1, E2.
  Qed.

  Lemma ast_alike t : forall t', (match t with GNode _ _ _ => True | _ => False end) -> (match t' with GNode _ _ _ => True | _ => False end) -> (ast_of t = ast_of t' <-> alike t t').
  Proof.
    induction t as [k n m | k n ch IH] using green_ind'; intros t' H H'; [destruct H|]. destruct t' as [| k' n' ch']; [destruct H'|]. clear H H'. rewrite !to_ast_node.
    assert (Sub : Forall (fun c => forall t', (match t' with GNode _ _ _ => True | _ => False end) -> (ast_of c = ast_of t' <-> alike c t')) (sub_nodes ch)).
    { unfold sub_nodes. clear - IH. induction IH as [| c ch Hc _ IHch]; [constructor|]. destruct c; cbn [filter]; [exact IHch | constructor; [intros t' N; apply Hc; [exact I | exact N] | exact IHch]]. }
    assert (N' : Forall (fun c => match c with GNode _ _ _ => True | _ => False end) (sub_nodes ch')). { apply Forall_forall. intros c Ic. unfold sub_nodes in Ic. apply filter_In in Ic. destruct c; [destruct Ic; discriminate | exact I]. }
    assert (M : map ast_of (sub_nodes ch) = map ast_of (sub_nodes ch') <-> Forall2 alike (sub_nodes ch) (sub_nodes ch')).
    { clear - Sub N'. revert N'. generalize (sub_nodes ch') as l'. induction Sub as [| c l Hc _ IHl]; intros l' N'; destruct l' as [| c' l']; cbn [map]; split; intros E; try discriminate; try (now constructor); try (now inversion E).
      - apply Forall_cons_iff in N'. destruct N' as [Nc N']. injection E as E1 E2. constructor; [now apply Hc | now apply IHl].
      - apply Forall_cons_iff in N'. destruct N' as [Nc N']. inversion E; subst. f_equal; [now apply Hc | now apply IHl]. }
    split.
    - intros E. injection E as E1 E2 ->. apply Hname in E1. subst k'. apply (split_flag (fun a => match a with Ast _ _ _ b => b end)) in E2.
      + destruct E2 as [E2 E3]. apply leaves_ast_eq in E3. constructor; [now apply M | apply E3 | apply E3].
      + eapply Forall_impl; [|apply map_ast_leaf]. now intros [].
      + eapply Forall_impl; [|apply map_ast_leaf]. now intros [].
      + eapply Forall_impl; [|apply leaves_ast_leaf]. now intros [].
      + eapply Forall_impl; [|apply leaves_ast_leaf]. now intros [].
    - intros A. inversion A; subst. f_equal. f_equal; [now apply M | now apply leaves_ast_eq].
  Qed.

  Lemma existsb_leaf ch : existsb (fun c => match c with GLeaf _ _ _ => true | _ => false end) ch = match leaf_lens ch with [] => false | _ => true end.
  Proof. induction ch as [| c ch IH]; [reflexivity|]. destruct c; cbn [existsb leaf_lens flat_map app]; [reflexivity | exact IH]. Qed.
  Lemma count_alike t : (match t with GNode _ _ _ => True | _ => False end) -> count_nodes (ast_of t) = nodes_of t + leafy t.
  Proof.
    clear Hname. induction t as [k n m | k n ch IH] using green_ind'; intros H; [destruct H|]. rewrite to_ast_node. cbn [count_nodes nodes_of leafy]. rewrite existsb_leaf, map_app, list_sum_app.
    assert (E : list_sum (map count_nodes (map ast_of (sub_nodes ch))) = list_sum (map nodes_of ch) + list_sum (map leafy ch)).
    { clear - IH. unfold sub_nodes. induction IH as [| c ch Hc _ IHch]; [reflexivity|]. destruct c; cbn [filter map list_sum fold_right].
      - cbn [nodes_of leafy]. exact IHch.
      - fold (list_sum (map count_nodes (map ast_of (filter (fun c => match c with GNode _ _ _ => true | GLeaf _ _ _ => false end) ch)))). fold (list_sum (map nodes_of ch)). fold (list_sum (map leafy ch)). rewrite IHch, (Hc I). lia. }
    rewrite E. destruct (leaf_lens ch); cbn; lia.
  Qed.
End Ast.

(** ** Which files are tested *)
Lemma split_last_iff s : forall a b, split_last s = Some (a, b) <-> s = a ++ lit "." ++ b /\ ~ In 46%Z b.
Proof.
  assert (N : forall s, split_last s = None <-> ~ In 46%Z s).
  { clear s. induction s as [| c r IH]; cbn [split_last In]; [tauto|]. destruct (split_last r) as [[a b]|]; [split; [discriminate|intros H; exfalso; apply H; right; destruct (in_dec Z.eq_dec 46%Z r) as [i|i]; [exact i | apply IH in i; discriminate]]|].
    destruct (Z.eqb_spec c 46) as [-> | C]; [split; [discriminate | intros H; exfalso; apply H; now left]|]. split; [intros _ [H | H]; [congruence | now apply IH in H] | reflexivity]. }
  induction s as [| c r IH]; intros a b; cbn [split_last].
  - split; [discriminate|]. intros [E _]. destruct a; discriminate.
  - destruct (split_last r) as [[a' b']|] eqn:E.
    + destruct (proj1 (IH a' b') eq_refl) as [Er Nb]. split.
      * intros [= <- <-]. split; [cbn; now rewrite Er | exact Nb].
      * intros [Ec Nb']. destruct a as [| x a].
        { cbn in Ec. injection Ec as _ ->. exfalso. apply Nb'. rewrite Er. apply in_or_app. right. now left. }
        injection Ec as <- Ec. assert (K : Some (a', b') = Some (a, b)) by (apply IH; now split). injection K as -> ->. reflexivity.
    + apply N in E. destruct (Z.eqb_spec c 46) as [-> | C].
      * split; [intros [= <- <-]; now split|]. intros [Ec Nb]. destruct a as [| x a]; [cbn in Ec; now injection Ec as ->|]. injection Ec as _ ->. exfalso. apply E. apply in_or_app. right. now left.
      * split; [discriminate|]. intros [Ec Nb]. destruct a as [| x a]; cbn in Ec; injection Ec as -> Ec; [congruence|]. subst r. exfalso. apply E. apply in_or_app. right. now left.
Qed.

Lemma selected_iff exts p : selected exts p = true <-> test_file exts p.
Proof.
  unfold selected, test_file. assert (O : is_output (snd p) = false <-> forall a e, In e [lit ".parsed.json"; lit ".lexed.json"; lit ".built.json"; lit ".expected.json"] -> snd p <> a ++ e).
  { unfold is_output. rewrite !orb_false_iff. split.
    - intros [[[A B] C] D] a e H E. assert (W : ends_with (snd p) e = true) by (apply ends_with_iff; now exists a). destruct H as [<- | [<- | [<- | [<- | []]]]]; congruence.
    - intros H. assert (W : forall e, In e [lit ".parsed.json"; lit ".lexed.json"; lit ".built.json"; lit ".expected.json"] -> ends_with (snd p) e = false).
      { intros e I. destruct (ends_with (snd p) e) eqn:E; [|reflexivity]. apply ends_with_iff in E. destruct E as [a E]. exfalso. exact (H a e I E). }
      repeat split; apply W; cbn; auto. }
  rewrite <- O. clear O. unfold stem_ext. split.
  - destruct (split_last (snd p)) as [[[| c a] b]|] eqn:E; cbn [snd]; try discriminate. apply split_last_iff in E. destruct E as [E N]. intros H. apply andb_true_iff in H. destruct H as [H1 H2]. split; [|now destruct (is_output (snd p))].
    exists (c :: a), b. repeat split; try assumption; try discriminate. apply existsb_exists in H1. destruct H1 as (e & I & Q). apply str_eqb_spec in Q. now subst e.
  - intros [(a & e & E & Na & Ne & I) ->]. assert (S : split_last (snd p) = Some (a, e)) by (apply split_last_iff; now split). rewrite S. destruct a as [| c a]; [contradiction|]. cbn [snd]. rewrite andb_true_r. apply existsb_exists. exists e. split; [exact I | now apply str_eqb_spec].
Qed.
