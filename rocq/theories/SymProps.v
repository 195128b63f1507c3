(** Theorems about symbol tables, document symbols, references, definitions and workspace folders. *)
From Verif Require Import Base Utf8 VfsModel VfsProofs TreeModel TreeSpec TreeProofs SymModel SymSpec SymProofs.

(** ** The symbol table *)

(** The table after a history of updates (newest first). *)
Definition after_history (h : list update) : symbol_table :=
  fold_right (fun u t => update_file_symbols t (fst u) (snd u)) table_new h.

(** C48: the symbols of a file are those of its newest update. *)
Theorem file_symbols_current : forall h u, current h u (query_file (after_history h) u).
Proof. exact files_current. Qed.
Print Assumptions file_symbols_current.

(** C48: what a lookup finds is defined under that name by some file as it is now. *)
Theorem lookup_never_stale : forall h q s, lookup (after_history h) q = Some s ->
  exists u l, current h u l /\ In s l /\ named q s.
Proof. exact lookup_sound. Qed.
Print Assumptions lookup_never_stale.

(** C48, if no update gives a file a name another file has: a lookup finds exactly the last definition of the
    name in the file that defines it. *)
Theorem lookup_current_partial : forall h, calm h -> forall q s,
  lookup (after_history h) q = Some s <-> exists u l, current h u l /\ last_named q l s.
Proof. exact lookup_calm. Qed.
Print Assumptions lookup_current_partial.

Definition sym (name uri : str) (a b : nat) (c : option str) : symbol := Symbol name uri (a, b) c.

(** C48 fails: two files define [x]; when one of them stops, the lookup finds nothing. *)
Theorem lookup_current_refuted : exists h q u l s, current h u l /\ In s l /\ named q s /\ lookup (after_history h) q = None.
Proof.
  exists [(lit "a", []); (lit "b", [sym (lit "x") (lit "b") 0 1 None]); (lit "a", [sym (lit "x") (lit "a") 0 1 None])],
    (lit "x"), (lit "b"), [sym (lit "x") (lit "b") 0 1 None], (sym (lit "x") (lit "b") 0 1 None).
  split; [|split; [now left | split; [reflexivity | vm_compute; reflexivity]]].
  apply COther; [discriminate|]. apply CHere.
Qed.
Print Assumptions lookup_current_refuted.

Example calm_case : calm [(lit "b", [sym (lit "y") (lit "b") 0 1 None]); (lit "a", [sym (lit "x") (lit "a") 0 1 (Some (lit "m"))])] /\
  lookup (after_history [(lit "b", [sym (lit "y") (lit "b") 0 1 None]); (lit "a", [sym (lit "x") (lit "a") 0 1 (Some (lit "m"))])]) (lit "m::x")
  = Some (sym (lit "x") (lit "a") 0 1 (Some (lit "m"))).
Proof.
  split; [|reflexivity]. apply CalmCons; [apply CalmCons; [constructor|]|].
  - intros v lv q s s' N H. inv H. contradiction.
  - intros v lv q s s' N H [<- | []] Hi Hn. cbn in Hn. subst q. inversion H; subst.
    + destruct Hi as [<- | []]. vm_compute. discriminate.
    + match goal with G : current [] _ _ |- _ => inv G end. contradiction.
Qed.

(** A query lists exactly what lookups of the names containing the text find. *)
Theorem query_matches_lookup : forall h p s, In s (query (after_history h) p) <->
  exists q, substring p q /\ lookup (after_history h) q = Some s.
Proof. exact query_lookup. Qed.
Print Assumptions query_matches_lookup.

Example query_case : query (after_history [(lit "a", [sym (lit "xy") (lit "a") 0 1 (Some (lit "m")); sym (lit "z") (lit "a") 2 3 None])]) (lit "::x")
  = [sym (lit "xy") (lit "a") 0 1 (Some (lit "m"))].
Proof. reflexivity. Qed.

(** C86 fails: of two methods [f::x] in different classes of the same file, only one is listed. *)
Theorem query_lists_all_refuted : exists h u l s p, current h u l /\ In s l /\ (forall q, named q s -> substring p q) /\
  ~ In s (query (after_history h) p).
Proof.
  set (l := [sym (lit "x") (lit "a") 10 12 (Some (lit "f")); sym (lit "x") (lit "a") 30 32 (Some (lit "f"))]).
  exists [(lit "a", l)], (lit "a"), l, (sym (lit "x") (lit "a") 10 12 (Some (lit "f"))), (lit "x").
  split; [apply CHere|]. split; [now left|]. split.
  - intros q ->. exists (lit "f::"), []. reflexivity.
  - vm_compute. intros [H | []]. discriminate.
Qed.
Print Assumptions query_lists_all_refuted.

(** C86, for calm histories whose files define each name once: every current symbol whose qualified name
    contains the text is listed, and only such symbols. *)
Theorem query_lists_all_partial : forall h, calm h ->
  (forall u l, current h u l -> NoDup (map qualified_name l)) ->
  forall p s, In s (query (after_history h) p) <-> exists q u l, current h u l /\ In s l /\ named q s /\ substring p q.
Proof.
  intros h Hc Hn p s. rewrite query_lookup. split.
  - intros (q & Hs & Hl). destruct (lookup_sound h q s Hl) as (u & l & H1 & H2 & H3). now exists q, u, l.
  - intros (q & u & l & H1 & H2 & H3 & H4). exists q. split; [assumption|]. apply (lookup_calm h Hc). exists u, l.
    split; [assumption|]. apply in_split in H2. destruct H2 as (l1 & l2 & ->). exists l1, l2. repeat split; [assumption|].
    intros s' Hi Hs'. specialize (Hn _ _ H1). rewrite map_app in Hn. cbn [map] in Hn. apply NoDup_remove_2 in Hn.
    apply Hn. apply in_or_app. right. apply named_iff in H3, Hs'. rewrite H3, <- Hs'. now apply in_map.
Qed.
Print Assumptions query_lists_all_partial.

(** ** Document symbols *)

(** C49 *)
Theorem document_symbols_exact : forall is_definition is_name debug_kind text_in uri root, built root ->
  document_symbols is_definition is_name debug_kind text_in uri root =
  definitions_of is_definition is_name debug_kind text_in uri root.
Proof. intros. unfold document_symbols, definitions_of. now apply (collect_spec is_definition is_name debug_kind text_in uri root H 0 []). Qed.
Print Assumptions document_symbols_exact.

(** The surroundings-listing of the specification runs through all elements in document order. *)
Theorem scoped_lists_elements : forall root, map fst (scoped root 0 []) = elements root 0.
Proof. intros. apply scoped_elements. Qed.
Print Assumptions scoped_lists_elements.

Example document_symbols_case :
  (* kind 1: class, 2: function, 3: body, 9: name *)
  let f := GNode 2 3 [GLeaf 9 1 None; GLeaf 5 2 None] in
  let root := GNode 0 9 [GNode 1 9 [GLeaf 5 1 None; GLeaf 9 2 None; GNode 3 6 [f; f]]] in
  built root /\
  map (fun s => (sy_range s, sy_container s))
    (document_symbols (fun k => (k =? 1) || (k =? 2)) (fun k => k =? 9) (fun _ => []) (fun a b => [Z.of_nat a; Z.of_nat b]) [] root)
  = [((0, 9), None); ((3, 6), Some [1; 3]%Z); ((6, 9), Some [1; 3]%Z)].
Proof.
  intros f root. split; [|reflexivity].
  assert (Hf : built f) by (eapply (BNode 2 [GLeaf 9 1 None; GLeaf 5 2 None]); [repeat constructor | reflexivity]).
  eapply (BNode 0 [GNode 1 9 [GLeaf 5 1 None; GLeaf 9 2 None; GNode 3 6 [f; f]]]); [|reflexivity]. constructor; [|constructor].
  eapply (BNode 1 [GLeaf 5 1 None; GLeaf 9 2 None; GNode 3 6 [f; f]]); [|reflexivity].
  constructor; [apply BLeaf|]. constructor; [apply BLeaf|]. constructor; [|constructor].
  eapply (BNode 3 [f; f]); [|reflexivity]. constructor; [exact Hf|]. constructor; [exact Hf | constructor].
Qed.

(** ** References *)

(** C50 *)
Theorem references_exact : forall is_name source name root fuel, built root -> depth root <= fuel ->
  (forall k a b, In (k, a, b) (leaves root 0) -> is_name k = true -> str_get source a b <> None) ->
  find_references is_name name source fuel root =
  Some (map leaf_span (filter (refers is_name source name) (leaves root 0))).
Proof.
  intros is_name source name root fuel Hb Hd Hr. apply find_references_spec; try assumption.
  intros [[k a] b] Hi. cbn. now apply Hr.
Qed.
Print Assumptions references_exact.

(** Without that the search panics. *)
Theorem references_panic : forall is_name source name root fuel k a b, built root -> depth root <= fuel ->
  In (k, a, b) (leaves root 0) -> is_name k = true -> str_get source a b = None ->
  find_references is_name name source fuel root = None.
Proof.
  intros is_name source name root fuel k a b Hb Hd Hi Hk Hs.
  apply (find_references_panics is_name source name fuel root (k, a, b)); try assumption.
  cbn. intros H. now apply H.
Qed.
Print Assumptions references_panic.

(** The spans found for a nonempty name are all different and nonempty. *)
Theorem references_distinct : forall is_name source name root fuel refs, built root -> depth root <= fuel -> name <> [] ->
  find_references is_name name source fuel root = Some refs ->
  NoDup refs /\ forall r, In r refs -> fst r < snd r.
Proof.
  intros is_name source name root fuel refs Hb Hd Hn E.
  assert (Hr : forall k a b, In (k, a, b) (leaves root 0) -> is_name k = true -> str_get source a b <> None).
  { intros k a b Hi Hk Hs. rewrite (references_panic _ _ _ _ _ k a b Hb Hd Hi Hk Hs) in E. discriminate. }
  rewrite (references_exact _ _ _ _ _ Hb Hd Hr) in E. injection E as <-.
  destruct (references_nodup is_name source name 0 (leaves root 0) (0 + width root) Hn (leaves_tile root 0)) as [H1 H2].
  split; [assumption|]. intros r Hi. now apply H2 in Hi.
Qed.
Print Assumptions references_distinct.

Example references_case :
  find_references (fun k => k =? 9) (lit "ab") (lit "ab(ab)abc") 3
    (GNode 0 9 [GLeaf 9 2 None; GNode 1 4 [GLeaf 1 1 None; GLeaf 9 2 None; GLeaf 1 1 None]; GLeaf 9 3 None]) = Some [(0, 2); (3, 5)].
Proof. reflexivity. Qed.

(** ** Workspace folders *)

(** C51: the folder found contains the file. *)
Theorem find_root_contains : forall to_path folders uri u, find_root to_path folders uri = Some u ->
  exists path p, to_path uri = Some path /\ In (u, p) folders /\ inside path p.
Proof.
  intros to_path folders uri u E. destruct (to_path uri) as [path|] eqn:P; [|unfold find_root in E; rewrite P in E; discriminate].
  assert (H := find_root_spec to_path folders uri path P). rewrite E in H. destruct H as (p & H1 & H2 & _). now exists path, p.
Qed.
Print Assumptions find_root_contains.

(** C51: a file is within the workspace exactly if some folder contains it. *)
Theorem within_workspace_iff : forall to_path folders uri path, to_path uri = Some path ->
  is_within_workspace to_path folders uri = true <-> exists u p, In (u, p) folders /\ inside path p.
Proof.
  intros to_path folders uri path P. assert (H := find_root_spec to_path folders uri path P). unfold is_within_workspace.
  destruct (find_root to_path folders uri) as [u|]; split; intros G; try discriminate; try reflexivity.
  - destruct H as (p & H1 & H2 & _). now exists u, p.
  - destruct G as (u & p & G1 & G2). elim (H u p G1 G2).
Qed.
Print Assumptions within_workspace_iff.

(** C51, for folder paths without redundant separators: no folder containing the file is deeper. *)
Theorem find_root_innermost_partial : forall to_path folders uri path u, (forall v p, In (v, p) folders -> tidy p) ->
  to_path uri = Some path -> find_root to_path folders uri = Some u ->
  exists p, In (u, p) folders /\ inside path p /\ forall v q, In (v, q) folders -> inside path q -> ~ deeper q p.
Proof.
  intros to_path folders uri path u Ht P E. assert (H := find_root_spec to_path folders uri path P). rewrite E in H.
  destruct H as (p & H1 & H2 & H3). exists p. repeat split; try assumption. intros v q Hq Iq D.
  assert (length p < length q) by (eapply (tidy_longer path); eauto). specialize (H3 v q Hq Iq). lia.
Qed.
Print Assumptions find_root_innermost_partial.

(** C51: the folder found does not depend on the order of iteration. *)
Theorem find_root_order_irrelevant : forall to_path folders folders' uri, (forall v p, In (v, p) folders -> tidy p) ->
  NoDup (map snd folders) -> Permutation folders folders' ->
  find_root to_path folders uri = find_root to_path folders' uri.
Proof.
  intros to_path folders folders' uri Ht Hn Hp.
  destruct (to_path uri) as [path|] eqn:P; [|unfold find_root; now rewrite P].
  assert (H := find_root_spec to_path folders uri path P). assert (H' := find_root_spec to_path folders' uri path P).
  assert (Ht' : forall v p, In (v, p) folders' -> tidy p) by (intros v p Hi; eapply Ht, Permutation_in; [symmetry|]; eassumption).
  destruct (find_root to_path folders uri) as [u|], (find_root to_path folders' uri) as [u'|].
  - destruct H as (p & H1 & H2 & H3), H' as (p' & H1' & H2' & H3').
    assert (I' : In (u', p') folders) by (eapply Permutation_in; [symmetry|]; eassumption).
    assert (I : In (u, p) folders') by (eapply Permutation_in; eassumption).
    assert (L : length p = length p') by (specialize (H3 _ _ I' H2'); specialize (H3' _ _ I H2); lia).
    assert (p = p') as <-.
    { assert (N1 : ~ deeper p p') by (intros D; assert (length p' < length p) by (eapply (tidy_longer path); eauto); lia).
      assert (N2 : ~ deeper p' p) by (intros D; assert (length p < length p') by (eapply (tidy_longer path); eauto); lia).
      rewrite deeper_iff in N1, N2.
      destruct (Ht _ _ H1) as (l & Fl & El), (Ht _ _ I') as (m & Fm & Em).
      assert (Cl : components p = l).
      { destruct (tidy_names p (Ht _ _ H1)) as (l0 & Hl0 & _). apply names_iff in Hl0.
        assert (G : names p l); [|now apply names_iff in G]. clear -Fl El.
        assert (G : forall e, names e [] -> ends_name e -> names (flat_map (fun n => 47%Z :: n) l ++ e) l /\ ends_name (flat_map (fun n => 47%Z :: n) l ++ e)).
        { clear El. intros e He Ee. induction Fl as [| n l (N1 & N2 & N3) Fl IH]; [split; assumption|]. destruct IH as [I1 I2]. split; [|reflexivity].
          cbn [flat_map app]. apply NSlash. rewrite <- app_assoc. now apply NName. }
        destruct El as [-> | ->]; [rewrite <- (app_nil_r (flat_map _ _)); apply G; [constructor | exact I] | apply G; [repeat constructor | reflexivity]]. }
      assert (Cm : components p' = m).
      { assert (G : names p' m); [|now apply names_iff in G]. clear -Fm Em.
        assert (G : forall e, names e [] -> ends_name e -> names (flat_map (fun n => 47%Z :: n) m ++ e) m /\ ends_name (flat_map (fun n => 47%Z :: n) m ++ e)).
        { clear Em. intros e He Ee. induction Fm as [| n l (N1 & N2 & N3) Fl IH]; [split; assumption|]. destruct IH as [I1 I2]. split; [|reflexivity].
          cbn [flat_map app]. apply NSlash. rewrite <- app_assoc. now apply NName. }
        destruct Em as [-> | ->]; [rewrite <- (app_nil_r (flat_map _ _)); apply G; [constructor | exact I] | apply G; [repeat constructor | reflexivity]]. }
      assert (l = m) as <-.
      { apply inside_iff in H2, H2'. unfold path_starts_with in *. rewrite comps_prefix_spec in H2, H2'.
        destruct H2 as (r & E1), H2' as (r' & E2). rewrite Cl, Cm in N1, N2. rewrite Cl in E1. rewrite Cm in E2. clear L. unfold str in *.
        assert (LL : length l = length m) by lia. rewrite E1 in E2. clear -E2 LL. revert m E2 LL.
        induction l as [| a l IH]; intros [| b m] E LL; cbn in LL; try lia; [reflexivity|]. injection E as -> E. f_equal. apply IH; [assumption | lia]. }
      destruct El as [-> | ->], Em as [-> | ->]; try reflexivity; exfalso; rewrite app_length in L; cbn in L; lia. }
    f_equal. clear -Hn H1 I'.
    induction folders as [| [v q] r IH]; [contradiction|]. cbn [map snd] in Hn. inv Hn.
    destruct H1 as [H1 | H1], I' as [I' | I'].
    + congruence.
    + exfalso. apply H2. apply (in_map snd) in I'. cbn [snd] in I'. congruence.
    + exfalso. apply H2. apply (in_map snd) in H1. cbn [snd] in H1. congruence.
    + now apply IH.
  - destruct H as (p & H1 & H2 & H3). exfalso. eapply (H' u p); [eapply Permutation_in; eassumption | assumption].
  - destruct H' as (p & H1 & H2 & H3). exfalso. eapply (H u' p); [eapply Permutation_in; [symmetry|]; eassumption | assumption].
  - reflexivity.
Qed.
Print Assumptions find_root_order_irrelevant.

(** C51 fails: a folder opened with redundant slashes is longer than the folder nested in it. *)
Theorem find_root_innermost_refuted : exists to_path folders uri path u v q, to_path uri = Some path /\
  find_root to_path folders uri = Some u /\ In (v, q) folders /\ inside path q /\
  forall p, In (u, p) folders -> deeper q p.
Proof.
  exists (fun s => Some s), [(lit "x", lit "/a////"); (lit "y", lit "/a/b")], (lit "/a/b/c"), (lit "/a/b/c"),
    (lit "x"), (lit "y"), (lit "/a/b").
  split; [reflexivity|]. split; [reflexivity|]. split; [right; now left|]. split; [apply inside_iff; reflexivity|].
  intros p [[= <-] | [[=] | []]]. apply deeper_iff. vm_compute. lia.
Qed.
Print Assumptions find_root_innermost_refuted.

Example find_root_case : find_root (fun s => Some s) [(lit "r", lit "/"); (lit "x", lit "/a/"); (lit "y", lit "/a/b"); (lit "z", lit "/a/bc")] (lit "/a/b/c")
  = Some (lit "y") /\ tidy (lit "/a/").
Proof.
  split; [reflexivity|]. exists [lit "a"]. split; [|right; reflexivity]. constructor; [|constructor].
  split; [discriminate|]. split; [discriminate|]. vm_compute. intros [H | []]. discriminate.
Qed.

(** ** Going to a definition *)

Lemma index_loop_at c after : forall before rel idx pos, Forall built (before ++ c :: after) ->
  pos + list_sum (map width before) <= rel < pos + list_sum (map width before) + width c ->
  index_loop rel (before ++ c :: after) idx pos = Some (idx + length before).
Proof.
  induction before as [| b r IH]; intros rel idx pos Hb Hr; inversion Hb; subst; cbn [app index_loop map length] in *.
  - rewrite glen_width by assumption. change (list_sum []) with 0 in Hr. destruct (Nat.ltb_spec rel (pos + width c)); [f_equal; lia | lia].
  - rewrite glen_width by assumption. rewrite list_sum_cons in Hr. destruct (Nat.ltb_spec rel (pos + width b)); [lia|].
    rewrite IH by (assumption || lia). f_equal. lia.
Qed.

(** C85, for references directly below the root: the definition found is the last one of that name in the file
    that defines it. *)
Theorem definition_found_partial : forall is_reference text_in resolve h uri k0 n0 before k n ch after start u l s,
  let root := GNode k0 n0 (before ++ GNode k n ch :: after) in
  let off := list_sum (map width before) in
  built root -> calm h -> is_reference k = true -> off <= start < off + n ->
  current h u l -> last_named (text_in off (off + n)) l s ->
  definition is_reference text_in resolve (after_history h) uri root start = [(sy_uri s, sy_range s)].
Proof.
  intros is_reference text_in resolve h uri k0 n0 before k n ch after start u l s root off Hb Hc Hk Hs Hu Hl.
  assert (Hlen := node_len _ _ _ Hb). destruct (built_node _ _ _ Hb) as [Hf _].
  assert (Hn : width (GNode k n ch) = n).
  { apply Forall_app in Hf. destruct Hf as [_ Hf]. inversion Hf; subst. rewrite <- (glen_width _ H1). reflexivity. }
  assert (E : child_at_offset n0 (before ++ GNode k n ch :: after) 0 start = Some (RNode k n ch off)).
  { unfold child_at_offset, child_index_at_offset. rewrite Hlen, map_app, list_sum_app. cbn [map]. rewrite list_sum_cons, Hn. fold off.
    replace ((start <? 0) || (0 + (off + (n + list_sum (map width after))) <=? start)) with false by (symmetry; apply orb_false_iff; lia).
    rewrite index_loop_at by (try assumption; rewrite Hn; fold off; lia). cbn [Nat.add].
    rewrite (child_at_some _ 0 (length before) (GNode k n ch)) by (try assumption; rewrite nth_error_app2, Nat.sub_diag by lia; reflexivity).
    rewrite firstn_app, firstn_all, Nat.sub_diag. cbn [firstn red_of]. rewrite app_nil_r. reflexivity. }
  unfold root, definition. rewrite E, Hk. fold (after_history h).
  assert (L : lookup (after_history h) (text_in off (off + n)) = Some s) by (apply (lookup_calm h Hc); now exists u, l).
  rewrite L. reflexivity.
Qed.
Print Assumptions definition_found_partial.

Example definition_case :
  let h := [(lit "b", [sym (lit "x") (lit "b") 4 5 None])] in
  definition (fun k => k =? 7) (fun a b => substr (lit "x y") a b) (fun _ _ => None) (after_history h) (lit "a")
    (GNode 0 3 [GNode 7 1 [GLeaf 1 1 None]; GLeaf 2 1 None; GNode 7 1 [GLeaf 1 1 None]]) 0 = [(lit "b", (4, 5))].
Proof. reflexivity. Qed.

(** C85 fails: a reference inside a statement is not resolved though the table has its name. *)
Theorem definition_found_refuted : exists is_reference text_in resolve t uri root start k n ch off s,
  built root /\ In (GNode k n ch, off) (elements root 0) /\ is_reference k = true /\ off <= start < off + n /\
  lookup t (text_in off (off + n)) = Some s /\
  definition is_reference text_in resolve t uri root start = [].
Proof.
  exists (fun k => k =? 7), (fun a b => substr (lit "x") a b), (fun _ _ => None),
    (after_history [(lit "b", [sym (lit "x") (lit "b") 4 5 None])]), (lit "a"),
    (GNode 0 1 [GNode 1 1 [GNode 7 1 [GLeaf 9 1 None]]]), 0, 7, 1, [GLeaf 9 1 None], 0, (sym (lit "x") (lit "b") 4 5 None).
  split.
  { eapply (BNode 0 [GNode 1 1 [GNode 7 1 [GLeaf 9 1 None]]]); [|reflexivity]. constructor; [|constructor].
    eapply (BNode 1 [GNode 7 1 [GLeaf 9 1 None]]); [|reflexivity]. constructor; [|constructor].
    eapply (BNode 7 [GLeaf 9 1 None]); [|reflexivity]. repeat constructor. }
  split; [right; right; now left|]. split; [reflexivity|]. split; [lia|]. split; reflexivity.
Qed.
Print Assumptions definition_found_refuted.

(** C85 fails also for a name token directly below the root: it is its own definition, whatever the table says. *)
Theorem token_is_own_definition : forall is_reference text_in resolve t uri k0 n0 before k n m after start,
  let root := GNode k0 n0 (before ++ GLeaf k n m :: after) in
  let off := list_sum (map width before) in
  built root -> off <= start < off + n ->
  definition is_reference text_in resolve t uri root start = [(uri, (off, off + n))].
Proof.
  intros is_reference text_in resolve t uri k0 n0 before k n m after start root off Hb Hs.
  assert (Hlen := node_len _ _ _ Hb). destruct (built_node _ _ _ Hb) as [Hf _].
  assert (E : child_at_offset n0 (before ++ GLeaf k n m :: after) 0 start = Some (RLeaf k off (off + n))).
  { unfold child_at_offset, child_index_at_offset. rewrite Hlen, map_app, list_sum_app. cbn [map]. rewrite list_sum_cons. fold off. cbn [width].
    replace ((start <? 0) || (0 + (off + (n + list_sum (map width after))) <=? start)) with false by (symmetry; apply orb_false_iff; lia).
    rewrite index_loop_at by (try assumption; cbn [width]; fold off; lia). cbn [Nat.add].
    rewrite (child_at_some _ 0 (length before) (GLeaf k n m)) by (try assumption; rewrite nth_error_app2, Nat.sub_diag by lia; reflexivity).
    rewrite firstn_app, firstn_all, Nat.sub_diag. cbn [firstn red_of]. rewrite app_nil_r. reflexivity. }
  unfold root, definition. rewrite E. reflexivity.
Qed.
Print Assumptions token_is_own_definition.

(** C87 fails: the service lists no symbols for a file that is not in the index, though it can be parsed and has
    definitions. *)
Theorem service_symbols_refuted : exists is_definition is_name debug_kind text_in uri root t,
  built root /\ document_symbols is_definition is_name debug_kind text_in uri root <> [] /\
  service_symbols t true true uri = [].
Proof.
  exists (fun k => k =? 1), (fun k => k =? 9), (fun _ => []), (fun _ _ => lit "x"), (lit "a"), (GNode 1 1 [GLeaf 9 1 None]), table_new.
  split; [eapply (BNode 1 [GLeaf 9 1 None]); [repeat constructor | reflexivity]|]. split; [discriminate | reflexivity].
Qed.
Print Assumptions service_symbols_refuted.

(** C87, for files in the index. *)
Theorem service_symbols_partial : forall h uri l, current h uri l -> service_symbols (after_history h) true true uri = l.
Proof. intros h uri l H. cbn. eapply current_fun; [apply files_current | assumption]. Qed.
Print Assumptions service_symbols_partial.

Example service_symbols_case : service_symbols (after_history [(lit "a", [sym (lit "x") (lit "a") 0 1 None])]) true true (lit "a") = [sym (lit "x") (lit "a") 0 1 None].
Proof. reflexivity. Qed.

(** ** Imports *)

(** The places where an import is looked for, in order of preference. *)
Definition import_places (join : str -> str -> str) (dir : str) (roots : list str) (import : str) : list str :=
  map (fun d => join d import) (dir :: roots).

(** C88: an import goes to the first place that exists. *)
Theorem import_first_existing : forall to_path of_path parent join exists_ roots base import path dir,
  to_path base = Some path -> parent path = Some dir ->
  match resolve to_path of_path parent join exists_ roots base import with
  | Some u => exists l p r, import_places join dir roots import = l ++ p :: r /\ exists_ p = true /\
                of_path p = Some u /\ forall x, In x l -> exists_ x = false
  | None => (forall x, In x (import_places join dir roots import) -> exists_ x = false) \/
            exists p, In p (import_places join dir roots import) /\ exists_ p = true /\ of_path p = None
  end.
Proof.
  intros to_path of_path parent join exists_ roots base import path dir H1 H2. unfold resolve, import_places. rewrite H1, H2.
  cbn [map]. destruct (exists_ (join dir import)) eqn:E.
  - destruct (of_path (join dir import)) eqn:O.
    + exists [], (join dir import), (map (fun d => join d import) roots). repeat split; try assumption. contradiction.
    + right. exists (join dir import). split; [now left | now split].
  - induction roots as [| r rs IH]; cbn [resolve_roots map].
    + left. intros x [<- | []]. assumption.
    + destruct (exists_ (join r import)) eqn:E'.
      * destruct (of_path (join r import)) eqn:O.
        -- exists [join dir import], (join r import), (map (fun d => join d import) rs). repeat split; try assumption.
           intros x [<- | []]. assumption.
        -- right. exists (join r import). split; [right; now left | now split].
      * destruct (resolve_roots of_path join exists_ rs import).
        -- destruct IH as (l & p & q & G1 & G2 & G3 & G4). destruct l as [| y l].
           ++ cbn in G1. injection G1 as <- <-. congruence.
           ++ injection G1 as <- G1. exists (join dir import :: join r import :: l), p, q. cbn [app]. rewrite G1.
              repeat split; try assumption. intros x [<- | [<- | Hx]]; try assumption. apply G4. now right.
        -- destruct IH as [IH | (p & Hp & G)].
           ++ left. intros x [<- | [<- | Hx]]; try assumption. apply IH. now right.
           ++ right. exists p. split; [|assumption]. destruct Hp as [<- | Hp]; [now left | right; now right].
Qed.
Print Assumptions import_first_existing.

Lemma ws_open_roots to_path us : forall fr u p, In u us -> to_path u = Some p -> In p (snd (fold_left (ws_open to_path) us fr)).
Proof.
  assert (M : forall us fr p, In p (snd fr) -> In p (snd (fold_left (ws_open to_path) us fr))).
  { induction us0 as [| v r IH]; intros fr p H; [assumption|]. cbn [fold_left]. apply IH. unfold ws_open.
    destruct (to_path v); [cbn; apply in_or_app; now left | assumption]. }
  induction us as [| v r IH]; intros fr u p Hi Hp; [contradiction|]. cbn [fold_left]. destruct Hi as [-> | Hi].
  - apply M. unfold ws_open. rewrite Hp. cbn. apply in_or_app. right. now left.
  - eapply IH; eassumption.
Qed.

(** C88, for folders given at initialisation: what exists below one of them is found. *)
Theorem folder_imports_found_partial : forall to_path of_path parent join exists_ w root folders u p base path dir import,
  (forall x, of_path x <> None) -> In u folders -> to_path u = Some p -> exists_ (join p import) = true ->
  to_path base = Some path -> parent path = Some dir ->
  resolve to_path of_path parent join exists_ (ws_roots (ws_initialize to_path w root folders)) base import <> None.
Proof.
  intros to_path of_path parent join exists_ w root folders u p base path dir import Ho Hu Hp He H1 H2.
  assert (Hi : In p (ws_roots (ws_initialize to_path w root folders))) by (unfold ws_initialize; cbn [ws_roots]; eapply ws_open_roots; eassumption).
  assert (H := import_first_existing to_path of_path parent join exists_ (ws_roots (ws_initialize to_path w root folders)) base import path dir H1 H2).
  intros N. rewrite N in H. destruct H as [H | (x & _ & _ & Hx)]; [|now apply (Ho x)].
  assert (exists_ (join p import) = false); [|congruence]. apply H. unfold import_places. apply (in_map (fun d => join d import)). now right.
Qed.
Print Assumptions folder_imports_found_partial.

(** C88 fails for folders added later. *)
Theorem folder_imports_found_refuted : exists to_path of_path parent join exists_ w u p base path dir import,
  (forall x, of_path x <> None) /\
  In (u, p) (ws_folders (ws_add_folder to_path w u)) /\ exists_ (join p import) = true /\
  to_path base = Some path /\ parent path = Some dir /\
  resolve to_path of_path parent join exists_ (ws_roots (ws_add_folder to_path w u)) base import = None.
Proof.
  exists (fun s => Some s), (fun s => Some s), (fun s => Some (lit "/a")), (fun a b => a ++ lit "/" ++ b),
    (str_eqb (lit "/b/m")), ws_new, (lit "/b"), (lit "/b"), (lit "/a/f"), (lit "/a/f"), (lit "/a"), (lit "m").
  split; [discriminate|]. split; [now left|]. repeat split.
Qed.
Print Assumptions folder_imports_found_refuted.

Example import_case : resolve (fun s => Some s) (fun s => Some s) (fun s => Some (lit "/a")) (fun a b => a ++ lit "/" ++ b)
  (str_eqb (lit "/b/m")) (ws_roots (ws_initialize (fun s => Some s) ws_new None [lit "/c"; lit "/b"])) (lit "/a/f") (lit "m") = Some (lit "/b/m").
Proof. reflexivity. Qed.
