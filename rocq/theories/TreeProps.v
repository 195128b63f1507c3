(** C18-C22: syntax trees, positions and traversals. *)
From Verif Require Import Base TreeModel TreeSpec TreeProofs.

(** *** C18 *)
(** The stored length is the total length of the leaves; the spans of the leaves
    follow each other from the start of the element to its end. *)
Theorem length_is_leaf_text : forall t off, built t ->
  glen t = list_sum (map (fun l => snd l - snd (fst l)) (leaves t off)) /\
  tiles leaf_span off (leaves t off) (off + glen t) /\
  red_span (red_of t off) = (off, off + glen t).
Proof.
  intros t off Hb. rewrite glen_width by assumption. split; [|split].
  - assert (G : forall l a b, tiles leaf_span a l b -> a + list_sum (map (fun l => snd l - snd (fst l)) l) = b).
    { induction 1 as [| a x l e H1 H2 H3 IH]; cbn [map]; [cbn; lia|]. rewrite list_sum_cons.
      unfold leaf_span in *. cbn [fst snd] in *. lia. }
    specialize (G _ _ _ (leaves_tile t off)). lia.
  - apply leaves_tile.
  - now apply red_of_span.
Qed.
Print Assumptions length_is_leaf_text.

(** Building a node never fails while the text fits 32 bits. *)
Theorem node_builds_while_it_fits : forall k ch, Forall built ch ->
  (N.of_nat (list_sum (map width ch)) < 4294967296)%N -> exists t, new_node k ch = Some t /\ built t /\
    glen t = list_sum (map glen ch).
Proof.
  intros k ch Hb Hl. unfold new_node, fits_u32. rewrite sum_len_width by assumption.
  destruct (N.ltb_spec (N.of_nat (list_sum (map width ch))) 4294967296); [|lia].
  eexists. split; [reflexivity|]. split.
  - apply (BNode k ch); [assumption|]. unfold new_node, fits_u32. rewrite sum_len_width by assumption.
    destruct (N.ltb_spec (N.of_nat (list_sum (map width ch))) 4294967296); [reflexivity | lia].
  - cbn [glen]. clear -Hb. induction Hb as [| c r Hc _ IH]; [reflexivity|]. cbn [map]. rewrite !list_sum_cons, IH.
    now rewrite glen_width.
Qed.
Print Assumptions node_builds_while_it_fits.

Definition ex_tree : green :=
  GNode 10 6 [GLeaf 1 2 None; GNode 11 0 []; GNode 12 4 [GLeaf 2 0 None; GLeaf 3 3 (Some 1); GLeaf 4 1 None]].

Example ex_tree_built : built ex_tree.
Proof.
  apply (BNode 10 [GLeaf 1 2 None; GNode 11 0 []; GNode 12 4 [GLeaf 2 0 None; GLeaf 3 3 (Some 1); GLeaf 4 1 None]]);
    [|reflexivity].
  apply Forall_cons; [constructor|]. apply Forall_cons; [|apply Forall_cons; [|constructor]].
  - apply (BNode 11 []); [constructor | reflexivity].
  - apply (BNode 12 [GLeaf 2 0 None; GLeaf 3 3 (Some 1); GLeaf 4 1 None]); [repeat constructor | reflexivity].
Qed.

Example ex_tree_leaves : leaves ex_tree 5 = [(1, 5, 7); (2, 7, 7); (3, 7, 10); (4, 10, 11)].
Proof. reflexivity. Qed.

(** *** C19 *)
Theorem children_tile_node : forall k n ch off, built (GNode k n ch) ->
  tiles red_span off (red_children (RNode k n ch off)) (snd (red_span (RNode k n ch off))) /\
  length (red_children (RNode k n ch off)) = length ch /\
  forall i, child_at ch off i = nth_error (red_children (RNode k n ch off)) i.
Proof.
  intros k n ch off Hb. rewrite red_children_spec by assumption. destruct (built_node _ _ _ Hb) as [Hf Hn].
  split; [|split].
  - cbn [red_span snd]. rewrite (node_len _ _ _ Hb). now apply children_tile.
  - rewrite (lay_length _ _ (fun _ => 1)) by (apply Forall_forall; reflexivity).
    clear. induction ch as [| c r IH]; [reflexivity|]. cbn [map length]. now rewrite list_sum_cons, IH.
  - intros i. symmetry. now apply lay_nth.
Qed.
Print Assumptions children_tile_node.

Example children_example :
  red_children (red_of ex_tree 5) = [RLeaf 1 5 7; RNode 11 0 [] 7; RNode 12 4 [GLeaf 2 0 None; GLeaf 3 3 (Some 1); GLeaf 4 1 None] 7].
Proof. reflexivity. Qed.

(** *** C20 *)
Theorem leaf_lookup_correct : forall k n ch off o, built (GNode k n ch) ->
  let t := GNode k n ch in
  exists r, leaf_at_offset (depth t) n ch off o = Some r /\
    if (off <=? o) && (o <? off + glen t) then
      exists leaf before after, r = Some leaf /\ leaves t off = before ++ leaf :: after /\
        snd (fst leaf) <= o < snd leaf /\
        (forall x, In x before -> snd x <= o) /\ (forall x, In x after -> o < snd (fst x))
    else r = None.
Proof.
  intros k n ch off o Hb t. destruct ((off <=? o) && (o <? off + glen t)) eqn:E.
  - apply andb_true_iff in E. rewrite glen_width in E by assumption.
    destruct (leaf_at_in t Hb k n ch eq_refl (depth t) off o) as (kd & a & b & H1 & H2 & H3); [lia | lia |].
    exists (Some (kd, a, b)). split; [exact H1|].
    destruct (in_split _ _ H2) as (l1 & l2 & Hsplit). exists (kd, a, b), l1, l2.
    destruct (tiles_parts _ _ _ _ _ _ _ _ (leaves_tile t off) Hsplit) as [G1 G2]. unfold leaf_span in *. cbn [fst snd] in *.
    split; [reflexivity|]. split; [assumption|]. split; [assumption|].
    split; intros x Hx; [specialize (G1 x Hx) | specialize (G2 x Hx)]; lia.
  - exists None. split; [|reflexivity]. apply leaf_at_out with (k := k); [assumption|].
    apply andb_false_iff in E. fold t. rewrite glen_width in E by assumption. lia.
Qed.
Print Assumptions leaf_lookup_correct.

(** The child found for an offset is the only one whose span contains it. *)
Theorem child_lookup_correct : forall k n ch off o, built (GNode k n ch) ->
  let kids := red_children (RNode k n ch off) in
  match child_at_offset n ch off o with
  | Some c => exists before after, kids = before ++ c :: after /\
      fst (red_span c) <= o < snd (red_span c) /\
      (forall x, In x before -> snd (red_span x) <= o) /\ (forall x, In x after -> o < fst (red_span x))
  | None => o < off \/ off + n <= o
  end.
Proof.
  intros k n ch off o Hb kids. unfold child_at_offset, child_index_at_offset.
  destruct (built_node _ _ _ Hb) as [Hf _].
  destruct ((o <? off) || (off + n <=? o)) eqn:E; [apply orb_true_iff in E; lia|].
  apply orb_false_iff in E. destruct (index_loop_spec ch (o - off) 0 0 Hf) as (i & c & H1 & H2 & H3);
    [lia | rewrite <- (node_len _ _ _ Hb); lia |].
  cbn [Nat.add] in H1. rewrite H1, (child_at_some ch off i c Hf H2).
  assert (Hc : built c) by (rewrite Forall_forall in Hf; apply Hf; eapply nth_error_In; eassumption).
  set (x := red_of c (off + list_sum (map width (firstn i ch)))).
  assert (Hsplit : exists before after, kids = before ++ x :: after).
  { unfold kids. rewrite red_children_spec by assumption.
    rewrite (nth_split_at _ ch i c H2), lay_app. eexists _, _. reflexivity. }
  destruct Hsplit as (l1 & l2 & Hsplit). exists l1, l2. split; [exact Hsplit|].
  assert (Hx : red_span x = (off + list_sum (map width (firstn i ch)), off + list_sum (map width (firstn i ch)) + width c))
    by (apply red_of_span; assumption).
  rewrite Hx. cbn [fst snd]. split; [lia|].
  destruct (tiles_parts _ _ _ _ _ _ _ _ (proj1 (children_tile_node k n ch off Hb)) Hsplit) as [G1 G2].
  rewrite Hx in *. cbn [fst snd] in *.
  split; intros y Hy; [specialize (G1 y Hy) | specialize (G2 y Hy)]; lia.
Qed.
Print Assumptions child_lookup_correct.

Example leaf_lookup_example :
  map (fun o => match ex_tree with
                | GNode _ n ch => leaf_at_offset (depth ex_tree) n ch 5 o
                | GLeaf _ _ _ => None end) [4; 5; 7; 10; 11]
  = [Some None; Some (Some (1, 5, 7)); Some (Some (3, 7, 10)); Some (Some (4, 10, 11)); Some None].
Proof. reflexivity. Qed.

(** *** C21 *)
(** Stepping from the root sees every element once, in document order, with its
    offset; at the end the cursor stands on the root again. *)
Theorem cursor_visits_in_order : forall root, built root ->
  cursor_walk (size root) (tc_new root) = Some (elements root 0, tc_new root).
Proof.
  intros root Hb. pose proof (cursor_walk_spec root (size root) (tc_new root) Hb (PRoot root)) as H.
  cbn [tc_new tc_current tc_offset tc_stack remaining] in H. rewrite app_nil_r in H. apply H.
  rewrite elements_length. lia.
Qed.
Print Assumptions cursor_visits_in_order.

(** From any place: [step] goes to the next element in document order, [step_next]
    to the next element outside the current subtree, [step_into] to the first child,
    and [step_out] undoes it; each reports whether there was somewhere to go. *)
Theorem cursor_moves_correct : forall root c, built root -> at_place root c ->
  let here := elements (tc_current c) (tc_offset c) in
  let later := remaining (tc_stack c) in
  (let '(ok, c') := step c in
   if ok then at_place root c' /\ elements (tc_current c') (tc_offset c') ++ remaining (tc_stack c') = tl here ++ later
   else tl here ++ later = []) /\
  (let '(ok, c') := step_next c in
   if ok then at_place root c' /\ elements (tc_current c') (tc_offset c') ++ remaining (tc_stack c') = later
   else later = []) /\
  (let '(ok, c') := step_into c in
   if ok then at_place root c' /\ step_out c' = (true, c) /\
              elements (tc_current c') (tc_offset c') ++ remaining (tc_stack c') = tl here ++ later
   else c' = c /\ here = [(tc_current c, tc_offset c)]).
Proof.
  intros root c Hb Hp here later. split; [|split].
  - destruct (step c) as [ok c'] eqn:E. pose proof (step_spec _ _ _ _ Hb Hp E) as H. destruct ok; [exact H | exact (proj2 H)].
  - destruct (step_next c) as [ok c'] eqn:E. pose proof (step_next_spec _ _ _ _ Hb Hp E) as H. destruct ok; [exact H | exact (proj2 H)].
  - destruct (step_into c) as [ok c'] eqn:E. pose proof (step_into_spec _ _ _ _ Hp E) as H. destruct ok; exact H.
Qed.
Print Assumptions cursor_moves_correct.

(** Every place carries the offset the element has in the document. *)
Theorem cursor_offsets_correct : forall root c, built root -> at_place root c ->
  exists before, elements root 0 = before ++ elements (tc_current c) (tc_offset c) ++ remaining (tc_stack c).
Proof.
  intros root c Hb H. induction H as [| k n ch i c off st H IH E]; cbn [tc_current tc_offset tc_stack] in *.
  - exists []. cbn. now rewrite app_nil_r.
  - destruct IH as [before IH]. exists (before ++ (GNode k n ch, off) :: lay elements off (firstn i ch)).
    rewrite IH, (elements_eq (GNode k n ch)). cbn [remaining]. rewrite <- app_assoc. f_equal. cbn [app]. f_equal.
    rewrite (nth_split_at _ ch i c E) at 1. rewrite lay_app, <- !app_assoc. f_equal. cbn [lay].
    rewrite <- app_assoc, (sum_firstn_S ch i c E), Nat.add_assoc. reflexivity.
Qed.
Print Assumptions cursor_offsets_correct.

Example cursor_example :
  option_map (fun r => map (fun p => (glen (fst p), snd p)) (fst r)) (cursor_walk 20 (tc_new ex_tree))
  = Some [(6, 0); (2, 0); (0, 2); (4, 2); (0, 2); (3, 2); (1, 5)].
Proof. reflexivity. Qed.

(** The finished cursor is not in an end state: one more [step] starts over. *)
Theorem cursor_end_is_sticky_refuted : exists root c1 c2, built root /\
  cursor_walk (size root) (tc_new root) = Some (elements root 0, c1) /\
  step c1 = (true, c2).
Proof.
  exists ex_tree. do 2 eexists. split; [apply ex_tree_built|]. split; reflexivity.
Qed.
Print Assumptions cursor_end_is_sticky_refuted.

(** *** C22 *)
Theorem preorder_correct : forall t off, built t ->
  preorder_run (size t) [red_of t off] = Some (map (fun p => red_of (fst p) (snd p)) (elements t off)).
Proof.
  intros t off Hb. pose proof (preorder_run_spec (size t) [(t, off)]) as H.
  cbn [map lay_elements] in H. rewrite app_nil_r in H. apply H; [now repeat constructor|].
  rewrite elements_length. lia.
Qed.
Print Assumptions preorder_correct.

Theorem visitor_correct : forall t off, built t ->
  visit (depth t) (red_of t off) = Some (map (fun p => red_of (fst p) (snd p)) (elements t off)).
Proof. intros t off Hb. now apply visit_spec. Qed.
Print Assumptions visitor_correct.

Example preorder_example :
  option_map (map red_span) (preorder_run 20 [red_of ex_tree 5])
  = Some [(5, 11); (5, 7); (7, 7); (7, 11); (7, 7); (7, 10); (10, 11)].
Proof. reflexivity. Qed.
