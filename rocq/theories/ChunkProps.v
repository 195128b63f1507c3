(** Theorems about the chunks of oak-semantic-search. *)
From Verif Require Import Base Utf8 TreeModel TreeSpec TreeProofs ChunkModel.

(** ** Specification *)
(** The chunks of a tree are its nodes with a wanted role and more than twenty bytes, in document order, each with the bytes of
    its place. *)
Definition place_chunks (role : nat -> nat) (wanted : nat -> bool) (source : str) (p : green * nat) : list chunk :=
  match p with
  | (GLeaf _ _ _, _) => []
  | (GNode k _ _ as t, off) => if wanted (role k) && (20 <? width t) then [Chunk (firstn (width t) (skipn off source)) off (off + width t) (role k)] else []
  end.
(** The place of a wanted node lies in the source and does not cut characters. *)
Definition in_source (role : nat -> nat) (wanted : nat -> bool) (source : str) (p : green * nat) : Prop :=
  match p with
  | (GLeaf _ _ _, _) => True
  | (GNode k _ _ as t, off) => wanted (role k) = true -> off + width t <= length source /\ is_boundary source off = true /\ is_boundary source (off + width t) = true
  end.

(** ** Proofs *)
Section Collect.
  Variable (role : nat -> nat) (wanted : nat -> bool) (source : str).
  Definition here (r : red) : option (list chunk) := match r with RLeaf _ _ _ => Some [] | RNode k n _ off => chunk_here role wanted source k off (off + n) end.
  Definition both (a b : option (list chunk)) : option (list chunk) := match a, b with Some x, Some y => Some (x ++ y) | _, _ => None end.
  Fixpoint all (l : list red) : option (list chunk) := match l with [] => Some [] | r :: l => both (here r) (all l) end.
  Lemma both_assoc a b c : both a (both b c) = both (both a b) c.
  Proof. destruct a, b, c; cbn; try reflexivity. now rewrite app_assoc. Qed.
  Lemma both_nil a : both (Some []) a = a.
  Proof. now destruct a. Qed.
  Lemma all_app a b : all (a ++ b) = both (all a) (all b).
  Proof. induction a as [| r a IH]; cbn [app all]; [now rewrite both_nil|]. now rewrite IH, both_assoc. Qed.
  Lemma collect_all : forall fuel r rs, visit fuel r = Some rs -> collect role wanted source fuel r = all rs.
  Proof.
    induction fuel as [| f IH]; intros r rs; [discriminate|]. cbn [visit collect]. destruct r as [k n ch off | k a b]; [|intros E; injection E as <-; reflexivity].
    assert (C : forall l out, fold_right (fun c acc => match visit f c, acc with Some l, Some a => Some (l ++ a) | _, _ => None end) (Some []) l = Some out ->
      fold_right (fun c acc => match collect role wanted source f c, acc with Some l, Some a => Some (l ++ a) | _, _ => None end) (Some []) l = all out).
    { induction l as [| c l IHl]; intros out; cbn [fold_right]; [intros E; injection E as <-; reflexivity|]. destruct (visit f c) as [lc |] eqn:Ec; [|discriminate]. destruct (fold_right _ _ l) as [a |] eqn:Ea; [|discriminate]. intros E. injection E as <-. rewrite (IHl a eq_refl), (IH _ _ Ec), all_app. reflexivity. }
    destruct (fold_right _ _ (red_children (RNode k n ch off))) as [l |] eqn:El; [|discriminate]. intros E. injection E as <-. rewrite (C _ _ El). cbn [all here]. unfold both. now destruct (chunk_here _ _ _ _ _ _).
  Qed.
  Lemma here_place t off : built t -> in_source role wanted source (t, off) -> here (as_red (t, off)) = Some (place_chunks role wanted source (t, off)).
  Proof.
    intros B I. destruct t as [k n m | k n ch]; [reflexivity|]. unfold as_red. cbn [fst snd red_of here]. unfold chunk_here. pose proof (glen_width _ B) as G. change (glen (GNode k n ch)) with n in G. cbn [in_source place_chunks] in *. rewrite <- G in *. destruct (wanted (role k)); [|reflexivity]. destruct (I eq_refl) as (L & B1 & B2). unfold str_get. rewrite B1, B2.
    destruct (Nat.leb_spec off (off + n)); [|lia]. destruct (Nat.leb_spec (off + n) (length source)); [|lia]. cbn [andb]. assert (Ls : length (substr source off (off + n)) = n) by (unfold substr; rewrite firstn_length, skipn_length; lia). rewrite Ls. unfold substr. replace (off + n - off) with n by lia. now destruct (20 <? n).
  Qed.
  Lemma here_panics t off : built t -> ~ in_source role wanted source (t, off) -> here (as_red (t, off)) = None.
  Proof.
    intros B I. destruct t as [k n m | k n ch]; [now elim I|]. unfold as_red. cbn [fst snd red_of here]. unfold chunk_here. pose proof (glen_width _ B) as G. change (glen (GNode k n ch)) with n in G. cbn [in_source] in I. rewrite <- G in I. destruct (wanted (role k)); [|elim I; discriminate]. unfold str_get.
    destruct (Nat.leb_spec off (off + n)); [|lia]. destruct (Nat.leb_spec (off + n) (length source)); [|reflexivity]. destruct (is_boundary source off) eqn:B1; [|reflexivity]. destruct (is_boundary source (off + n)) eqn:B2; [|reflexivity]. elim I. intros _. now split; [|split].
  Qed.
  Lemma all_places : forall l, (forall t off, In (t, off) l -> built t /\ in_source role wanted source (t, off)) -> all (map as_red l) = Some (flat_map (place_chunks role wanted source) l).
  Proof.
    induction l as [| [t off] l IH]; intros H; [reflexivity|]. cbn [map all flat_map]. destruct (H t off (or_introl eq_refl)) as [B I]. rewrite (here_place t off B I), IH; [reflexivity|]. intros t' o' Hi. apply H. now right.
  Qed.
  Lemma all_panics : forall l t off, In (t, off) l -> built t -> ~ in_source role wanted source (t, off) -> all (map as_red l) = None.
  Proof.
    induction l as [| [t0 o0] l IH]; intros t off Hi B N; [contradiction|]. cbn [map all]. destruct Hi as [E | Hi]; [injection E as -> ->; now rewrite (here_panics t off B N)|]. rewrite (IH t off Hi B N). now destruct (here (as_red (t0, o0))).
  Qed.
End Collect.
Lemma built_elements : forall t, built t -> forall off t' o', In (t', o') (elements t off) -> built t'.
Proof.
  fix REC 2. intros t B off t' o' Hi. destruct B as [k n m | k ch t F E].
  - cbn in Hi. destruct Hi as [Hi | []]. injection Hi as <- <-. constructor.
  - unfold new_node in E. destruct (fits_u32 (sum_len ch)) eqn:Ef; [|discriminate]. injection E as <-. rewrite elements_eq in Hi. destruct Hi as [Hi | Hi]; [injection Hi as <- <-; apply BNode with k ch; [assumption | unfold new_node; now rewrite Ef]|].
    clear Ef. revert off Hi. induction F as [| c ch Bc F IH]; intros off Hi; [contradiction|]. cbn [lay] in Hi. apply in_app_or in Hi as [Hi | Hi]; [exact (REC c Bc _ _ _ Hi) | exact (IH _ Hi)].
Qed.

(** ** Theorems *)
Theorem chunks_exact : forall role wanted source t off fuel, built t -> depth t <= fuel -> (forall p, In p (elements t off) -> in_source role wanted source p) ->
  collect role wanted source fuel (red_of t off) = Some (flat_map (place_chunks role wanted source) (elements t off)).
Proof.
  intros role wanted source t off fuel B D I. rewrite (collect_all _ _ _ _ _ _ (visit_spec t B fuel off D)). apply all_places. intros t' o' Hi. split; [exact (built_elements t B off t' o' Hi) | exact (I _ Hi)].
Qed.
Print Assumptions chunks_exact.
(** A wanted node outside of the source, or one that cuts a character, is a panic, however short it is. *)
Theorem chunks_panic : forall role wanted source t off fuel p, built t -> depth t <= fuel -> In p (elements t off) -> ~ in_source role wanted source p ->
  collect role wanted source fuel (red_of t off) = None.
Proof.
  intros role wanted source t off fuel [t' o'] B D Hi N. rewrite (collect_all _ _ _ _ _ _ (visit_spec t B fuel off D)). exact (all_panics _ _ _ _ t' o' Hi (built_elements t B off t' o' Hi) N).
Qed.
Print Assumptions chunks_panic.

(** A definition of thirty bytes in which a statement of twenty-two and one of five lie *)
Definition case_tree : green := GNode 0 32 [GNode 1 30 [GLeaf 9 3 None; GNode 2 22 [GLeaf 9 22 None]; GNode 2 5 [GLeaf 9 5 None]]; GLeaf 9 2 None].
Definition case_source : str := lit "fn main_call(argument, second)x;".
Definition case_wanted (r : nat) : bool := (r =? 1) || (r =? 2).
Lemma case_built : built case_tree.
Proof.
  assert (L : forall k n m, built (GLeaf k n m)) by constructor.
  apply BNode with 0 [GNode 1 30 [GLeaf 9 3 None; GNode 2 22 [GLeaf 9 22 None]; GNode 2 5 [GLeaf 9 5 None]]; GLeaf 9 2 None]; [|reflexivity].
  constructor; [|constructor; [apply L | constructor]]. apply BNode with 1 [GLeaf 9 3 None; GNode 2 22 [GLeaf 9 22 None]; GNode 2 5 [GLeaf 9 5 None]]; [|reflexivity].
  constructor; [apply L|]. constructor; [apply BNode with 2 [GLeaf 9 22 None]; [constructor; [apply L | constructor] | reflexivity]|].
  constructor; [apply BNode with 2 [GLeaf 9 5 None]; [constructor; [apply L | constructor] | reflexivity] | constructor].
Qed.
Example chunks_case : built case_tree /\ (forall p, In p (elements case_tree 0) -> in_source (fun k => k) case_wanted case_source p) /\
  option_map (map (fun c => (ch_start c, ch_end c, ch_role c))) (collect (fun k => k) case_wanted case_source 5 (red_of case_tree 0)) = Some [(0, 30, 1); (3, 25, 2)] /\
  collect (fun k => k) case_wanted (firstn 29 case_source) 5 (red_of case_tree 0) = None.
Proof.
  split; [exact case_built|]. split; [|split; reflexivity]. intros p Hp. cbn [elements case_tree width map list_sum fold_right app Nat.add] in Hp.
  repeat (destruct Hp as [<- | Hp]; [first [exact Logic.I | intros _; split; [apply Nat.leb_le; reflexivity | split; reflexivity]]|]). contradiction.
Qed.

(** What was indexed is not found by its own text. *)
Theorem search_refuted : exists root source s c, index_code (fun k => k) case_wanted s 5 root source = Some s /\
  collect (fun k => k) case_wanted source 5 root = Some [c] /\ 20 < length (ch_text c) /\ search s (ch_text c) 10 = [].
Proof. exists (red_of (GNode 1 32 [GLeaf 9 32 None]) 0), case_source, tt. eexists. split; [reflexivity|]. split; [reflexivity|]. split; [cbn; lia | reflexivity]. Qed.
Print Assumptions search_refuted.
