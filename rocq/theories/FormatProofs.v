(** Lemmas about rule sets and the formatter. *)
From Coq Require Import Sorting.Sorted.
From Verif Require Import Base Utf8 PrettyModel PrettySpec PrettyProofs TreeModel TreeSpec TreeProofs FormatModel FormatSpec.

(** ** Stable sorting *)

Definition geb (a b : nat * rule) : Prop :=
  r_priority (snd b) < r_priority (snd a) \/ r_priority (snd a) = r_priority (snd b) /\ fst a < fst b.

(** The rules with their registration numbers, sorted. *)
Fixpoint insert_num (r : nat * rule) (l : list (nat * rule)) : list (nat * rule) :=
  match l with
  | [] => [r]
  | x :: l' => if r_priority (snd x) <=? r_priority (snd r) then r :: l else x :: insert_num r l'
  end.
Fixpoint sort_num (l : list (nat * rule)) : list (nat * rule) :=
  match l with [] => [] | r :: l' => insert_num r (sort_num l') end.

Lemma insert_num_map r l : map snd (insert_num r l) = insert_rule (snd r) (map snd l).
Proof. induction l as [|x l IH]; simpl; [reflexivity|]. destruct (_ <=? _); simpl; [reflexivity|]. now rewrite IH. Qed.

Lemma sort_num_map l : map snd (sort_num l) = sort_rules (map snd l).
Proof. induction l as [|x l IH]; simpl; [reflexivity|]. now rewrite insert_num_map, IH. Qed.

Lemma insert_num_perm r l : Permutation (insert_num r l) (r :: l).
Proof.
  induction l as [|x l IH]; simpl; [reflexivity|]. destruct (_ <=? _); [reflexivity|].
  etransitivity; [apply perm_skip; exact IH|]. apply perm_swap.
Qed.

Lemma sort_num_perm l : Permutation (sort_num l) l.
Proof. induction l as [|x l IH]; simpl; [reflexivity|]. etransitivity; [apply insert_num_perm|]. now apply perm_skip. Qed.

Lemma insert_num_sorted r l : (forall x, In x l -> fst r < fst x) -> StronglySorted geb l -> StronglySorted geb (insert_num r l).
Proof.
  induction l as [|x l IH]; intros Hlt Hs; simpl; [constructor; constructor|].
  inversion Hs as [|? ? Hs' HF]; subst. destruct (_ <=? _) eqn:E.
  - constructor; [assumption|]. assert (Hx : geb r x).
    { unfold geb. specialize (Hlt x (or_introl eq_refl)). apply Nat.leb_le in E. lia. }
    constructor; [assumption|]. rewrite Forall_forall in *. intros y Hy. specialize (HF y Hy).
    specialize (Hlt y (or_intror Hy)). unfold geb in *. lia.
  - constructor; [apply IH; [intros y Hy; apply Hlt; now right|assumption]|].
    apply Forall_forall. intros y Hy. apply (Permutation_in _ (insert_num_perm r l)) in Hy. destruct Hy as [<- |Hy].
    + unfold geb. apply Nat.leb_gt in E. lia.
    + rewrite Forall_forall in HF. now apply HF.
Qed.

Fixpoint number (k : nat) (l : list rule) : list (nat * rule) :=
  match l with [] => [] | r :: l' => (k, r) :: number (S k) l' end.

Lemma number_map k l : map snd (number k l) = l.
Proof. revert k. induction l; intros k; simpl; [reflexivity|]. now rewrite IHl. Qed.

Lemma number_in l : forall k i r, In (i, r) (number k l) <-> k <= i /\ nth_error l (i - k) = Some r.
Proof.
  induction l as [|x l IH]; intros k i r; simpl.
  - split; [tauto|]. intros (_ & H). destruct (i - k); discriminate.
  - rewrite IH. split.
    + intros [E|(Hl & Hn)]; [injection E as -> ->; rewrite Nat.sub_diag; auto|].
      split; [lia|]. replace (i - k) with (S (i - S k)) by lia. exact Hn.
    + intros (Hl & Hn). destruct (Nat.eq_dec i k) as [-> |Hne].
      * left. rewrite Nat.sub_diag in Hn. simpl in Hn. congruence.
      * right. split; [lia|]. replace (i - k) with (S (i - S k)) in Hn by lia. exact Hn.
Qed.

Lemma sort_num_sorted l : forall k, StronglySorted geb (sort_num (number k l)).
Proof.
  induction l as [|x l IH]; intros k; simpl; [constructor|]. apply insert_num_sorted; [|apply IH].
  intros (i & r) Hi. apply (Permutation_in _ (sort_num_perm _)) in Hi. apply number_in in Hi. simpl. lia.
Qed.

(** Sorting again after a push gives the sort of the whole registration list. *)
Fixpoint append_rule (r : rule) (l : list rule) : list rule :=
  match l with
  | [] => [r]
  | x :: l' => if r_priority x <? r_priority r then r :: l else x :: append_rule r l'
  end.

Lemma insert_append x r m : insert_rule x (append_rule r m) = append_rule r (insert_rule x m).
Proof.
  induction m as [|y m IH]; simpl.
  - destruct (r_priority r <=? r_priority x) eqn:E1, (r_priority x <? r_priority r) eqn:E2; try reflexivity; lia.
  - destruct (r_priority y <? r_priority r) eqn:E1, (r_priority y <=? r_priority x) eqn:E2; simpl.
    + rewrite E1, E2. destruct (r_priority r <=? r_priority x) eqn:E3, (r_priority x <? r_priority r) eqn:E4; try reflexivity; lia.
    + rewrite E1, E2. destruct (r_priority r <=? r_priority x) eqn:E3; [lia|reflexivity].
    + rewrite E1, E2. destruct (r_priority x <? r_priority r) eqn:E3; [lia|reflexivity].
    + rewrite E1, E2. now rewrite IH.
Qed.

Lemma sort_push l r : sort_rules (l ++ [r]) = append_rule r (sort_rules l).
Proof. induction l as [|x l IH]; [reflexivity|]. simpl. now rewrite IH, insert_append. Qed.

Lemma sort_sorted_id l : StronglySorted (fun a b => r_priority b <= r_priority a) l -> sort_rules l = l.
Proof.
  induction 1 as [|r l Hs IH HF]; [reflexivity|]. simpl. rewrite IH. destruct l as [|x l]; [reflexivity|].
  simpl. inversion HF; subst. destruct (Nat.leb_spec (r_priority x) (r_priority r)); [reflexivity|lia].
Qed.

Lemma sort_rules_sorted l : StronglySorted (fun a b => r_priority b <= r_priority a) (sort_rules l).
Proof.
  rewrite <- (number_map 0 l), <- sort_num_map. assert (H := sort_num_sorted l 0). revert H.
  generalize (sort_num (number 0 l)). induction 1 as [|x m Hs IH HF]; simpl; constructor; [assumption|].
  apply Forall_map. eapply Forall_impl; [|exact HF]. unfold geb. intros y. lia.
Qed.

Lemma sort_sort_push l r : sort_rules (sort_rules l ++ [r]) = sort_rules (l ++ [r]).
Proof. rewrite !sort_push. rewrite (sort_sorted_id (sort_rules l)) by apply sort_rules_sorted. reflexivity. Qed.

Lemma sort_rules_perm l : Permutation (sort_rules l) l.
Proof.
  rewrite <- (number_map 0 l) at 2. rewrite <- (number_map 0 l) at 1. rewrite <- sort_num_map.
  apply Permutation_map, sort_num_perm.
Qed.

(** Any history of [add_rule]. *)
Lemma registered_sorted conflicts rs acc : registered conflicts rs acc ->
  fold_left (fun s r => snd (add_rule conflicts s r)) rs [] = sort_rules acc.
Proof.
  induction 1 as [|rs acc r Hr IH Hc|rs acc r Hr IH Hc]; [reflexivity| |];
    rewrite fold_left_app; cbn [fold_left]; rewrite IH; unfold add_rule.
  - destruct (existsb _ _) eqn:E; [|now apply sort_sort_push].
    apply existsb_exists in E. destruct E as (e & Hi & He). apply (Permutation_in _ (sort_rules_perm acc)) in Hi.
    destruct (Hc e Hi) as (H1 & H2). rewrite H1, H2 in He. discriminate.
  - destruct (existsb _ _) eqn:E; [reflexivity|]. destruct Hc as (e & Hi & He).
    assert (Ht : existsb (fun e => conflicts r e || conflicts e r) (sort_rules acc) = true); [|congruence].
    apply existsb_exists. exists e. split; [apply (Permutation_in _ (Permutation_sym (sort_rules_perm acc))); assumption|].
    apply orb_true_iff. tauto.
Qed.

Lemma registered_total conflicts rs : exists acc, registered conflicts rs acc.
Proof.
  induction rs as [|r rs (acc & IH)] using rev_ind; [exists []; constructor|].
  destruct (existsb (fun e => conflicts r e || conflicts e r) acc) eqn:E.
  - exists acc. apply rg_skip; [assumption|]. apply existsb_exists in E. destruct E as (e & Hi & He). exists e.
    split; [assumption|]. apply orb_true_iff in He. exact He.
  - exists (acc ++ [r]). apply rg_add; [assumption|]. intros e He.
    assert (Hf : conflicts r e || conflicts e r = false).
    { destruct (conflicts r e || conflicts e r) eqn:Ex; [|reflexivity]. rewrite <- E. symmetry. apply existsb_exists. now exists e. }
    apply orb_false_iff in Hf. exact Hf.
Qed.

(** ** The first rule that decides *)

Lemma first_doc_split applies apply rules o : o <> Ok None ->
  first_doc apply (filter applies rules) = o <->
  exists l1 r l2, rules = l1 ++ r :: l2 /\ applies r = true /\ apply r = o /\
    Forall (fun x => applies x = false \/ apply x = Ok None) l1.
Proof.
  intros Ho. induction rules as [|x rules IH]; simpl.
  - split; [congruence|]. intros (l1 & r & l2 & E & _). destruct l1; discriminate.
  - destruct (applies x) eqn:Ea; simpl.
    + destruct (apply x) as [[d|]|e|] eqn:Ex.
      1,3,4: split;
        [intros <-; exists [], x, rules; repeat split; try assumption; try constructor
        |intros (l1 & r & l2 & E & Har & Hr & HF); destruct l1 as [|y l1]; injection E as -> ->;
          [congruence|inversion HF as [|? ? [Hy|Hy] _]; subst; congruence]].
      rewrite IH. split.
      * intros (l1 & r & l2 & -> & Hr). exists (x :: l1), r, l2. destruct Hr as (Hr1 & Hr2 & HF).
        repeat split; try assumption. constructor; [now right|assumption].
      * intros (l1 & r & l2 & E & Har & Hr & HF). destruct l1 as [|y l1]; injection E as -> ->; [congruence|].
        inversion HF; subst. exists l1, r, l2. auto.
    + rewrite IH. split.
      * intros (l1 & r & l2 & -> & Hr1 & Hr2 & HF). exists (x :: l1), r, l2. repeat split; try assumption.
        constructor; [now left|assumption].
      * intros (l1 & r & l2 & E & Har & Hr & HF). destruct l1 as [|y l1]; injection E as -> ->; [congruence|].
        inversion HF; subst. exists l1, r, l2. auto.
Qed.

Lemma map_split (A B : Type) (f : A -> B) l : forall l1 y l2, map f l = l1 ++ y :: l2 ->
  exists a x b, l = a ++ x :: b /\ map f a = l1 /\ f x = y /\ map f b = l2.
Proof.
  induction l as [|z l IH]; intros l1 y l2 E; [destruct l1; discriminate|].
  destruct l1 as [|w l1]; simpl in E; injection E as E1 E2.
  - exists [], z, l. auto.
  - destruct (IH _ _ _ E2) as (a & x & b & -> & <- & Hx & Hb). exists (z :: a), x, b. simpl. rewrite E1. auto.
Qed.

Lemma sorted_before l a x b : StronglySorted geb l -> l = a ++ x :: b ->
  (forall y, In y a -> geb y x) /\ (forall y, In y b -> geb x y).
Proof.
  intros Hs ->. induction a as [|z a IH]; simpl in Hs.
  - inversion Hs as [|? ? _ HF]; subst. rewrite Forall_forall in HF. split; [intros y []|exact HF].
  - inversion Hs as [|? ? Hs' HF]; subst. destruct (IH Hs') as (H1 & H2). split; [|exact H2].
    intros y [<- |Hy]; [|now apply H1]. rewrite Forall_forall in HF. apply HF. rewrite in_app_iff. simpl. auto.
Qed.

Lemma geb_irrefl x : ~ geb x x. Proof. unfold geb. lia. Qed.
Lemma geb_asym x y : geb x y -> ~ geb y x. Proof. unfold geb. lia. Qed.

Lemma decides_spec rs applies apply o : o <> Ok None ->
  first_doc apply (filter applies (sort_rules rs)) = o <-> exists i, decides rs applies apply i o.
Proof.
  intros Ho. rewrite first_doc_split by assumption.
  assert (Hm : sort_rules rs = map snd (sort_num (number 0 rs))) by now rewrite sort_num_map, number_map.
  assert (Hs := sort_num_sorted rs 0).
  assert (Hin : forall i r, In (i, r) (sort_num (number 0 rs)) <-> nth_error rs i = Some r).
  { intros i r. split; intros H.
    - apply (Permutation_in _ (sort_num_perm _)) in H. apply number_in in H. rewrite Nat.sub_0_r in H. tauto.
    - apply (Permutation_in _ (Permutation_sym (sort_num_perm _))). apply number_in. rewrite Nat.sub_0_r. split; [lia|assumption]. }
  rewrite Hm. split.
  - intros (l1 & r & l2 & E & Ha & Hr & HF). apply map_split in E. destruct E as (a & (i & r') & b & E & <- & <- & <-).
    cbn [snd] in *. destruct (sorted_before _ _ _ _ Hs E) as (Hbef & Haft). exists i. split.
    + exists r'. split; [apply Hin; rewrite E, in_app_iff; simpl; auto|auto].
    + intros j rj (x & y & Hj & Hi & Hlt) Hj'. rewrite Hj in Hj'. injection Hj' as ->.
      assert (Hii : nth_error rs i = Some r') by (apply Hin; rewrite E, in_app_iff; simpl; auto).
      rewrite Hii in Hi. injection Hi as <-. apply Hin in Hj. rewrite E, in_app_iff in Hj.
      destruct Hj as [Hj|[Hj|Hj]].
      * rewrite Forall_map in HF. rewrite Forall_forall in HF. exact (HF _ Hj).
      * injection Hj as -> ->. lia.
      * apply Haft in Hj. unfold geb in Hj. simpl in Hj. lia.
  - intros (i & (r & Hi & Ha & Hr & _) & Hall). assert (Hx := Hi). apply Hin in Hx. apply in_split in Hx.
    destruct Hx as (a & b & E). destruct (sorted_before _ _ _ _ Hs E) as (Hbef & _).
    exists (map snd a), r, (map snd b). split; [rewrite E, map_app; reflexivity|]. split; [assumption|]. split; [assumption|].
    apply Forall_map, Forall_forall. intros (j & rj) Hj. assert (Hg := Hbef _ Hj).
    assert (Hnj : nth_error rs j = Some rj) by (apply Hin; rewrite E, in_app_iff; auto).
    apply (Hall j rj); [|assumption]. exists rj, r. unfold geb in Hg. simpl in Hg. auto.
Qed.

Lemma none_spec rs applies apply :
  first_doc apply (filter applies (sort_rules rs)) = Ok None <-> forall r, In r rs -> applies r = false \/ apply r = Ok None.
Proof.
  assert (Hp := sort_rules_perm rs).
  transitivity (forall r, In r (sort_rules rs) -> applies r = false \/ apply r = Ok None).
  - generalize (sort_rules rs). clear. induction l as [|x l IH]; simpl; [split; [tauto|reflexivity]|].
    destruct (applies x) eqn:Ea; simpl.
    + destruct (apply x) as [[d|]|e|] eqn:Ex.
      1,3,4: split; [discriminate|intros H; destruct (H x (or_introl eq_refl)); congruence].
      rewrite IH. split; [intros H r [<- |Hr]; auto|intros H r Hr; auto].
    + rewrite IH. split; [intros H r [<- |Hr]; auto|intros H r Hr; auto].
  - split; intros H r Hr; apply H; [apply (Permutation_in _ (Permutation_sym Hp))|apply (Permutation_in _ Hp)]; assumption.
Qed.

(** ** Formatting *)

Definition format_list (rules : list rule) (src : str) (c : context) : list green -> nat -> res (list doc) :=
  fix go (ch : list green) (off : nat) : res (list doc) :=
    match ch with
    | [] => Ok []
    | x :: r => match format_tree rules src c x off with
                | Ok d => match go r (off + glen x) with Ok ds => Ok (d :: ds) | Err e => Err e | Panic => Panic end
                | Err e => Err e
                | Panic => Panic
                end
    end.

Lemma str_same_spec a b : str_same a b = true <-> a = b.
Proof.
  revert b. induction a as [|x a IH]; intros [|y b]; simpl; try (split; congruence).
  rewrite andb_true_iff, IH, Z.eqb_eq. split; [intros (-> & ->); reflexivity|intros E; injection E; auto].
Qed.

Lemma substr_app src a b c : a <= b -> b <= c -> substr src a c = substr src a b ++ substr src b c.
Proof.
  intros H1 H2. unfold substr. rewrite (firstn_skipn_split _ (b - a) (c - a) (skipn a src)) by lia.
  rewrite skipn_skipn_add. replace (a + (b - a)) with b by lia. now replace (c - a - (b - a)) with (c - b) by lia.
Qed.

Lemma str_get_substr src a b s : str_get src a b = Some s -> s = substr src a b.
Proof. unfold str_get. destruct (_ && _); congruence. Qed.

(** Rules that only add line positions and groups around what they are given. *)
Definition keeps_node (r : rule) : Prop := forall n c src ch d, r_on_node r n = true -> r_node r n c src ch = Ok (Some d) ->
  exists d', ch = Ok d' /\ ink (concat (texts d)) = ink (concat (texts d')).
Definition keeps_token (r : rule) : Prop := forall t c src d, r_on_token r t = true -> r_token r t c src = Ok (Some d) ->
  ink (concat (texts d)) = ink (substr src (l_start t) (l_end t)).

Lemma first_doc_some apply rules d : first_doc apply rules = Ok (Some d) -> exists r, In r rules /\ apply r = Ok (Some d).
Proof.
  induction rules as [|r rules IH]; simpl; [discriminate|]. destruct (apply r) as [[x|]|e|] eqn:E; try discriminate.
  - intros H. injection H as ->. exists r. auto.
  - intros H. destruct (IH H) as (r' & Hi & Hr). exists r'. auto.
Qed.

Lemma format_keeps rules src : Forall keeps_node rules -> Forall keeps_token rules ->
  forall t, built t -> forall c off d, format_tree rules src c t off = Ok d ->
  ink (concat (texts d)) = ink (substr src off (off + width t)).
Proof.
  intros Hn Ht. rewrite Forall_forall in Hn, Ht.
  induction t as [k n m|k n ch IH] using green_ind'; intros Hb c off d E; simpl in E.
  - unfold format_token in E. destruct (apply_token_rules _ _ _ _) as [[x|]|e|] eqn:Ea; try discriminate.
    + injection E as ->. unfold apply_token_rules in Ea. apply first_doc_some in Ea. destruct Ea as (r & Hr & Ea).
      apply filter_In in Hr. apply (Ht r (proj1 Hr) _ _ _ _ (proj2 Hr)) in Ea. exact Ea.
    + cbn [l_start l_end] in E. destruct (str_get _ _ _) as [s|] eqn:Es; [|discriminate]. injection E as <-.
      apply str_get_substr in Es. subst. cbn [texts concat width]. now rewrite app_nil_r.
  - fold (format_list rules src (enter c k)) in E.
    assert (Hc : forall ds, format_list rules src (enter c k) ch off = Ok ds ->
              ink (concat (flat_map texts ds)) = ink (substr src off (off + list_sum (map width ch)))).
    { apply built_node in Hb. destruct Hb as (Hb & _). clear E Hn Ht n d. revert off.
      induction ch as [|x ch IHch]; intros off ds E; simpl in E.
      - injection E as <-. cbn. rewrite Nat.add_0_r. unfold substr. now rewrite Nat.sub_diag.
      - inversion Hb as [|? ? Hx Hb']; inversion IH as [|? ? IHx IH']; subst.
        destruct (format_tree rules src (enter c k) x off) as [d0|e|] eqn:E0; try discriminate.
        destruct (format_list rules src (enter c k) ch (off + glen x)) as [ds0|e|] eqn:E1; try discriminate.
        injection E as <-. cbn [flat_map map]. rewrite concat_app, ink_app, (IHx Hx _ _ _ E0), (IHch IH' Hb' _ _ E1).
        rewrite glen_width by assumption. rewrite list_sum_cons. rewrite <- ink_app. f_equal.
        rewrite (substr_app src off (off + width x) (off + (width x + list_sum (map width ch)))) by lia. f_equal. f_equal. lia. }
    destruct (apply_node_rules _ _ _ _ _) as [[x|]|e|] eqn:Ea; try discriminate.
    + injection E as ->. unfold apply_node_rules in Ea. apply first_doc_some in Ea. destruct Ea as (r & Hr & Ea).
      apply filter_In in Hr. destruct (Hn r (proj1 Hr) _ _ _ _ _ (proj2 Hr) Ea) as (d' & Ed & ->).
      destruct (format_list rules src (enter c k) ch off) as [ds|e|]; try discriminate. injection Ed as <-.
      cbn [texts]. now apply Hc.
    + destruct (format_list rules src (enter c k) ch off) as [ds|e|]; try discriminate. injection E as <-.
      cbn [texts]. now apply Hc.
Qed.

Lemma builtin_eq co st pu : builtin co st pu = [rule_indent co; rule_comma pu; rule_statement st].
Proof. reflexivity. Qed.

Lemma builtin_keeps co st pu : Forall keeps_node (builtin co st pu) /\ Forall keeps_token (builtin co st pu).
Proof.
  rewrite builtin_eq. split.
  - repeat constructor; intros n c src ch d Hon E; simpl in *.
    + destruct ch as [d'|e|]; try discriminate. injection E as <-. exists d'. split; [reflexivity|].
      cbn [texts flat_map]. now rewrite app_nil_r.
    + discriminate.
    + destruct ch as [d'|e|]; try discriminate. injection E as <-. exists d'. split; [reflexivity|].
      cbn [texts flat_map]. now rewrite app_nil_r.
  - repeat constructor; intros t c src d Hon E; simpl in *; try discriminate.
    destruct (str_get src (l_start t) (l_end t)) as [s|] eqn:Es; [|discriminate].
    destruct (str_same s [44%Z]) eqn:Ec; [|discriminate]. apply str_same_spec in Ec. injection E as <-.
    apply str_get_substr in Es. rewrite <- Es, Ec. reflexivity.
Qed.

(** Without panics when the leaves lie on character boundaries. *)
Lemma format_runs co st pu src : forall t, built t -> forall c off,
  (forall k a b, In (k, a, b) (leaves t off) -> str_get src a b <> None) ->
  exists d, format_tree (builtin co st pu) src c t off = Ok d.
Proof.
  induction t as [k n m|k n ch IH] using green_ind'; intros Hb c off Hl; simpl.
  - assert (H := Hl k off (off + n) (or_introl eq_refl)). unfold format_token. rewrite builtin_eq.
    unfold apply_token_rules. cbn [filter r_on_token rule_indent rule_comma rule_statement].
    destruct (str_get src off (off + n)) as [s|] eqn:Es; [|congruence].
    destruct (pu (l_kind (Leaf k off (off + n)))) eqn:Ep; cbn [first_doc r_token rule_comma l_start l_end]; rewrite ?Es.
    + destruct (str_same s [44%Z]); eexists; reflexivity.
    + eexists; reflexivity.
  - fold (format_list (builtin co st pu) src (enter c k)).
    assert (Hc : exists ds, format_list (builtin co st pu) src (enter c k) ch off = Ok ds).
    { apply built_node in Hb. destruct Hb as (Hb & _). rewrite leaves_eq in Hl. clear n. revert off Hl.
      induction ch as [|x ch IHch]; intros off Hl; [now exists []|]. cbn [lay] in Hl.
      inversion Hb as [|? ? Hx Hb']; inversion IH as [|? ? IHx IH']; subst. cbn [format_list].
      destruct (IHx Hx (enter c k) off) as (d & ->).
      { intros k' a b Hi. apply (Hl k'). rewrite in_app_iff. now left. }
      rewrite glen_width by assumption. destruct (IHch IH' Hb' (off + width x)) as (ds & ->).
      { intros k' a b Hi. apply (Hl k'). rewrite in_app_iff. now right. }
      now exists (d :: ds). }
    destruct Hc as (ds & Hds). rewrite Hds. rewrite builtin_eq. unfold apply_node_rules.
    cbn [filter r_on_node rule_indent rule_comma rule_statement n_kind].
    destruct (co k), (st k); cbn [first_doc r_node rule_indent rule_statement]; eexists; reflexivity.
Qed.
