From Verif Require Import Base Utf8 Utf8Facts EditModel EditSpec.
From Coq Require Import Sorting.Sorted.

(** ** Insertion sort *)

Lemma insert_edit_perm : forall x l, Permutation (insert_edit x l) (x :: l).
Proof.
  induction l as [| y l IH]; simpl; [reflexivity|].
  destruct (e_start x <=? e_start y); [reflexivity|].
  rewrite IH. apply perm_swap.
Qed.

Lemma sort_edits_perm : forall l, Permutation (sort_edits l) l.
Proof.
  induction l as [| x l IH]; simpl; [reflexivity|].
  rewrite insert_edit_perm. now constructor.
Qed.

Lemma insert_edit_filter : forall k x l,
  filter (fun e => e_start e =? k) (insert_edit x l)
  = filter (fun e => e_start e =? k) (x :: l).
Proof.
  intros k x l. induction l as [| y l IH]; [reflexivity|].
  simpl insert_edit. destruct (e_start x <=? e_start y) eqn:E; [reflexivity|].
  simpl. simpl in IH. rewrite IH.
  destruct (e_start x =? k) eqn:Ex; destruct (e_start y =? k) eqn:Ey; try reflexivity.
  apply Nat.eqb_eq in Ex, Ey. apply Nat.leb_gt in E. lia.
Qed.

(** Stability. *)
Lemma sort_edits_filter : forall k l,
  filter (fun e => e_start e =? k) (sort_edits l) = filter (fun e => e_start e =? k) l.
Proof.
  induction l as [| x l IH]; [reflexivity|].
  simpl sort_edits. rewrite insert_edit_filter. simpl. now rewrite IH.
Qed.

(** Consecutive edits from [pos] on: what a compatible batch looks like sorted. *)
Fixpoint chain (pos : nat) (l : list edit) : Prop :=
  match l with
  | [] => True
  | e :: l' => pos <= e_start e /\ e_start e <= e_end e /\ chain (e_end e) l'
  end.

Lemma chain_weaken : forall l p q, p <= q -> chain q l -> chain p l.
Proof. destruct l; simpl; intros; intuition lia. Qed.

Lemma chain_starts : forall l p e, chain p l -> In e l -> p <= e_start e.
Proof.
  induction l as [| x l IH]; intros p e H Hin; [contradiction|].
  simpl in H. destruct H as (H1 & H2 & H3). destruct Hin as [-> | Hin]; [assumption|].
  specialize (IH _ _ H3 Hin). lia.
Qed.

Lemma insert_edit_chain : forall x l p,
  chain p l -> p <= e_start x -> e_start x <= e_end x ->
  (forall y, In y l -> e_end x <= e_start y \/ (e_end y <= e_start x /\ e_start y < e_start x)) ->
  (forall y, In y l -> e_start y <= e_end y) ->
  chain p (insert_edit x l).
Proof.
  induction l as [| y l IH]; intros p Hc Hp Hx Hrel Hwf.
  - simpl. lia.
  - simpl in Hc. destruct Hc as (Hpy & Hy & Hc). simpl.
    destruct (e_start x <=? e_start y) eqn:E.
    + apply Nat.leb_le in E. simpl. repeat split; try assumption.
      destruct (Hrel y (or_introl eq_refl)) as [H | [H H']]; lia.
    + apply Nat.leb_gt in E. simpl. repeat split; try assumption.
      apply IH; try assumption.
      * destruct (Hrel y (or_introl eq_refl)) as [H | [H H']]; lia.
      * intros z Hz. apply Hrel. now right.
      * intros z Hz. apply Hwf. now right.
Qed.

Lemma compatible_chain : forall l,
  compatible l -> (forall e, In e l -> e_start e <= e_end e) -> chain 0 (sort_edits l).
Proof.
  induction l as [| x l IH]; intros Hc Hwf; [exact I|].
  inv Hc. simpl. apply insert_edit_chain.
  - apply IH; [assumption|]. intros e He. apply Hwf. now right.
  - lia.
  - apply Hwf. now left.
  - intros y Hy. rewrite Forall_forall in H1. apply H1.
    eapply Permutation_in; [apply sort_edits_perm | exact Hy].
  - intros y Hy. apply Hwf. right. eapply Permutation_in; [apply sort_edits_perm | exact Hy].
Qed.

Lemma separate_compatible : forall l,
  separate l -> (forall e, In e l -> e_start e <= e_end e) -> compatible l.
Proof.
  induction l as [| x l IH]; intros Hc Hwf; [constructor|].
  inv Hc. constructor.
  - rewrite Forall_forall in H1 |- *. intros y Hy. destruct (H1 y Hy) as [[H | H] Hne].
    + now left.
    + right. split; [assumption|].
      assert (e_start y <= e_end y) by (apply Hwf; now right). lia.
  - apply IH; [assumption|]. intros e He. apply Hwf. now right.
Qed.

(** ** The sequential reading of a chain *)

Fixpoint go (s : str) (pos : nat) (l : list edit) : str :=
  match l with
  | [] => skipn pos s
  | e :: l' => substr s pos (e_start e) ++ e_text e ++ go s (e_end e) l'
  end.

Lemma go_valid : forall s l pos,
  valid s -> chain pos l -> Forall (edit_ok s) l -> is_boundary s pos = true ->
  valid (go s pos l).
Proof.
  intros s l. induction l as [| e l IH]; intros pos Hv Hc Hok Hb; simpl.
  - now apply valid_split.
  - simpl in Hc. destruct Hc as (H1 & H2 & H3). inv Hok.
    destruct H4 as (_ & _ & Hb1 & Hb2 & Ht).
    apply valid_app; [now apply valid_substr|].
    apply valid_app; [assumption|]. now apply IH.
Qed.

Lemma replace_all_rev_go : forall s l pos,
  valid s -> chain pos l -> Forall (edit_ok s) l -> is_boundary s pos = true ->
  replace_all_rev s l = Some (firstn pos s ++ go s pos l).
Proof.
  intros s l. induction l as [| e l IH]; intros pos Hv Hc Hok Hb.
  - simpl. now rewrite firstn_skipn.
  - simpl in Hc. destruct Hc as (H1 & H2 & H3). inv Hok.
    destruct H4 as (_ & Hlen & Hb1 & Hb2 & Ht).
    simpl. rewrite (IH (e_end e)) by assumption.
    assert (Hgv : valid (go s (e_end e) l)) by now apply go_valid.
    assert (Hfl : length (firstn (e_end e) s) = e_end e) by (rewrite firstn_length_le; lia).
    unfold replace_range.
    replace (e_start e <=? e_end e) with true by (symmetry; now apply Nat.leb_le).
    assert (Hle : e_end e <=? length (firstn (e_end e) s ++ go s (e_end e) l) = true).
    { apply Nat.leb_le. rewrite app_length. lia. }
    rewrite Hle.
    assert (Hbe : is_boundary (firstn (e_end e) s ++ go s (e_end e) l) (e_end e) = true).
    { now apply is_boundary_app'. }
    assert (Hbs : is_boundary (firstn (e_end e) s ++ go s (e_end e) l) (e_start e) = true).
    { destruct (Nat.eq_dec (e_start e) (e_end e)) as [-> | Hne]; [assumption|].
      rewrite (firstn_skipn_split _ (e_start e) (e_end e)) by lia.
      rewrite <- app_assoc.
      assert (Hfs : length (firstn (e_start e) s) = e_start e) by (rewrite firstn_length_le; lia).
      apply is_boundary_app'; [|now symmetry]. apply valid_app; [|assumption].
      now apply (valid_substr s (e_start e) (e_end e)). }
    rewrite Hbe, Hbs. cbn [andb]. f_equal.
    rewrite firstn_app_le by lia. rewrite firstn_firstn.
    replace (Nat.min (e_start e) (e_end e)) with (e_start e) by lia.
    rewrite skipn_app_exact' by now symmetry.
    rewrite (firstn_skipn_split _ pos (e_start e)) by lia.
    rewrite <- app_assoc. reflexivity.
Qed.

(** ** The specification read along a chain *)

Lemma out_at_before : forall s l p i,
  chain p l -> i < p -> out_at s l i = old_byte s i.
Proof.
  intros s l p i Hc Hi. unfold out_at.
  assert (Hf : filter (fun e => e_start e =? i) l = []).
  { clear -Hc Hi. revert p Hc Hi. induction l as [| e l IH]; intros p Hc Hi; [reflexivity|].
    simpl in Hc. destruct Hc as (H1 & H2 & H3). simpl.
    destruct (e_start e =? i) eqn:E; [apply Nat.eqb_eq in E; lia|].
    apply (IH (e_end e)); [assumption | lia]. }
  rewrite Hf. simpl.
  assert (Hcov : covered l i = false).
  { clear -Hc Hi. revert p Hc Hi. induction l as [| e l IH]; intros p Hc Hi; [reflexivity|].
    simpl in Hc. destruct Hc as (H1 & H2 & H3). unfold covered. simpl.
    replace (e_start e <=? i) with false by (symmetry; apply Nat.leb_gt; lia). simpl.
    apply (IH (e_end e)); [assumption | lia]. }
  now rewrite Hcov.
Qed.

Lemma flat_map_ext_in : forall (A B : Type) (f g : A -> list B) l,
  (forall x, In x l -> f x = g x) -> flat_map f l = flat_map g l.
Proof.
  intros A B f g l. induction l as [| x l IH]; intros H; simpl; [reflexivity|].
  rewrite (H x) by now left. rewrite IH; [reflexivity|]. intros y Hy. apply H. now right.
Qed.

Lemma old_bytes : forall s n p,
  flat_map (old_byte s) (seq p n) = firstn n (skipn p s).
Proof.
  intros s n. induction n as [| n IH]; intros p; [reflexivity|].
  simpl. rewrite IH. unfold old_byte. destruct (nth_error s p) as [b|] eqn:E.
  - rewrite (skipn_cons_nth_error _ _ _ _ E). reflexivity.
  - apply nth_error_None in E. rewrite !skipn_all2 by lia. now rewrite firstn_nil.
Qed.

Lemma old_bytes_tail : forall s p,
  p <= length s -> flat_map (old_byte s) (seq p (S (length s) - p)) = skipn p s.
Proof.
  intros s p Hp. rewrite old_bytes. apply firstn_all2. rewrite skipn_length. lia.
Qed.

Lemma flat_map_nil : forall (A B : Type) (f : A -> list B) l,
  (forall x, In x l -> f x = []) -> flat_map f l = [].
Proof.
  intros A B f l. induction l as [| x l IH]; intros H; simpl; [reflexivity|].
  rewrite (H x) by now left. simpl. apply IH. intros y Hy. apply H. now right.
Qed.

Lemma out_at_cons_empty : forall s e l i,
  e_start e = e_end e ->
  out_at s (e :: l) i = (if e_start e =? i then e_text e else []) ++ out_at s l i.
Proof.
  intros s e l i He. unfold out_at, covered. simpl.
  replace ((e_start e <=? i) && (i <? e_end e)) with false by lia. simpl.
  destruct (e_start e =? i); simpl; [now rewrite app_assoc | reflexivity].
Qed.

Lemma filter_start_nil : forall l p i,
  chain p l -> i < p -> filter (fun e => e_start e =? i) l = [].
Proof.
  induction l as [| e l IH]; intros p i Hc Hi; [reflexivity|].
  simpl in Hc. destruct Hc as (H1 & H2 & H3). simpl.
  replace (e_start e =? i) with false by lia. apply (IH (e_end e)); [assumption | lia].
Qed.

Lemma out_at_cons_after : forall s e l i,
  e_start e < i -> e_end e <= i -> out_at s (e :: l) i = out_at s l i.
Proof.
  intros s e l i H1 H2. unfold out_at, covered. simpl.
  replace (e_start e =? i) with false by lia.
  replace ((e_start e <=? i) && (i <? e_end e)) with false by lia. reflexivity.
Qed.

Lemma spec_go : forall s l pos,
  chain pos l -> Forall (fun e => e_end e <= length s) l -> pos <= length s ->
  flat_map (out_at s l) (seq pos (S (length s) - pos)) = go s pos l.
Proof.
  intros s l. induction l as [| e l IH]; intros pos Hc Hl Hp.
  - simpl go. rewrite <- old_bytes_tail by assumption.
    apply flat_map_ext_in. intros i _. unfold out_at. reflexivity.
  - assert (Hc0 := Hc). simpl in Hc. destruct Hc as (H1 & H2 & H3). inv Hl.
    simpl go.
    replace (S (length s) - pos) with ((e_start e - pos) + (S (length s) - e_start e)) by lia.
    rewrite seq_app, flat_map_app.
    replace (pos + (e_start e - pos)) with (e_start e) by lia.
    f_equal.
    + rewrite (flat_map_ext_in _ _ _ (old_byte s)).
      * rewrite old_bytes. reflexivity.
      * intros i Hi. apply in_seq in Hi. apply out_at_before with (p := e_start e); [|lia].
        simpl. repeat split; auto.
    + rewrite <- IH by assumption.
      destruct (Nat.eq_dec (e_start e) (e_end e)) as [Heq | Hne].
      * rewrite <- Heq.
        replace (S (length s) - e_start e) with (S (length s - e_start e)) by lia.
        simpl seq. cbn [flat_map]. rewrite out_at_cons_empty by assumption.
        rewrite Nat.eqb_refl, <- !app_assoc. do 2 f_equal.
        apply flat_map_ext_in. intros i Hi. apply in_seq in Hi.
        apply out_at_cons_after; lia.
      * replace (S (length s) - e_start e)
          with (S ((e_end e - e_start e - 1) + (S (length s) - e_end e))) by lia.
        cbn [seq flat_map]. f_equal.
        -- unfold out_at, covered. cbn [filter existsb].
           rewrite Nat.eqb_refl.
           rewrite (filter_start_nil l (e_end e)) by (assumption || lia).
           replace ((e_start e <=? e_start e) && (e_start e <? e_end e)) with true by lia.
           simpl. now rewrite !app_nil_r.
        -- rewrite seq_app, flat_map_app.
           rewrite (flat_map_nil _ _ _ (seq (S (e_start e)) _)).
           ++ simpl. replace (S (e_start e + (e_end e - e_start e - 1))) with (e_end e) by lia.
              apply flat_map_ext_in. intros i Hi. apply in_seq in Hi.
              apply out_at_cons_after; lia.
           ++ intros i Hi. apply in_seq in Hi. unfold out_at, covered. cbn [filter existsb].
              replace (e_start e =? i) with false by lia.
              rewrite (filter_start_nil l (e_end e)) by (assumption || lia).
              now replace ((e_start e <=? i) && (i <? e_end e)) with true by lia.
Qed.

Lemma existsb_perm : forall (A : Type) (f : A -> bool) l l',
  Permutation l l' -> existsb f l = existsb f l'.
Proof.
  intros A f l l' H. induction H; simpl; auto.
  - now rewrite IHPermutation.
  - destruct (f x), (f y); reflexivity.
  - congruence.
Qed.

Lemma simultaneous_sort : forall s l, simultaneous s (sort_edits l) = simultaneous s l.
Proof.
  intros s l. unfold simultaneous. apply flat_map_ext_in. intros i _.
  unfold out_at, covered. rewrite sort_edits_filter.
  now rewrite (existsb_perm _ _ _ _ (sort_edits_perm l)).
Qed.

Lemma Forall_perm : forall (A : Type) (P : A -> Prop) l l',
  Permutation l l' -> Forall P l -> Forall P l'.
Proof.
  intros A P l l' Hp H. rewrite Forall_forall in *. intros x Hx. apply H.
  eapply Permutation_in; [symmetry; exact Hp | exact Hx].
Qed.

Lemma edits_wf : forall s es, Forall (edit_ok s) es -> forall e, In e es -> e_start e <= e_end e.
Proof. intros s es H e He. rewrite Forall_forall in H. now destruct (H e He). Qed.

Lemma replace_all_rev_spec : forall s es,
  valid s -> Forall (edit_ok s) es -> compatible es ->
  replace_all_rev s (sort_edits es) = Some (simultaneous s es).
Proof.
  intros s es Hv Hok Hc.
  assert (Hok' : Forall (edit_ok s) (sort_edits es)).
  { eapply Forall_perm; [symmetry; apply sort_edits_perm | assumption]. }
  assert (Hch : chain 0 (sort_edits es)) by (apply compatible_chain; [assumption | eapply edits_wf; eassumption]).
  rewrite (replace_all_rev_go s (sort_edits es) 0) by auto.
  simpl. f_equal. rewrite <- simultaneous_sort. symmetry.
  unfold simultaneous. rewrite <- spec_go with (pos := 0).
  - reflexivity.
  - assumption.
  - eapply Forall_impl; [| exact Hok']. intros e (_ & H & _). exact H.
  - lia.
Qed.

Lemma apply_edits_compatible : forall s es,
  valid s -> Forall (edit_ok s) es -> compatible es ->
  exists r, apply_edits_range s es = Some (simultaneous s es, r).
Proof.
  intros s es Hv Hok Hc. destruct es as [| e es].
  - eexists. simpl. f_equal. f_equal.
    unfold simultaneous. rewrite (flat_map_ext_in _ _ _ (old_byte s)) by reflexivity.
    rewrite old_bytes. simpl skipn. symmetry. apply firstn_all2. lia.
  - unfold apply_edits_range.
    rewrite replace_all_rev_spec by assumption.
    destruct (fold_left range_step (sort_edits (e :: es)) (length s, 0%Z, 0%Z)) as [[from to] d].
    now exists (from, to).
Qed.

Lemma simultaneous_valid : forall s es,
  valid s -> Forall (edit_ok s) es -> compatible es -> valid (simultaneous s es).
Proof.
  intros s es Hv Hok Hc.
  rewrite <- simultaneous_sort. unfold simultaneous.
  assert (Hok' : Forall (edit_ok s) (sort_edits es)).
  { eapply Forall_perm; [symmetry; apply sort_edits_perm | assumption]. }
  assert (Hch : chain 0 (sort_edits es)) by (apply compatible_chain; [assumption | eapply edits_wf; eassumption]).
  pose proof (spec_go s (sort_edits es) 0 Hch) as H. rewrite Nat.sub_0_r in H. rewrite H.
  - apply go_valid; auto.
  - eapply Forall_impl; [| exact Hok']. intros e (_ & H0 & _). exact H0.
  - lia.
Qed.

(** Permuting a separate batch changes nothing. *)
Lemma simultaneous_perm : forall s es es',
  separate es -> Permutation es es' -> simultaneous s es = simultaneous s es'.
Proof.
  intros s es es' Hs Hp. unfold simultaneous. apply flat_map_ext_in. intros i _.
  unfold out_at, covered. rewrite (existsb_perm _ _ _ _ Hp). f_equal.
  assert (Hnd : forall l, separate l ->
            length (filter (fun e => e_start e =? i) l) <= 1).
  { clear. induction l as [| x l IH]; intros H; simpl; [lia|]. inv H.
    destruct (e_start x =? i) eqn:E; [| now apply IH].
    simpl. rewrite Forall_forall in H2.
    assert (Hn : filter (fun e => e_start e =? i) l = []).
    { clear -H2 E. induction l as [| y l IH]; [reflexivity|]. simpl.
      destruct (e_start y =? i) eqn:Ey.
      - destruct (H2 y (or_introl eq_refl)) as [_ Hne].
        apply Nat.eqb_eq in E, Ey. congruence.
      - apply IH. intros z Hz. apply H2. now right. }
    rewrite Hn. simpl. lia. }
  assert (Hpf : Permutation (filter (fun e => e_start e =? i) es) (filter (fun e => e_start e =? i) es')).
  { clear -Hp. induction Hp; simpl; auto.
    - destruct (e_start x =? i); auto.
    - destruct (e_start x =? i), (e_start y =? i); auto. apply perm_swap.
    - eapply perm_trans; eauto. }
  specialize (Hnd es Hs).
  destruct (filter (fun e => e_start e =? i) es) as [| a [| b t]] eqn:E; simpl in Hnd; [| |lia].
  - apply Permutation_nil in Hpf. now rewrite Hpf.
  - apply Permutation_length_1_inv in Hpf. now rewrite Hpf.
Qed.

Lemma separate_perm : forall es es', separate es -> Permutation es es' -> separate es'.
Proof.
  intros es es' Hs Hp. induction Hp.
  - constructor.
  - inv Hs. constructor; [eapply Forall_perm; eassumption | apply IHHp; assumption].
  - inv Hs. inv H2. inv H1. constructor; [constructor | constructor]; try assumption.
    unfold disjoint in *. intuition lia.
  - auto.
Qed.

(** ** The returned range *)

Fixpoint first_start (d : nat) (l : list edit) : nat :=
  match l with [] => d | e :: l' => Nat.min (e_start e) (first_start d l') end.

Fixpoint last_end (p : nat) (l : list edit) : nat :=
  match l with [] => p | e :: l' => last_end (e_end e) l' end.

Fixpoint total_delta (l : list edit) : Z :=
  match l with
  | [] => 0%Z
  | e :: l' => (Z.of_nat (length (e_text e)) - Z.of_nat (e_end e - e_start e) + total_delta l')%Z
  end.

Lemma go_length : forall s l pos,
  chain pos l -> Forall (fun e => e_end e <= length s) l -> pos <= length s ->
  Z.of_nat (length (go s pos l)) = (Z.of_nat (length s - pos) + total_delta l)%Z.
Proof.
  intros s l. induction l as [| e l IH]; intros pos Hc Hl Hp.
  - simpl. rewrite skipn_length. lia.
  - simpl in Hc. destruct Hc as (H1 & H2 & H3). inv Hl. simpl go. simpl total_delta.
    rewrite !app_length, substr_length by lia.
    specialize (IH (e_end e) H3 H5 H4). lia.
Qed.

(** Loop invariant: [to = pos + delta] where [pos] is the old end of the last
    processed edit (or smaller at the start), and never negative. *)
Lemma range_fold : forall l pos from to delta,
  chain pos l ->
  (0 <= Z.of_nat pos + delta)%Z ->
  (to <= Z.of_nat pos + delta)%Z -> (0 <= to)%Z ->
  l <> [] ->
  exists d, fold_left range_step l (from, to, delta)
  = (Nat.min from (first_start from l), (Z.of_nat (last_end pos l) + delta + total_delta l)%Z, d).
Proof.
  induction l as [| e l IH]; intros pos from to delta Hc Hpd Hto Hto0 Hne; [congruence|].
  simpl in Hc. destruct Hc as (H1 & H2 & H3).
  cbn [fold_left range_step]. unfold as_usize.
  destruct (Z.of_nat (e_start e) + delta <? 0)%Z eqn:En; [lia|].
  set (len := Z.of_nat (length (e_text e))) in *.
  assert (Hmax : Z.max to (Z.of_nat (e_start e) + delta + len)
                 = (Z.of_nat (e_end e) + (delta + (len - Z.of_nat (e_end e - e_start e))))%Z) by lia.
  destruct l as [| e' l].
  - cbn [fold_left]. eexists. f_equal. f_equal; [simpl; lia|].
    cbn [last_end total_delta]. lia.
  - edestruct (IH (e_end e) (Nat.min from (e_start e))
               (Z.max to (Z.of_nat (e_start e) + delta + len))
               (delta + (len - Z.of_nat (e_end e - e_start e)))%Z) as [d Hd].
    + assumption.
    + lia.
    + lia.
    + lia.
    + discriminate.
    + rewrite Hd. exists d. f_equal. f_equal.
      * cbn [first_start]. clear.
        assert (Hm : forall l0 a b, Nat.min (Nat.min a b) (first_start (Nat.min a b) l0)
                       = Nat.min a (Nat.min b (first_start a l0))).
        { induction l0 as [| x l0 IH]; intros a b; cbn [first_start]; [lia|].
          specialize (IH a b). lia. }
        specialize (Hm (e' :: l) from (e_start e)). cbn [first_start] in Hm. lia.
      * cbn [last_end total_delta]. fold len. lia.
Qed.

Lemma first_start_le : forall l d e, In e l -> first_start d l <= e_start e.
Proof.
  induction l as [| x l IH]; intros d e H; [contradiction|]. simpl.
  destruct H as [-> | H]; [lia|]. specialize (IH d e H). lia.
Qed.

Lemma last_end_ge : forall l p e, chain p l -> In e l -> e_end e <= last_end p l.
Proof.
  induction l as [| x l IH]; intros p e Hc Hin; [contradiction|].
  simpl in Hc. destruct Hc as (H1 & H2 & H3). simpl.
  destruct Hin as [-> | Hin]; [| now apply IH].
  assert (Hm : forall l p, chain p l -> p <= last_end p l).
  { clear. induction l as [| y l IH]; intros p Hc; simpl; [lia|].
    simpl in Hc. destruct Hc as (H1 & H2 & H3). specialize (IH _ H3). lia. }
  now apply Hm.
Qed.

Lemma last_end_le : forall l p n, p <= n -> Forall (fun e => e_end e <= n) l -> last_end p l <= n.
Proof.
  induction l as [| x l IH]; intros p n Hp H; simpl; [assumption|]. inv H. now apply IH.
Qed.

Lemma go_prefix : forall s l pos k,
  chain pos l -> pos <= k -> k <= length s -> (forall e, In e l -> k <= e_start e) ->
  firstn (k - pos) (go s pos l) = substr s pos k.
Proof.
  intros s l pos k Hc Hp Hk Hs. destruct l as [| e l]; simpl.
  - reflexivity.
  - specialize (Hs e (or_introl eq_refl)).
    destruct (Nat.le_gt_cases (e_start e) (length s)) as [He | He].
    + rewrite firstn_app_le by (rewrite substr_length; lia).
      unfold substr. rewrite firstn_firstn. f_equal. lia.
    + assert (Hl : length (substr s pos (e_start e)) >= k - pos).
      { unfold substr. rewrite firstn_length, skipn_length. lia. }
      rewrite firstn_app_le by lia.
      unfold substr. rewrite firstn_firstn. f_equal. lia.
Qed.

Lemma go_suffix : forall s l pos,
  chain pos l -> Forall (fun e => e_end e <= length s) l -> pos <= length s ->
  exists m, go s pos l = m ++ skipn (last_end pos l) s.
Proof.
  intros s l. induction l as [| e l IH]; intros pos Hc Hl Hp.
  - exists []. reflexivity.
  - simpl in Hc. destruct Hc as (H1 & H2 & H3). inv Hl.
    destruct (IH (e_end e) H3 H5 H4) as [m Hm].
    exists (substr s pos (e_start e) ++ e_text e ++ m). simpl. rewrite Hm, !app_assoc. reflexivity.
Qed.

Lemma first_start_in : forall l d, l <> [] -> (forall e, In e l -> e_start e <= d) ->
  exists e, In e l /\ first_start d l = e_start e.
Proof.
  induction l as [| x l IH]; intros d Hne Hd; [congruence|]. cbn [first_start].
  assert (Hx : e_start x <= d) by (apply Hd; now left).
  destruct l as [| y l'].
  - exists x. split; [now left|]. cbn. lia.
  - destruct (IH d ltac:(discriminate)) as (e & He & Hf); [intros e He; apply Hd; now right|].
    rewrite Hf. destruct (Nat.le_gt_cases (e_start x) (e_start e)).
    + exists x. split; [now left | lia].
    + exists e. split; [now right | lia].
Qed.

Lemma last_end_in : forall l p, l <> [] -> exists e, In e l /\ e_end e = last_end p l.
Proof.
  induction l as [| x l IH]; intros p Hne; [congruence|]. cbn [last_end]. destruct l as [| y l'].
  - exists x. split; [now left | reflexivity].
  - destruct (IH (e_end x) ltac:(discriminate)) as (e & He & Hf). exists e. split; [now right | exact Hf].
Qed.

Lemma apply_edits_range_sound : forall s es s' from to,
  valid s -> Forall (edit_ok s) es -> compatible es ->
  apply_edits_range s es = Some (s', (from, to)) ->
  exists to' old_to,
    to = Z.of_nat to' /\ from <= to' /\ to' <= length s' /\ old_to <= length s /\
    length s' - to' = length s - old_to /\
    firstn from s' = firstn from s /\ from <= old_to /\
    skipn to' s' = skipn old_to s /\
    (forall e, In e es -> from <= e_start e /\ e_end e <= old_to) /\
    (es <> [] -> (exists e, In e es /\ e_start e = from) /\ exists e, In e es /\ e_end e = old_to).
Proof.
  intros s es s' from to Hv Hok Hc Happ. destruct es as [| e0 es0].
  - simpl in Happ. inv Happ. exists (length s'), (length s').
    repeat split; try lia; try contradiction; congruence.
  - remember (e0 :: es0) as es eqn:Hes.
    assert (Hne : sort_edits es <> []).
    { intros H. pose proof (Permutation_length (sort_edits_perm es)) as Hl.
      rewrite H, Hes in Hl. discriminate. }
    assert (Hok' : Forall (edit_ok s) (sort_edits es)).
    { eapply Forall_perm; [symmetry; apply sort_edits_perm | assumption]. }
    assert (Hends : Forall (fun e => e_end e <= length s) (sort_edits es)).
    { eapply Forall_impl; [| exact Hok']. intros e (_ & H & _). exact H. }
    assert (Hch : chain 0 (sort_edits es)) by (apply compatible_chain; [assumption | eapply edits_wf; eassumption]).
    destruct (range_fold (sort_edits es) 0 (length s) 0%Z 0%Z Hch) as [d Hfold]; try lia; auto.
    assert (Hrep : replace_all_rev s (sort_edits es) = Some (go s 0 (sort_edits es))).
    { rewrite (replace_all_rev_go s (sort_edits es) 0) by auto. reflexivity. }
    unfold apply_edits_range in Happ. rewrite Hfold, Hrep in Happ.
    rewrite Hes in Happ. rewrite <- Hes in Happ. injection Happ as <- <- <-.
    set (l := sort_edits es) in *.
    destruct (go_suffix s l 0 Hch Hends ltac:(lia)) as [m Hm].
    assert (Hle : last_end 0 l <= length s) by (apply last_end_le; [lia | assumption]).
    pose proof (go_length s l 0 Hch Hends ltac:(lia)) as Hgl.
    assert (Hml : (Z.of_nat (length m) = Z.of_nat (last_end 0 l) + 0 + total_delta l)%Z).
    { rewrite Hm, app_length, skipn_length in Hgl. lia. }
    assert (Hin : forall e, In e es -> In e l).
    { intros e He. eapply Permutation_in; [symmetry; apply sort_edits_perm | exact He]. }
    assert (Hout : forall e, In e l -> In e es).
    { intros e He. eapply Permutation_in; [apply sort_edits_perm | exact He]. }
    exists (length m), (last_end 0 l).
    assert (Hfs : first_start (length s) l <= last_end 0 l).
    { destruct l as [| x l'] eqn:El; [congruence|].
      assert (first_start (length s) (x :: l') <= e_start x) by (apply first_start_le; now left).
      assert (e_end x <= last_end 0 (x :: l')) by (apply last_end_ge; [assumption | now left]).
      simpl in Hch. lia. }
    assert (Hpre : firstn (Nat.min (length s) (first_start (length s) l)) (go s 0 l)
                   = firstn (Nat.min (length s) (first_start (length s) l)) s).
    { pose proof (go_prefix s l 0 (Nat.min (length s) (first_start (length s) l)) Hch) as Hg.
      rewrite Nat.sub_0_r in Hg. rewrite Hg; [unfold substr; now rewrite Nat.sub_0_r | lia | lia |].
      intros e He. pose proof (first_start_le l (length s) e He). lia. }
    assert (Hfm : Nat.min (length s) (first_start (length s) l) <= length m).
    { destruct l as [| x l'] eqn:El; [congruence|].
      cbn [go] in Hm. simpl in Hch. destruct Hch as (Hc1 & Hc2 & Hc3). inv Hends.
      destruct (go_suffix s l' (e_end x) Hc3 H2 H1) as [m' Hm'].
      rewrite Hm' in Hm. rewrite !app_assoc in Hm. cbn [last_end] in Hm.
      apply app_inv_tail in Hm. rewrite <- Hm. rewrite !app_length, substr_length by lia.
      assert (first_start (length s) (x :: l') <= e_start x) by (apply first_start_le; now left).
      lia. }
    assert (Hglen : length (go s 0 l) = length m + (length s - last_end 0 l)).
    { rewrite Hm, app_length, skipn_length. reflexivity. }
    repeat split; try assumption; try lia.
    + rewrite Hm at 1. apply skipn_app_exact.
    + pose proof (first_start_le l (length s) e (Hin e H)). lia.
    + now apply last_end_ge, Hin.
    + destruct (first_start_in l (length s) Hne) as (e & He & Hfe); [|rewrite Hfe].
      * intros e He. rewrite Forall_forall in Hok'. destruct (Hok' e He) as (Hw1 & Hw2 & _). lia.
      * exists e. split; [apply Hout, He|]. rewrite Forall_forall in Hok'.
        destruct (Hok' e He) as (Hw1 & Hw2 & _). lia.
    + destruct (last_end_in l 0 Hne) as (e & He & Hfe). exists e. auto.
Qed.

(** ** Lemmas stated for the property file *)

(** Closes [ForallOrdPairs] goals on closed lists. *)
Ltac ord_pairs :=
  repeat (first [apply FOP_nil | apply FOP_cons | apply Forall_nil | apply Forall_cons]);
  unfold disjoint; cbn; lia.

Lemma edits_order_irrelevant_lemma : forall s es es',
  valid s -> Forall (edit_ok s) es -> separate es -> Permutation es es' ->
  exists t r r', apply_edits_range s es = Some (t, r) /\ apply_edits_range s es' = Some (t, r').
Proof.
  intros s es es' Hv Hok Hs Hp.
  assert (Hok' : Forall (edit_ok s) es') by (eapply Forall_perm; eassumption).
  assert (Hs' : separate es') by (eapply separate_perm; eassumption).
  destruct (apply_edits_compatible s es Hv Hok) as [r Hr].
  { apply separate_compatible; [assumption | now apply (edits_wf s)]. }
  destruct (apply_edits_compatible s es' Hv Hok') as [r' Hr'].
  { apply separate_compatible; [assumption | now apply (edits_wf s)]. }
  exists (simultaneous s es), r, r'. split; [assumption|].
  rewrite Hr'. now rewrite (simultaneous_perm s es es').
Qed.

Lemma same_start_refuted_lemma : exists s es,
  valid s /\ Forall (edit_ok s) es /\
  ForallOrdPairs disjoint es /\
  exists t r, apply_edits_range s es = Some (t, r) /\ t <> simultaneous s es /\
              t = lit "012R456" /\ simultaneous s es = lit "012RI56".
Proof.
  exists (lit "0123456"), [Edit 3 5 (lit "R"); Edit 3 3 (lit "I")].
  split; [apply validb_valid; vm_compute; reflexivity|].
  split.
  { repeat constructor; cbn; try lia; apply validb_valid; vm_compute; reflexivity. }
  split.
  { ord_pairs. }
  eexists _, _. split; [vm_compute; reflexivity|].
  split; [vm_compute; discriminate|]. split; vm_compute; reflexivity.
Qed.
