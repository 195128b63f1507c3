(** Proofs about the arena. *)
From Verif Require Import Base ArenaModel ArenaSpec.
Open Scope Z_scope.

Lemma align_up_eq x : align_up x = 8 * ((x + 7) / 8).
Proof.
  unfold align_up, ALIGN. replace (x + 8 - 1) with (x + 7) by lia.
  change (8 - 1) with (Z.ones 3).
  rewrite <- Z.ldiff_land, Z.ldiff_ones_r by lia.
  rewrite Z.shiftl_mul_pow2, Z.shiftr_div_pow2 by lia. change (2 ^ 3) with 8. lia.
Qed.
Lemma align_up_bounds x : x <= align_up x <= x + 7 /\ align_up x mod 8 = 0.
Proof. rewrite align_up_eq. split; [lia|]. rewrite Z.mul_comm. apply Z.mod_mul. lia. Qed.

Lemma apart_sym x y : apart x y -> apart y x.
Proof. unfold apart. tauto. Qed.

Lemma fop_perm l l' : Permutation l l' -> ForallOrdPairs apart l -> ForallOrdPairs apart l'.
Proof.
  induction 1 as [|x l l' Hp IH|x y l|l l2 l3 H1 IH1 H2 IH2]; intros H; auto.
  - inversion H; subst. constructor; [|auto].
    rewrite Forall_forall in *. intros z Hz. apply H2. apply (Permutation_in z (Permutation_sym Hp) Hz).
  - inversion H; subst. inversion H3; subst. inversion H2; subst.
    constructor; [constructor; [apply apart_sym; assumption|assumption]|]. constructor; assumption.
Qed.
Lemma fop_app l1 l2 : ForallOrdPairs apart (l1 ++ l2) <->
  ForallOrdPairs apart l1 /\ ForallOrdPairs apart l2 /\ (forall x y, In x l1 -> In y l2 -> apart x y).
Proof.
  induction l1 as [|a l1 IH]; simpl.
  - split; [intros H; repeat split; [constructor|assumption|intros ? ? []]|tauto].
  - split.
    + intros H. inversion H; subst. apply IH in H3. destruct H3 as (Ha & Hb & Hc).
      rewrite Forall_app in H2. destruct H2 as [H2 H2'].
      split; [constructor; assumption|]. split; [assumption|].
      intros x y [->|Hx] Hy; [rewrite Forall_forall in H2'; auto|auto].
    + intros (Ha & Hb & Hc). inversion Ha; subst. constructor.
      * apply Forall_app. split; [assumption|]. apply Forall_forall. intros y Hy. apply Hc; auto.
      * apply IH. repeat split; auto.
Qed.

Lemma set_nth_split {A} (l : list A) i x : nth_error l i = Some x ->
  exists l1 l2, l = l1 ++ x :: l2 /\ length l1 = i /\ (forall y, set_nth l i y = l1 ++ y :: l2).
Proof.
  intros H. apply nth_error_split in H. destruct H as (l1 & l2 & -> & <-).
  exists l1, l2. split; [reflexivity|]. split; [reflexivity|]. intros y. unfold set_nth.
  rewrite firstn_app, firstn_all, Nat.sub_diag, firstn_O, app_nil_r.
  rewrite skipn_app, skipn_all2 by lia.
  replace (S (length l1) - length l1)%nat with 1%nat by lia. reflexivity.
Qed.
Lemma set_nth_length {A} (l : list A) i x : (i < length l)%nat -> length (set_nth l i x) = length l.
Proof. intros H. unfold set_nth. rewrite app_length, firstn_length. cbn [length]. rewrite skipn_length. lia. Qed.
Lemma set_nth_same {A} (l : list A) i x : (i < length l)%nat -> nth_error (set_nth l i x) i = Some x.
Proof.
  intros H. unfold set_nth. rewrite nth_error_app2; rewrite firstn_length; [|lia].
  replace (i - Nat.min i (length l))%nat with 0%nat by lia. reflexivity.
Qed.
Lemma set_nth_other {A} (l : list A) i j x : (i < length l)%nat -> i <> j ->
  nth_error (set_nth l i x) j = nth_error l j.
Proof.
  intros H Hn. unfold set_nth. destruct (Nat.lt_ge_cases j i).
  - rewrite nth_error_app1 by (rewrite firstn_length; lia).
    rewrite <- (firstn_skipn i l) at 2. rewrite nth_error_app1 by (rewrite firstn_length; lia). reflexivity.
  - rewrite nth_error_app2 by (rewrite firstn_length; lia).
    rewrite firstn_length. replace (j - Nat.min i (length l))%nat with (S (j - S i)) by lia. cbn [nth_error].
    rewrite <- (firstn_skipn (S i) l) at 2. rewrite nth_error_app2 by (rewrite firstn_length; lia).
    rewrite firstn_length. f_equal. lia.
Qed.

Lemma pool_split w t : (t < length (w_pools w))%nat ->
  exists p1 p2, w_pools w = p1 ++ pool w t :: p2 /\ (forall y, set_nth (w_pools w) t y = p1 ++ y :: p2).
Proof.
  intros H. destruct (set_nth_split (w_pools w) t (pool w t)) as (p1 & p2 & E & _ & F).
  - unfold pool. apply nth_error_nth'. assumption.
  - exists p1, p2. auto.
Qed.

(** Ownership: the blocks of the system are those used, those pooled and those lost. *)
Definition good_block (b : Z * Z) : Prop := 8 < fst b /\ fst b mod 8 = 0 /\ CHUNK_SIZE <= snd b.
Definition owns (U : list (Z * Z)) (w : world) (lk : list (Z * Z)) : Prop :=
  Permutation (w_sys w) (U ++ pooled w ++ lk) /\ ForallOrdPairs apart (w_sys w) /\
  Forall good_block (w_sys w) /\ Forall (fun p => (length p <= POOL_LIMIT)%nat) (w_pools w).

Lemma CS : CHUNK_SIZE = 65536. Proof. reflexivity. Qed.

Lemma remove_block_absent l b : ~ In b l -> remove_block l b = l.
Proof.
  induction l as [|x l IH]; simpl; [reflexivity|]. intros H.
  destruct ((fst x =? fst b) && (snd x =? snd b)) eqn:E; simpl.
  - exfalso. apply H. left. destruct x, b; simpl in *. apply andb_true_iff in E. f_equal; lia.
  - f_equal. apply IH. tauto.
Qed.
Lemma apart_irrefl b : 0 < snd b -> ~ apart b b.
Proof. unfold apart. lia. Qed.
Lemma remove_block_perm l b rest : Permutation l (b :: rest) -> ForallOrdPairs apart l -> Forall good_block l ->
  Permutation (remove_block l b) rest.
Proof.
  intros Hp Hf Hg.
  assert (Hin : In b l) by (apply (Permutation_in b (Permutation_sym Hp)); left; reflexivity).
  apply in_split in Hin. destruct Hin as (l1 & l2 & ->).
  assert (Hb : 0 < snd b).
  { rewrite Forall_forall in Hg. destruct (Hg b) as (_ & _ & G); [apply in_elt|]. rewrite CS in G. lia. }
  assert (Hn : ~ In b (l1 ++ l2)).
  { intros Hi. assert (Hq := fop_perm _ _ (Permutation_sym (Permutation_middle l1 l2 b)) Hf).
    inversion Hq; subst. rewrite Forall_forall in H1. apply (apart_irrefl b Hb). auto. }
  assert (Hr : remove_block (l1 ++ b :: l2) b = l1 ++ l2).
  { unfold remove_block. rewrite filter_app. simpl. rewrite !Z.eqb_refl. simpl.
    change (remove_block l1 b ++ remove_block l2 b = l1 ++ l2).
    rewrite in_app_iff in Hn. rewrite !remove_block_absent by tauto. reflexivity. }
  rewrite Hr. apply (Permutation_cons_inv (a := b)).
  etransitivity; [apply Permutation_middle|exact Hp].
Qed.
Lemma fop_sub a l : ForallOrdPairs apart (a :: l) -> ForallOrdPairs apart l.
Proof. inversion 1; assumption. Qed.

Lemma perm_mid {A} (b : A) U X P Y L : Permutation (b :: U ++ (X ++ P ++ Y) ++ L) (U ++ (X ++ b :: P ++ Y) ++ L).
Proof.
  etransitivity; [apply (Permutation_middle U)|]. apply Permutation_app_head.
  rewrite <- !app_assoc. etransitivity; [apply (Permutation_middle X)|]. apply Permutation_app_head.
  simpl. rewrite <- app_assoc. reflexivity.
Qed.

Definition lost_by_recycle (w : world) (t : nat) (b : Z * Z) : list (Z * Z) :=
  if (snd b =? CHUNK_SIZE) && negb (length (pool w t) <? POOL_LIMIT)%nat then [b] else [].

Lemma recycle_owns U w t b lk : (t < length (w_pools w))%nat -> owns (b :: U) w lk ->
  owns U (recycle_chunk w t (fst b) (snd b)) (lost_by_recycle w t b ++ lk).
Proof.
  intros Ht (Hp & Hf & Hg & Hl). unfold recycle_chunk, lost_by_recycle.
  destruct (snd b =? CHUNK_SIZE) eqn:Es; simpl.
  - destruct (length (pool w t) <? POOL_LIMIT)%nat eqn:El; simpl.
    + destruct (pool_split w t Ht) as (p1 & p2 & E & F).
      unfold owns. simpl. rewrite F. unfold pooled in *. simpl. rewrite E in Hp, Hl.
      rewrite !flat_map_app in *. simpl in *.
      split; [|split; [assumption|split; [assumption|]]].
      * rewrite Hp. simpl. replace (fst b, CHUNK_SIZE) with b by (destruct b; simpl in *; f_equal; lia).
        apply perm_mid.
      * rewrite Forall_app in *. destruct Hl as [Ha Hb]. split; [assumption|].
        inversion Hb; subst. constructor; [|assumption]. simpl. apply Nat.ltb_lt in El. lia.
    + split; [|split; [assumption|split; assumption]].
      rewrite Hp. simpl. rewrite !app_assoc. apply Permutation_middle.
  - assert (Hr : Permutation (remove_block (w_sys w) (fst b, snd b)) (U ++ pooled w ++ lk)).
    { rewrite <- surjective_pairing. apply remove_block_perm; assumption. }
    unfold owns. simpl. split; [exact Hr|].
    assert (Hc := fop_perm _ _ Hp Hf). simpl in Hc.
    split; [apply (fop_perm (U ++ pooled w ++ lk)); [symmetry; exact Hr|apply (fop_sub b); exact Hc]|].
    split; [|assumption].
    rewrite Forall_forall in *. intros x Hx. apply Hg. unfold remove_block in Hx.
    apply filter_In in Hx. tauto.
Qed.

Lemma recycle_pools_length w t p n : (t < length (w_pools w))%nat ->
  length (w_pools (recycle_chunk w t p n)) = length (w_pools w).
Proof.
  intros H. unfold recycle_chunk. destruct (n =? CHUNK_SIZE); [|reflexivity].
  destruct (_ <? _)%nat; [|reflexivity]. simpl. apply set_nth_length. assumption.
Qed.
Lemma pool_set w t y : (t < length (w_pools w))%nat -> nth t (set_nth (w_pools w) t y) [] = y.
Proof. intros H. apply nth_error_nth. apply set_nth_same. assumption. Qed.

(** The whole list of chunks. *)
Definition recycle_all (w : world) (t : nat) (l : list (Z * Z)) : world :=
  fold_left (fun w '(p, n) => recycle_chunk w t p n) l w.
Lemma drop_eq w t a : drop_arena w t a = recycle_all w t (chunks a).
Proof. unfold drop_arena, chunks, recycle_all. destruct (_ =? _); reflexivity. Qed.

Lemma recycle_all_owns l : forall U w t lk, (t < length (w_pools w))%nat -> owns (l ++ U) w lk ->
  let w' := recycle_all w t l in
  exists more, owns U w' (more ++ lk) /\ length (w_pools w') = length (w_pools w) /\ w_arenas w' = w_arenas w /\
    (length (pool w t) <= length (pool w' t) <= length (pool w t) + length l)%nat /\
    incl more l /\
    (more <> [] -> (POOL_LIMIT <= length (pool w' t))%nat /\ (POOL_LIMIT < length (pool w t) + length l)%nat).
Proof.
  induction l as [|b l IH]; intros U w t lk Ht Ho w'.
  - exists []. subst w'. simpl. repeat split; auto; try lia; try apply Ho; try (intros ? []); congruence.
  - simpl in Ho. assert (H1 := recycle_owns _ w t b lk Ht Ho).
    set (w1 := recycle_chunk w t (fst b) (snd b)) in *.
    assert (Hw1 : length (w_pools w1) = length (w_pools w)) by (apply recycle_pools_length; assumption).
    assert (Ha1 : w_arenas w1 = w_arenas w).
    { unfold w1, recycle_chunk. destruct (_ =? _); [|reflexivity]. destruct (_ <? _)%nat; reflexivity. }
    assert (Hl1 : (length (pool w t) <= length (pool w1 t) <= length (pool w t) + 1)%nat).
    { unfold w1, recycle_chunk. destruct (_ =? _); [|unfold pool; simpl; lia].
      destruct (_ <? _)%nat; [|lia]. unfold pool at 2 4. simpl. rewrite pool_set by assumption. simpl. lia. }
    destruct (IH U w1 t (lost_by_recycle w t b ++ lk)) as (more & H2 & Hw2 & Ha2 & Hl2 & Hi & Hm); [lia|exact H1|].
    assert (Ew : w' = recycle_all w1 t l) by (subst w' w1; destruct b; reflexivity).
    rewrite Ew. exists (more ++ lost_by_recycle w t b). rewrite <- app_assoc.
    split; [exact H2|]. split; [lia|]. split; [congruence|]. split; [simpl; lia|]. split.
    + intros x Hx. apply in_app_iff in Hx. destruct Hx as [Hx|Hx]; [right; auto|].
      unfold lost_by_recycle in Hx. destruct (_ && _); [|destruct Hx]. simpl in Hx. destruct Hx as [->|[]]. left; reflexivity.
    + intros Hne. unfold lost_by_recycle in Hne.
      destruct ((snd b =? CHUNK_SIZE) && negb (length (pool w t) <? POOL_LIMIT)%nat) eqn:E.
      * apply andb_true_iff in E. destruct E as [_ E]. apply negb_true_iff, Nat.ltb_ge in E. simpl. lia.
      * rewrite app_nil_r in Hne. specialize (Hm Hne). simpl. lia.
Qed.

(** Arenas and objects. *)
Definition wf_arena (a : arena) : Prop :=
  (a_start a = 1 /\ a_ptr a = 8 /\ a_end a = 8 /\ a_full a = []) \/
  (8 < a_start a /\ a_start a mod 8 = 0 /\ a_start a <= a_ptr a <= a_end a /\ a_ptr a mod 8 = 0).

Definition used (a : arena) : list (Z * Z) :=
  (if a_start a =? DANGLING then [] else [(a_start a, a_ptr a - a_start a)]) ++ a_full a.

Definition placed (w : world) (o : nat * Z * Z) : Prop :=
  snd (fst o) mod 8 = 0 /\ 0 <= snd o /\ 
  exists a, nth_error (w_arenas w) (fst (fst o)) = Some (Some a) /\
    ((snd (fst o) = 8 /\ snd o = 0) \/ exists r, In r (used a) /\ inside (block o) r).

Definition inv (threads : nat) (objs : list (nat * Z * Z)) (w : world) : Prop :=
  length (w_pools w) = threads /\ (exists lk, owns (in_use w) w lk) /\
  (forall i a, nth_error (w_arenas w) i = Some (Some a) -> wf_arena a) /\
  Forall (placed w) objs /\ ForallOrdPairs apart (map block objs).

Lemma used_in_chunks a r : wf_arena a -> In r (used a) -> exists c, In c (chunks a) /\ inside r c.
Proof.
  intros Hw. unfold used, chunks. destruct (a_start a =? DANGLING) eqn:E; simpl.
  - intros H. exists r. split; [assumption|]. unfold inside. lia.
  - intros [<-|H]; [|exists r; split; [tauto|unfold inside; lia]].
    eexists. split; [left; reflexivity|]. unfold inside. simpl.
    unfold DANGLING in E. destruct Hw as [(H & _)|Hw]; lia.
Qed.

Lemma inside_trans x y z : inside x y -> inside y z -> inside x z.
Proof. unfold inside. lia. Qed.
Lemma inside_apart x y c d : inside x c -> inside y d -> apart c d -> apart x y.
Proof. unfold inside, apart. lia. Qed.

Lemma in_use_in w i a c : nth_error (w_arenas w) i = Some (Some a) -> In c (chunks a) -> In c (in_use w).
Proof.
  intros H Hc. unfold in_use. apply in_flat_map. exists (Some a). split; [|assumption].
  apply (nth_error_In _ i). assumption.
Qed.

Lemma in_use_set w i a o : nth_error (w_arenas w) i = Some (Some a) ->
  exists rest, Permutation (in_use w) (chunks a ++ rest) /\
    Permutation (flat_map chunks_of (set_nth (w_arenas w) i o)) (chunks_of o ++ rest) /\
    (forall j b c, j <> i -> nth_error (w_arenas w) j = Some (Some b) -> In c (chunks b) -> In c rest).
Proof.
  intros H. destruct (set_nth_split _ _ _ H) as (l1 & l2 & E & Hlen & F).
  exists (flat_map chunks_of l1 ++ flat_map chunks_of l2).
  unfold in_use. rewrite F, E, !flat_map_app. simpl.
  split; [apply Permutation_app_swap_app|]. split; [apply Permutation_app_swap_app|].
  intros j b c Hj Hb Hc. apply in_app_iff.
  destruct (Nat.lt_ge_cases j i).
  - left. rewrite nth_error_app1 in Hb by lia. apply in_flat_map. exists (Some b).
    split; [apply (nth_error_In _ j); assumption|assumption].
  - right. rewrite nth_error_app2 in Hb by lia. rewrite Hlen in Hb.
    replace (j - i)%nat with (S (j - i - 1)) in Hb by lia. simpl in Hb.
    apply in_flat_map. exists (Some b). split; [apply (nth_error_In _ _ Hb)|assumption].
Qed.

(** A chunk handed out by [alloc_chunk]. *)
Lemma alloc_chunk_owns U w t size sys lk p w1 : (t < length (w_pools w))%nat -> owns U w lk ->
  CHUNK_SIZE <= size -> fresh w sys size -> alloc_chunk w t size sys = (p, w1) ->
  owns ((p, size) :: U) w1 lk /\ w_arenas w1 = w_arenas w /\ length (w_pools w1) = length (w_pools w).
Proof.
  intros Ht (Hp & Hf & Hg & Hl) Hs (F1 & F2 & F3) E. unfold alloc_chunk in E.
  assert (Hsys : (sys, World (w_arenas w) (w_pools w) ((sys, size) :: w_sys w)) = (p, w1) ->
    owns ((p, size) :: U) w1 lk /\ w_arenas w1 = w_arenas w /\ length (w_pools w1) = length (w_pools w)).
  { intros Q. inversion Q; subst. clear Q. unfold owns, pooled. simpl.
    split; [|auto]. split; [constructor; exact Hp|]. split; [constructor; assumption|].
    split; [|assumption]. constructor; [|assumption]. unfold good_block. unfold ALIGN in *. simpl. auto. }
  destruct (size =? CHUNK_SIZE) eqn:Es; [|auto].
  destruct (pool w t) as [|q rest] eqn:Eq; [auto|]. inversion E; subst; clear E Hsys.
  destruct (pool_split w t Ht) as (p1 & p2 & E & F). rewrite Eq in E.
  simpl. split; [|split; [reflexivity|apply set_nth_length; assumption]].
  unfold owns, pooled in *. simpl. rewrite F. rewrite E in Hp, Hl. rewrite !flat_map_app in *. simpl in *.
  split; [|split; [assumption|split; [assumption|]]].
  - rewrite Hp. apply Z.eqb_eq in Es. subst size. symmetry.
    apply perm_mid.
  - rewrite Forall_app in *. destruct Hl as [Ha Hb]. split; [assumption|].
    inversion Hb; subst. constructor; [|assumption]. simpl in *. lia.
Qed.

Lemma owns_apart U w lk x y l1 : owns U w lk -> Permutation U (x :: l1) -> In y l1 -> apart x y.
Proof.
  intros (Hp & Hf & _) HU Hy. apply (fop_perm _ _ Hp) in Hf. apply fop_app in Hf. destruct Hf as (Hf & _).
  apply (fop_perm _ _ HU) in Hf. inversion Hf; subst. rewrite Forall_forall in H1. auto.
Qed.

(** An object placed in [w] is apart from a range inside [c] when [c] is apart from every used region. *)
Lemma placed_apart w objs x : (forall i a, nth_error (w_arenas w) i = Some (Some a) -> wf_arena a) ->
  Forall (placed w) objs -> 8 <= fst x -> 
  (forall i a r, nth_error (w_arenas w) i = Some (Some a) -> In r (used a) -> apart x r) ->
  Forall (apart x) (map block objs).
Proof.
  intros Hwf Ho Hx Hr. apply Forall_forall. intros b Hb. apply in_map_iff in Hb.
  destruct Hb as (o & <- & Hin). rewrite Forall_forall in Ho. destruct (Ho o Hin) as (_ & _ & a & Ha & [[E1 E2]|(r & Hir & Hi)]).
  - unfold apart, block. simpl. lia.
  - specialize (Hr _ _ _ Ha Hir). unfold apart, inside in *. lia.
Qed.

Lemma placed_mono w w' i a a' o : nth_error (w_arenas w) i = Some (Some a) ->
  w_arenas w' = set_nth (w_arenas w) i (Some a') ->
  (forall r, In r (used a) -> exists r', In r' (used a') /\ inside r r') ->
  placed w o -> placed w' o.
Proof.
  intros Hi Hw Hu (P1 & P2 & b & Hb & Hr).
  assert (Hlt : (i < length (w_arenas w))%nat) by (apply nth_error_Some; congruence).
  split; [assumption|]. split; [assumption|]. rewrite Hw.
  destruct (Nat.eq_dec i (fst (fst o))) as [Ei|Ei].
  - subst i. rewrite set_nth_same by assumption. exists a'. split; [reflexivity|].
    assert (b = a) by congruence. subst b.
    destruct Hr as [Hr|(r & Hr & Hin)]; [left; assumption|right].
    destruct (Hu r Hr) as (r' & Hr' & Hi'). exists r'. split; [assumption|]. eapply inside_trans; eassumption.
  - rewrite set_nth_other by assumption. exists b. split; assumption.
Qed.

Lemma wf_set w i a' : (i < length (w_arenas w))%nat ->
  (forall j a, nth_error (w_arenas w) j = Some (Some a) -> wf_arena a) -> wf_arena a' ->
  forall j a, nth_error (set_nth (w_arenas w) i (Some a')) j = Some (Some a) -> wf_arena a.
Proof.
  intros Hi Hw Ha j a H. destruct (Nat.eq_dec i j) as [->|E].
  - rewrite set_nth_same in H by assumption. congruence.
  - rewrite set_nth_other in H by assumption. eauto.
Qed.

Lemma in_use_good w lk c : owns (in_use w) w lk -> In c (in_use w) -> In c (w_sys w) /\ good_block c.
Proof.
  intros (Hp & _ & Hg & _) H.
  assert (Hs : In c (w_sys w)) by (apply (Permutation_in c (Permutation_sym Hp)); apply in_app_iff; tauto).
  split; [assumption|]. rewrite Forall_forall in Hg. auto.
Qed.

Lemma owns_perm U U' w lk : Permutation U U' -> owns U w lk -> owns U' w lk.
Proof.
  intros HU (Hp & Hr). split; [|assumption]. rewrite Hp. apply Permutation_app_tail. assumption.
Qed.
Lemma owns_arenas U w lk ars : owns U w lk -> owns U (World ars (w_pools w) (w_sys w)) lk.
Proof. intros H. exact H. Qed.

Lemma alloc_inv n objs w t i size sys p w' : inv n objs w -> 0 <= size ->
  fresh w sys (Z.max (size + ALIGN) CHUNK_SIZE) ->
  step w (EAlloc t i size sys) = Some (Some p, w') -> inv n ((i, p, size) :: objs) w'.
Proof.
  intros (Hn & (lk & Ho) & Hwf & Hpl & Hap) Hs Hfr Hst. simpl in Hst.
  destruct (t <? length (w_pools w))%nat eqn:Et; [|discriminate]. apply Nat.ltb_lt in Et.
  destruct (nth_error (w_arenas w) i) as [[a|]|] eqn:Ei; try discriminate.
  assert (Hlt : (i < length (w_arenas w))%nat) by (apply nth_error_Some; congruence).
  destruct (alloc_raw w t a size sys) as [[q a'] w1] eqn:Er. injection Hst as <- <-.
  unfold alloc_raw in Er. assert (Hwa := Hwf _ _ Ei).
  destruct (align_up_bounds (a_ptr a + size)) as [Hb Hm].
  destruct (align_up (a_ptr a + size) <=? a_end a) eqn:Ele.
  - injection Er as <- <- <-. apply Z.leb_le in Ele.
    set (a' := Arena (align_up (a_ptr a + size)) (a_end a) (a_start a) (a_full a) (a_meta a)).
    set (w' := World (set_nth (w_arenas w) i (Some a')) (w_pools w) (w_sys w)).
    assert (Hch : chunks a' = chunks a) by reflexivity.
    destruct (in_use_set w i a (Some a') Ei) as (rest & P1 & P2 & P3).
    assert (Hwa' : wf_arena a').
    { unfold wf_arena, a' in *. simpl in *. destruct Hwa as [(H1 & H2 & H3 & H4)|H]; [left|right]; lia || (repeat split; try lia; assumption). }
    assert (Hu : forall r, In r (used a) -> exists r', In r' (used a') /\ inside r r').
    { intros r. unfold used, a'. simpl. destruct (a_start a =? DANGLING); simpl; intros Hr.
      - exists r. split; [assumption|unfold inside; lia].
      - destruct Hr as [<-|Hr]; [|exists r; split; [tauto|unfold inside; lia]].
        eexists. split; [left; reflexivity|]. unfold inside. simpl. lia. }
    split; [assumption|]. split.
    { exists lk. apply (owns_arenas _ w). apply (owns_perm (in_use w)); [|assumption].
      rewrite P1. unfold in_use. simpl. rewrite P2. simpl. rewrite Hch. reflexivity. }
    split; [apply wf_set; assumption|].
    assert (Hpl' : Forall (placed w') objs).
    { eapply Forall_impl; [|exact Hpl]. intros o. apply (placed_mono w w' i a a'); auto. }
    split.
    + constructor; [|assumption]. unfold placed. simpl.
      assert (Hptr : a_ptr a mod 8 = 0) by (destruct Hwa as [(_ & H & _)|(_ & _ & _ & H)]; [rewrite H; reflexivity|assumption]).
      split; [assumption|]. split; [assumption|]. exists a'. split; [apply set_nth_same; assumption|].
      destruct Hwa as [(H1 & H2 & H3 & H4)|H]; [left; lia|right].
      exists (a_start a, align_up (a_ptr a + size) - a_start a). split.
      * unfold used, a'. simpl. destruct (a_start a =? DANGLING) eqn:E; [unfold DANGLING in E; lia|left; reflexivity].
      * unfold inside, block. simpl. lia.
    + simpl. constructor; [|assumption]. unfold block at 1. simpl.
      apply (placed_apart w); [assumption|assumption|simpl; destruct Hwa; lia|].
      intros j b r Hj Hr.
      destruct Hwa as [(H1 & H2 & H3 & H4)|H].
      * destruct (used_in_chunks b r (Hwf _ _ Hj) Hr) as (c & Hc & Hi).
        destruct (in_use_good w lk c Ho (in_use_in _ _ _ _ Hj Hc)) as [_ (G & _)].
        unfold apart, inside in *. simpl. lia.
      * assert (Ecur : chunks a = (a_start a, a_end a - a_start a) :: a_full a).
        { unfold chunks. destruct (a_start a =? DANGLING) eqn:E; [unfold DANGLING in E; lia|reflexivity]. }
        rewrite Ecur in P1. simpl in P1.
        assert (Hcur : inside (a_ptr a, size) (a_start a, a_end a - a_start a)) by (unfold inside; simpl; lia).
        destruct (Nat.eq_dec j i) as [->|Ej].
        -- assert (b = a) by congruence. subst b. unfold used in Hr.
           destruct (a_start a =? DANGLING) eqn:E; [unfold DANGLING in E; lia|]. simpl in Hr.
           destruct Hr as [<-|Hr]; [unfold apart; simpl; lia|].
           apply (inside_apart _ _ _ r Hcur); [unfold inside; lia|].
           apply (owns_apart _ _ _ _ _ _ Ho P1). apply in_app_iff. tauto.
        -- destruct (used_in_chunks b r (Hwf _ _ Hj) Hr) as (c & Hc & Hi).
           apply (inside_apart _ _ _ c Hcur Hi).
           apply (owns_apart _ _ _ _ _ _ Ho P1). apply in_app_iff. right. eapply P3; eassumption.
  - unfold alloc_slow in Er. set (asize := Z.max (size + ALIGN) CHUNK_SIZE) in *.
    destruct (alloc_chunk w t asize sys) as [c w2] eqn:Ec. injection Er as <- <- <-.
    assert (Has : CHUNK_SIZE <= asize) by (unfold asize; lia).
    assert (Has2 : size + 8 <= asize) by (unfold asize, ALIGN; lia).
    destruct (alloc_chunk_owns (in_use w) w t asize sys lk c w2 Et Ho Has Hfr Ec) as (Ho2 & Ea & Epl).
    rewrite Ea. clearbody asize.
    set (full := if a_start a =? DANGLING then a_full a else a_full a ++ [(a_start a, a_end a - a_start a)]).
    assert (Hfull : Permutation full (chunks a)).
    { unfold full, chunks. destruct (a_start a =? DANGLING); [reflexivity|]. apply Permutation_app_comm. }
    destruct (align_up_bounds (c + size)) as [Hb2 Hm2].
    set (a' := Arena (align_up (c + size)) (c + asize) c full (a_meta a)).
    set (w' := World (set_nth (w_arenas w) i (Some a')) (w_pools w2) (w_sys w2)).
    assert (Hgood : good_block (c, asize)).
    { destruct Ho2 as (Hp & _ & Hg & _). rewrite Forall_forall in Hg. apply Hg.
      apply (Permutation_in _ (Permutation_sym Hp)). left. reflexivity. }
    destruct Hgood as (G1 & G2 & G3). simpl in G1, G2, G3.
    assert (Hwa' : wf_arena a') by (right; unfold a'; simpl; repeat split; lia || assumption).
    assert (Hnd : (c =? DANGLING) = false) by (unfold DANGLING; lia).
    assert (Hch : Permutation (chunks a') ((c, asize) :: chunks a)).
    { unfold chunks at 1, a'. simpl. rewrite Hnd. simpl. replace (c + asize - c) with asize by lia.
      constructor. exact Hfull. }
    assert (Hu : forall r, In r (used a) -> exists r', In r' (used a') /\ inside r r').
    { intros r Hr. destruct (used_in_chunks a r Hwa Hr) as (d & Hd & Hi). exists d. split; [|assumption].
      unfold used, a'. simpl. rewrite Hnd. right. apply (Permutation_in d (Permutation_sym Hfull)). assumption. }
    destruct (in_use_set w i a (Some a') Ei) as (rest & P1 & P2 & P3).
    split; [unfold w'; simpl; congruence|]. split.
    { exists lk. apply (owns_arenas _ w2). apply (owns_perm ((c, asize) :: in_use w)); [|assumption].
      unfold in_use at 2, w'. simpl. rewrite P2. simpl. rewrite Hch, P1. reflexivity. }
    split; [apply wf_set; assumption|].
    assert (Hpl' : Forall (placed w') objs).
    { eapply Forall_impl; [|exact Hpl]. intros o. apply (placed_mono w w' i a a'); auto. }
    split.
    + constructor; [|assumption]. unfold placed. simpl.
      split; [assumption|]. split; [assumption|]. exists a'. split; [apply set_nth_same; assumption|].
      right. exists (c, align_up (c + size) - c). split.
      * unfold used, a'. simpl. rewrite Hnd. left. reflexivity.
      * unfold inside, block. simpl. lia.
    + simpl. constructor; [|assumption]. unfold block at 1. simpl.
      apply (placed_apart w); [assumption|assumption|simpl; lia|].
      intros j b r Hj Hr.
      destruct (used_in_chunks b r (Hwf _ _ Hj) Hr) as (d & Hd & Hi).
      apply (inside_apart _ _ (c, asize) d); [unfold inside; simpl; lia|assumption|].
      apply (owns_apart _ _ _ _ _ _ Ho2 (Permutation_refl _)). eapply in_use_in; eassumption.
Qed.

Lemma new_inv n objs w w' : inv n objs w -> step w ENew = Some (None, w') -> inv n objs w'.
Proof.
  intros (Hn & (lk & Ho) & Hwf & Hpl & Hap) Hst. simpl in Hst. injection Hst as <-.
  split; [assumption|]. split.
  { exists lk. apply (owns_arenas _ w). unfold in_use. simpl. rewrite flat_map_app. simpl. rewrite app_nil_r. exact Ho. }
  split.
  { simpl. intros i a Hi. destruct (Nat.lt_ge_cases i (length (w_arenas w))).
    - rewrite nth_error_app1 in Hi by assumption. eauto.
    - rewrite nth_error_app2 in Hi by assumption. destruct (i - length (w_arenas w))%nat as [|[|]]; simpl in Hi; try discriminate.
      injection Hi as <-. left. auto. }
  split; [|assumption].
  eapply Forall_impl; [|exact Hpl]. intros o (P1 & P2 & a & Ha & Hr). split; [assumption|]. split; [assumption|].
  exists a. split; [|assumption]. simpl. rewrite nth_error_app1; [assumption|]. apply nth_error_Some. congruence.
Qed.

Lemma fop_filter f l : ForallOrdPairs apart (map block l) -> ForallOrdPairs apart (map block (filter f l)).
Proof.
  induction l as [|x l IH]; simpl; [auto|]. intros H. inversion H; subst.
  destruct (f x); [|auto]. simpl. constructor; [|auto].
  rewrite Forall_forall in *. intros y Hy. apply H2. apply in_map_iff in Hy. destruct Hy as (o & <- & Ho).
  apply in_map. apply filter_In in Ho. tauto.
Qed.

(** Everything about one drop. *)
Lemma drop_facts n objs w w' t i : inv n objs w -> step w (EDrop t i) = Some (None, w') ->
  exists a lk more, nth_error (w_arenas w) i = Some (Some a) /\ owns (in_use w) w lk /\
    owns (in_use w') w' (more ++ lk) /\ length (w_pools w') = length (w_pools w) /\
    w_arenas w' = set_nth (w_arenas w) i None /\ incl more (chunks a) /\
    (more <> [] -> (POOL_LIMIT <= length (pool w' t))%nat /\ (POOL_LIMIT < length (pool w t) + length (chunks a))%nat).
Proof.
  intros (Hn & (lk & Ho) & Hwf & Hpl & Hap) Hst. simpl in Hst.
  destruct (t <? length (w_pools w))%nat eqn:Et; [|discriminate]. apply Nat.ltb_lt in Et.
  destruct (nth_error (w_arenas w) i) as [[a|]|] eqn:Ei; try discriminate.
  injection Hst as <-. rewrite drop_eq.
  destruct (in_use_set w i a None Ei) as (rest & P1 & P2 & _).
  destruct (recycle_all_owns (chunks a) rest w t lk Et (owns_perm _ _ _ _ P1 Ho)) as (more & H1 & H2 & H3 & H4 & H5 & H6).
  set (w1 := recycle_all w t (chunks a)) in *.
  exists a, lk, more. split; [reflexivity|]. split; [assumption|]. split.
  { apply (owns_arenas _ w1). apply (owns_perm rest); [|assumption].
    unfold in_use. simpl. rewrite H3. symmetry. exact P2. }
  split; [assumption|]. split; [simpl; rewrite H3; reflexivity|]. split; assumption.
Qed.

Lemma drop_inv n objs w w' t i : inv n objs w -> step w (EDrop t i) = Some (None, w') ->
  inv n (filter (fun o => negb (Nat.eqb (fst (fst o)) i)) objs) w'.
Proof.
  intros Hi Hst. destruct (drop_facts _ _ _ _ _ _ Hi Hst) as (a & lk & more & Ei & _ & Ho & Hl & Ha & _).
  destruct Hi as (Hn & _ & Hwf & Hpl & Hap).
  assert (Hlt : (i < length (w_arenas w))%nat) by (apply nth_error_Some; congruence).
  split; [congruence|]. split; [eexists; eassumption|]. rewrite Ha. split.
  { intros j b Hj. destruct (Nat.eq_dec i j) as [->|E].
    - rewrite set_nth_same in Hj by assumption. discriminate.
    - rewrite set_nth_other in Hj by assumption. eauto. }
  split; [|apply fop_filter; assumption].
  apply Forall_forall. intros o Hin. apply filter_In in Hin. destruct Hin as [Hin Hne].
  apply negb_true_iff, Nat.eqb_neq in Hne.
  rewrite Forall_forall in Hpl. destruct (Hpl o Hin) as (P1 & P2 & b & Hb & Hr).
  split; [assumption|]. split; [assumption|]. exists b. rewrite Ha.
  rewrite set_nth_other by auto. split; assumption.
Qed.

Lemma exit_inv n objs w t : inv n objs w -> (t < n)%nat -> inv n objs (thread_exit w t).
Proof.
  intros (Hn & (lk & Hp & Hf & Hg & Hl) & Hwf & Hpl & Hap) Ht. subst n.
  destruct (pool_split w t Ht) as (p1 & p2 & E & F).
  split; [simpl; apply set_nth_length; assumption|]. split; [|split; [assumption|split; assumption]].
  exists (map (fun p => (p, CHUNK_SIZE)) (pool w t) ++ lk).
  unfold owns, pooled, thread_exit in *. simpl. rewrite F. rewrite E in Hp, Hl. rewrite flat_map_app in *. simpl in *.
  split; [|split; [assumption|split; [assumption|]]].
  - etransitivity; [exact Hp|]. unfold in_use. simpl. apply Permutation_app_head. rewrite <- !app_assoc. apply Permutation_app_head.
    apply Permutation_app_swap_app.
  - rewrite Forall_app in *. destruct Hl as [Ha Hb]. split; [assumption|]. inversion Hb; subst. constructor; [simpl; lia|assumption].
Qed.

Lemma execution_inv n objs w : execution n objs w -> inv n objs w.
Proof.
  induction 1.
  - split; [apply repeat_length|]. split.
    { exists []. unfold owns, in_use, pooled, world_new. simpl. 
      assert (E : flat_map (map (fun p : Z => (p, CHUNK_SIZE))) (repeat [] n) = []) by (induction n; simpl; auto).
      rewrite E. split; [constructor|]. split; [constructor|]. split; [constructor|].
      apply Forall_forall. intros p Hp. apply repeat_spec in Hp. subst. simpl. lia. }
    split; [intros [|i] a H; discriminate|]. split; constructor.
  - eapply new_inv; eassumption.
  - eapply alloc_inv; eassumption.
  - eapply drop_inv; eassumption.
  - apply exit_inv; assumption.
Qed.

Lemma owns_leaked U w lk c : owns U w lk -> In c (w_sys w) -> In c U \/ In c (pooled w) \/ In c lk.
Proof.
  intros (Hp & _) H. apply (Permutation_in c Hp) in H. rewrite !in_app_iff in H. exact H.
Qed.
Lemma owns_lost U w lk c : owns U w lk -> In c lk -> In c (w_sys w) /\ ~ In c U /\ ~ In c (pooled w).
Proof.
  intros (Hp & Hf & Hg & _) H.
  assert (Hs : In c (w_sys w)) by (apply (Permutation_in c (Permutation_sym Hp)); rewrite !in_app_iff; auto).
  assert (Hc : 0 < snd c) by (rewrite Forall_forall in Hg; destruct (Hg c Hs) as (_ & _ & G); rewrite CS in G; lia).
  split; [assumption|]. apply (fop_perm _ _ Hp) in Hf. rewrite !fop_app in Hf.
  destruct Hf as (_ & (_ & _ & Hb) & Ha).
  split; intros Hi; apply (apart_irrefl c Hc); [apply Ha|apply Hb]; try assumption. apply in_app_iff. auto.
Qed.

(** Metadata *)
Lemma add_metadata_ok a m : Z.of_nat (length (a_meta a)) + 1 < 2 ^ 32 ->
  add_metadata a m = Some (Z.of_nat (length (a_meta a)) + 1,
    Arena (a_ptr a) (a_end a) (a_start a) (a_full a) (a_meta a ++ [m])).
Proof.
  intros H. unfold add_metadata. rewrite app_length. cbn [length].
  rewrite Z.mod_small by lia.
  destruct (_ =? 0) eqn:E; [lia|]. do 2 f_equal. lia.
Qed.
