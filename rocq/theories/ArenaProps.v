(** Theorems about the arena and the recycling of its chunks (C33-C36, C77, C78). *)
From Verif Require Import Base ArenaModel ArenaSpec ArenaProofs.
Open Scope Z_scope.

(** C33: at every moment of every execution (any number of arenas and threads, any sizes, arenas dropped on
    any thread, threads ending), every object is aligned, lies in a chunk of its arena that the system
    allocator has granted and not got back, and all objects of all arenas are pairwise disjoint. *)
Theorem objects_disjoint threads objs w : execution threads objs w ->
  ForallOrdPairs apart (map block objs) /\
  (forall i addr size, In (i, addr, size) objs -> addr mod 8 = 0 /\
     exists a, nth_error (w_arenas w) i = Some (Some a) /\
       (0 < size -> exists c, In c (chunks a) /\ In c (w_sys w) /\ inside (addr, size) c)).
Proof.
  intros H. destruct (execution_inv _ _ _ H) as (_ & (lk & Ho) & Hwf & Hpl & Hap).
  split; [assumption|]. intros i addr size Hin. rewrite Forall_forall in Hpl.
  destruct (Hpl _ Hin) as (P1 & P2 & a & Ha & Hr). simpl in *.
  split; [assumption|]. exists a. split; [assumption|]. intros Hs.
  destruct Hr as [[_ E]|(r & Hr & Hi)]; [lia|].
  destruct (used_in_chunks a r (Hwf _ _ Ha) Hr) as (c & Hc & Hi2).
  exists c. split; [assumption|]. split; [apply (in_use_good _ _ _ Ho); eapply in_use_in; eassumption|].
  eapply inside_trans; eassumption.
Qed.
Print Assumptions objects_disjoint.

(** C34 *)
Theorem chunks_exclusive threads objs w : execution threads objs w ->
  ForallOrdPairs apart (in_use w ++ pooled w) /\ incl (in_use w ++ pooled w) (w_sys w) /\
  Forall (fun p => (length p <= 64)%nat) (w_pools w).
Proof.
  intros H. destruct (execution_inv _ _ _ H) as (_ & (lk & Hp & Hf & _ & Hl) & _).
  split; [|split; [|exact Hl]].
  - apply (fop_perm _ _ Hp) in Hf. rewrite app_assoc in Hf. apply fop_app in Hf. tauto.
  - intros c Hc. apply (Permutation_in c (Permutation_sym Hp)). rewrite app_assoc. apply in_app_iff. tauto.
Qed.
Print Assumptions chunks_exclusive.

(** C35, what holds: a drop loses nothing as long as the pool has room for the arena's chunks; and whatever
    a drop loses is a chunk of the dropped arena, with the pool full.  Missing: the case of a full pool. *)
Theorem dropped_memory_returned_partial threads objs w w' t i a : execution threads objs w ->
  nth_error (w_arenas w) i = Some (Some a) -> step w (EDrop t i) = Some (None, w') ->
  ((length (pool w t) + length (chunks a) <= 64)%nat ->
     forall c, In c (chunks a) -> In c (pooled w') \/ ~ In c (w_sys w')) /\
  (forall c, leaked w' c -> leaked w c \/ (In c (chunks a) /\ length (pool w' t) = 64%nat)).
Proof.
  intros H Ha Hst. assert (Hi := execution_inv _ _ _ H).
  assert (Hi' := drop_inv _ _ _ _ _ _ Hi Hst).
  destruct (drop_facts _ _ _ _ _ _ Hi Hst) as (b & lk & more & Hb & Ho & Ho' & Hl & Har & Hinc & Hm).
  assert (b = a) by congruence. subst b.
  assert (Hlt : (i < length (w_arenas w))%nat) by (apply nth_error_Some; congruence).
  assert (Hdis : forall c, In c (chunks a) -> ~ In c (in_use w') /\ ~ In c lk).
  { intros c Hc. destruct (in_use_set w i a None Ha) as (rest & P1 & P2 & _).
    split; intros Hx.
    - unfold in_use in Hx. rewrite Har in Hx. apply (Permutation_in c P2) in Hx. simpl in Hx.
      destruct (in_use_good w lk c Ho (in_use_in _ _ _ _ Ha Hc)) as [_ (_ & _ & G)].
      apply (apart_irrefl c); [rewrite CS in G; lia|].
      destruct Ho as (Hp & Hf & _). apply (fop_perm _ _ Hp) in Hf. apply fop_app in Hf. destruct Hf as (Hf & _).
      apply (fop_perm _ _ P1) in Hf. apply fop_app in Hf. destruct Hf as (_ & _ & Hf). auto.
    - destruct (owns_lost _ _ _ _ Ho Hx) as (_ & N & _). apply N. eapply in_use_in; eassumption. }
  split.
  - intros Hroom c Hc. assert (more = []) as ->.
    { destruct more; [reflexivity|]. destruct Hm as [_ Hm]; [discriminate|]. unfold POOL_LIMIT in Hm. lia. }
    destruct (Hdis c Hc) as [N1 N2].
    destruct (in_dec (fun x y => match Z.eq_dec (fst x) (fst y), Z.eq_dec (snd x) (snd y) with
      | left e, left f => left (eq_trans (surjective_pairing x) (eq_trans (f_equal2 pair e f) (eq_sym (surjective_pairing y))))
      | right n, _ => right (fun q => n (f_equal fst q)) | _, right n => right (fun q => n (f_equal snd q)) end)
      c (w_sys w')) as [Hs|Hs]; [left|right; assumption].
    destruct (owns_leaked _ _ _ _ Ho' Hs) as [Hx|[Hx|Hx]]; tauto.
  - intros c (Hs & Hu & Hp).
    destruct (owns_leaked _ _ _ _ Ho' Hs) as [Hx|[Hx|Hx]]; try tauto.
    apply in_app_iff in Hx. destruct Hx as [Hx|Hx].
    + right. split; [auto|]. destruct Hm as [Hm _]; [intros ->; destruct Hx|].
      destruct Hi' as (Hn & (lk' & _ & _ & _ & Hlim) & _).
      assert (Hle : (length (pool w' t) <= POOL_LIMIT)%nat).
      { rewrite Forall_forall in Hlim. unfold pool.
        destruct (nth_in_or_default t (w_pools w') []) as [Hx'|Hx']; [auto|rewrite Hx'; simpl; lia]. }
      unfold POOL_LIMIT in *. lia.
    + left. exact (owns_lost _ _ _ _ Ho Hx).
Qed.
Print Assumptions dropped_memory_returned_partial.

(** A closed execution: one arena, [n] allocations of 65,000 bytes, each from its own block. *)
Definition base (k : nat) : Z := 100000 * Z.of_nat (S k) - 100000 mod 8.
Fixpoint filled (n : nat) : option (list (nat * Z * Z) * world) :=
  match n with
  | O => match step (world_new 1) ENew with Some (_, w) => Some ([], w) | None => None end
  | S m => match filled m with
           | Some (objs, w) => match step w (EAlloc 0 0 65000 (base m)) with
                               | Some (Some p, w') => Some ((0%nat, p, 65000) :: objs, w')
                               | _ => None
                               end
           | None => None
           end
  end.
Definition freshb (w : world) (addr size : Z) : bool :=
  (ALIGN <? addr) && (addr mod ALIGN =? 0) &&
  forallb (fun y => (addr + size <=? fst y) || (fst y + snd y <=? addr)) (w_sys w).
Lemma freshb_fresh w addr size : freshb w addr size = true -> fresh w addr size.
Proof.
  unfold freshb, fresh. rewrite !andb_true_iff, forallb_forall. intros [[A B] C].
  split; [lia|]. split; [lia|]. apply Forall_forall. intros y Hy. apply C in Hy. unfold apart. simpl. lia.
Qed.
Fixpoint all_fresh (n : nat) : bool :=
  match n with
  | O => true
  | S m => all_fresh m && match filled m with Some (_, w) => freshb w (base m) 65536 | None => false end
  end.
Lemma filled_execution n objs w : all_fresh n = true -> filled n = Some (objs, w) -> execution 1 objs w.
Proof.
  revert objs w. induction n as [|m IH]; intros objs w Hf H; cbn [filled all_fresh] in *.
  - injection H as <- <-. apply (XNew 1 [] (world_new 1)); [constructor|reflexivity].
  - apply andb_true_iff in Hf. destruct Hf as [Hf1 Hf2].
    destruct (filled m) as [[o1 w1]|]; [|discriminate].
    destruct (step w1 (EAlloc 0 0 65000 (base m))) as [[[p|] w2]|] eqn:E; try discriminate.
    injection H as <- <-. apply (XAlloc 1 o1 w1 w2 0 0 65000 (base m) p); auto; [lia|].
    apply freshb_fresh. exact Hf2.
Qed.

(** C35: dropping an arena of 65 standard chunks loses one: neither pooled nor returned. *)
Theorem dropped_memory_returned_refuted : exists objs w a w' c,
  execution 1 objs w /\ nth_error (w_arenas w) 0 = Some (Some a) /\ In c (chunks a) /\
  step w (EDrop 0 0) = Some (None, w') /\ leaked w' c.
Proof.
  destruct (filled 65) as [[objs w]|] eqn:E; [|vm_compute in E; discriminate].
  assert (Hx : execution 1 objs w) by (apply (filled_execution 65); [vm_compute; reflexivity|exact E]).
  assert (Ha : exists a, nth_error (w_arenas w) 0 = Some (Some a)).
  { destruct (nth_error (w_arenas w) 0) as [[a|]|] eqn:Ea; [eauto| |]; exfalso;
    vm_compute in E; injection E as <- <-; vm_compute in Ea; discriminate. }
  destruct Ha as [a Ha].
  destruct (step w (EDrop 0 0)) as [[[z|] w']|] eqn:Ed;
    [exfalso; vm_compute in E; injection E as <- <-; vm_compute in Ed; discriminate| |
     exfalso; vm_compute in E; injection E as <- <-; vm_compute in Ed; discriminate].
  exists objs, w, a, w', (base 63, 65536). split; [assumption|]. split; [assumption|].
  vm_compute in E; injection E as <- <-. vm_compute in Ha. injection Ha as <-. vm_compute in Ed. injection Ed as <-.
  split; [vm_compute; tauto|]. split; [reflexivity|].
  split; [vm_compute; tauto|]. split; intros Hin; vm_compute in Hin;
  repeat (destruct Hin as [Hin|Hin]; [discriminate Hin|]); exact Hin.
Qed.
Print Assumptions dropped_memory_returned_refuted.

Example drop_within_limit : exists objs w w', filled 3 = Some (objs, w) /\ all_fresh 3 = true /\
  step w (EDrop 0 0) = Some (None, w') /\ length (pooled w') = 3%nat /\ in_use w' = [].
Proof.
  destruct (filled 3) as [[objs w]|] eqn:E; [|vm_compute in E; discriminate].
  vm_compute in E. injection E as <- <-. do 3 eexists. repeat split; vm_compute; reflexivity.
Qed.

(** C78: a thread that ends loses the chunks of its pool. *)
Theorem ending_thread_returns_memory_refuted : exists objs w c,
  execution 1 objs w /\ In c (pooled w) /\ leaked (thread_exit w 0) c.
Proof.
  destruct (filled 1) as [[objs w]|] eqn:E; [|vm_compute in E; discriminate].
  assert (Hx : execution 1 objs w) by (apply (filled_execution 1); [vm_compute; reflexivity|exact E]).
  destruct (step w (EDrop 0 0)) as [[[z|] w']|] eqn:Ed;
    [exfalso; vm_compute in E; injection E as <- <-; vm_compute in Ed; discriminate| |
     exfalso; vm_compute in E; injection E as <- <-; vm_compute in Ed; discriminate].
  assert (Hy := XDrop 1 _ _ _ _ _ Hx Ed). eexists. exists w', (base 0, 65536). split; [exact Hy|].
  vm_compute in E; injection E as <- <-. vm_compute in Ed. injection Ed as <-.
  split; [vm_compute; tauto|]. split; [vm_compute; tauto|]. split; intros [].
Qed.
Print Assumptions ending_thread_returns_memory_refuted.

(** C36: reading back.  [stores] adds metadata one after the other and collects the handles. *)
Fixpoint stores (a : arena) (ms : list nat) : option (list Z * arena) :=
  match ms with
  | [] => Some ([], a)
  | m :: rest => match add_metadata a m with
                 | Some (h, a1) => match stores a1 rest with Some (hs, a2) => Some (h :: hs, a2) | None => None end
                 | None => None
                 end
  end.
Lemma stores_spec ms : forall a, Z.of_nat (length (a_meta a) + length ms) < 2 ^ 32 ->
  exists a', a_meta a' = a_meta a ++ ms /\
    stores a ms = Some (map (fun k => Z.of_nat (length (a_meta a) + k) + 1) (seq 0 (length ms)), a').
Proof.
  induction ms as [|m ms IH]; intros a H; cbn [stores].
  - exists a. rewrite app_nil_r. split; reflexivity.
  - cbn [length] in H. rewrite add_metadata_ok by lia.
    set (a1 := Arena _ _ _ _ _). destruct (IH a1) as (a' & E1 & E2).
    { unfold a1. cbn [a_meta]. rewrite app_length. cbn [length]. lia. }
    exists a'. unfold a1 in E1 at 1. cbn [a_meta] in E1. split; [rewrite E1, <- app_assoc; reflexivity|].
    rewrite E2. cbn [length seq map]. rewrite <- seq_shift, map_map. do 3 f_equal; [lia|].
    apply map_ext. intros k. unfold a1. cbn [a_meta]. rewrite app_length. cbn [length]. lia.
Qed.

(** Missing: 2^32 stores and more. *)
Theorem metadata_read_back_partial a ms : Z.of_nat (length (a_meta a) + length ms) < 2 ^ 32 ->
  exists hs a', stores a ms = Some (hs, a') /\ length hs = length ms /\ NoDup hs /\ ~ In 0 hs /\
    (forall k h, nth_error hs k = Some h -> get_metadata a' h = nth_error ms k) /\
    (forall h m, get_metadata a h = Some m -> get_metadata a' h = Some m).
Proof.
  intros H. destruct (stores_spec ms a H) as (a' & E1 & E2). eexists. exists a'.
  split; [exact E2|]. split; [rewrite map_length, seq_length; reflexivity|]. split; [|split; [|split]].
  - apply FinFun.Injective_map_NoDup; [|apply seq_NoDup]. intros x y Hxy. lia.
  - intros Hin. apply in_map_iff in Hin. destruct Hin as (k & Hk & _). lia.
  - intros k h Hk.
    assert (Hlt : (k < length ms)%nat).
    { rewrite <- (seq_length (length ms) 0), <- (map_length (fun k => Z.of_nat (length (a_meta a) + k) + 1)).
      apply nth_error_Some. congruence. }
    rewrite nth_error_map in Hk.
    rewrite (nth_error_nth' _ 0%nat) in Hk by (rewrite seq_length; assumption).
    rewrite seq_nth in Hk by assumption. cbn [option_map] in Hk. injection Hk as <-.
    unfold get_metadata. rewrite E1, nth_error_app2 by lia. f_equal. lia.
  - intros h m Hm. unfold get_metadata in *. rewrite E1. rewrite nth_error_app1; [assumption|].
    apply nth_error_Some. congruence.
Qed.
Print Assumptions metadata_read_back_partial.

(** The 2^32-th store into an arena gets no handle: the program panics. *)
Theorem metadata_read_back_refuted : exists ms hs a m,
  stores arena_new ms = Some (hs, a) /\ add_metadata a m = None.
Proof.
  set (n := Z.to_nat (2 ^ 32 - 1)).
  assert (Hn : Z.of_nat n = 2 ^ 32 - 1) by (unfold n; lia).
  destruct (stores_spec (repeat 0%nat n) arena_new) as (a & E1 & E2).
  { cbn [a_meta arena_new length]. rewrite repeat_length, Nat.add_0_l. lia. }
  exists (repeat 0%nat n). eexists. exists a, 7%nat. split; [exact E2|].
  unfold add_metadata. rewrite E1. cbn [a_meta arena_new app]. rewrite app_length, repeat_length. cbn [length].
  rewrite Nat2Z.inj_add, Hn. reflexivity.
Qed.
Print Assumptions metadata_read_back_refuted.

(** C77: two threads allocating from one (shared, [Sync]) arena can be given the same memory. *)
Theorem shared_arena_disjoint_refuted : exists objs w a p1 a1 p2 a2,
  execution 1 objs w /\ nth_error (w_arenas w) 0 = Some (Some a) /\
  (* both threads read the pointers, then both write *)
  alloc_store a (alloc_load a) 24 = Some (p1, a1) /\ alloc_store a1 (alloc_load a) 16 = Some (p2, a2) /\
  ~ apart (p1, 24) (p2, 16).
Proof.
  destruct (filled 1) as [[objs w]|] eqn:E; [|vm_compute in E; discriminate].
  assert (Hx : execution 1 objs w) by (apply (filled_execution 1); [vm_compute; reflexivity|exact E]).
  exists objs, w. vm_compute in E; injection E as <- <-. do 5 eexists.
  split; [exact Hx|]. split; [reflexivity|]. split; [vm_compute; reflexivity|]. split; [vm_compute; reflexivity|].
  unfold apart. simpl. lia.
Qed.
Print Assumptions shared_arena_disjoint_refuted.

(** One after the other, the two steps are [alloc_raw]. *)
Lemma alone_allocation_is_atomic w t a size sys p a' : alloc_store a (alloc_load a) size = Some (p, a') ->
  alloc_raw w t a size sys = (p, a', w).
Proof.
  unfold alloc_store, alloc_load, alloc_raw. simpl. destruct (_ <=? _); [|discriminate].
  intros H. injection H as <- <-. reflexivity.
Qed.

(** Case: two objects of one arena, then a huge one in its own chunk. *)
Example three_objects : exists objs w, execution 1 objs w /\
  objs = [(0%nat, 400000, 100000); (0%nat, 80024, 5); (0%nat, 80000, 17)].
Proof.
  do 2 eexists. split.
  - eapply (XAlloc 1 _ _ _ 0 0 100000 400000).
    + eapply (XAlloc 1 _ _ _ 0 0 5 400000).
      * eapply (XAlloc 1 _ _ _ 0 0 17 80000).
        -- eapply XNew; [constructor|reflexivity].
        -- lia.
        -- apply freshb_fresh. vm_compute. reflexivity.
        -- vm_compute. reflexivity.
      * lia.
      * apply freshb_fresh. vm_compute. reflexivity.
      * vm_compute. reflexivity.
    + lia.
    + apply freshb_fresh. vm_compute. reflexivity.
    + vm_compute. reflexivity.
  - reflexivity.
Qed.
