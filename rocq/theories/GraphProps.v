(** Theorems about the graph algorithms. *)
From Verif Require Import Base GraphModel GraphSpec GraphProofs.
Require Import Permutation.

(** C60: the search always ends; everything it reports is a cycle without repeated nodes. *)
Theorem cycles_genuine : forall g, exists cs, find_cycles g = Some cs /\ Forall (cycle g) cs.
Proof.
  intros g. destruct (find_cycles_runs g) as (s & E & ->). eexists. split; [reflexivity|].
  destruct (find_post _ _ _ _ _ (inv_start g) eq_refl E) as [(_ & _ & _ & new & Ec & F) _]. cbn [se_cycles] in Ec. rewrite app_nil_r in Ec. rewrite Ec. now apply Forall_rev.
Qed.
Print Assumptions cycles_genuine.

(** C60: if some node lies on a closed walk, something is reported. *)
Theorem cycles_found : forall g a b, In a (gr_nodes g) -> step g a b -> walk g b a -> exists c cs, find_cycles g = Some (c :: cs).
Proof.
  intros g a b Ha S W. destruct (find_cycles_runs g) as (s & E & ->). destruct (rev (se_cycles s)) as [| c cs] eqn:Er; [exfalso | eauto].
  assert (Ec : se_cycles s = []) by (rewrite <- (rev_involutive (se_cycles s)), Er; reflexivity).
  destruct (no_report_order g s E Ec) as (F & Ho & Hn). exact (ordered_acyclic g F a b Ho (Hn a Ha) S W).
Qed.
Print Assumptions cycles_found.

Lemma chain_walk g l : forall a b, chain g (a :: l ++ [b]) -> walk g a b.
Proof.
  induction l as [| x l IH]; intros a b H; cbn [app] in H.
  - destruct H as [H _]. eapply WStep; [exact H | constructor].
  - destruct H as [H1 H2]. eapply WStep; [exact H1 | now apply IH].
Qed.

(** C60: a graph without closed walks gets no report. *)
Theorem acyclic_silent : forall g, (forall a b, step g a b -> ~ walk g b a) -> find_cycles g = Some [].
Proof.
  intros g H. destruct (cycles_genuine g) as (cs & -> & F). destruct cs as [| c cs]; [reflexivity|]. exfalso.
  apply Forall_cons_iff in F. destruct F as [(a & r & -> & _ & Ch) _]. destruct r as [| b r]; cbn [app] in Ch.
  - destruct Ch as [S _]. apply (H a a S). constructor.
  - destruct Ch as [S Ch]. apply (H a b S). now apply chain_walk in Ch.
Qed.
Print Assumptions acyclic_silent.

Example cycle_case : find_cycles (Graph [3; 1; 2] [(1, 2); (2, 3); (3, 1); (2, 2)] true) = Some [[3; 1; 2]; [2]].
Proof. vm_compute. reflexivity. Qed.

(** C60 fails for undirected graphs: a single edge is reported as a cycle. *)
Theorem undirected_cycle_refuted : exists g a b, gr_directed g = false /\ gr_nodes g = [a; b] /\ gr_edges g = [(a, b)] /\ a <> b /\ find_cycles g = Some [[a; b]].
Proof. exists (Graph [0; 1] [(0, 1)] false), 0, 1. repeat split. discriminate. Qed.
Print Assumptions undirected_cycle_refuted.

(** C61: layering ends on every graph whose edges lead to existing nodes, and puts every node in exactly one layer; no layer
    is empty. *)
Theorem layers_partition : forall g, NoDup (gr_nodes g) -> Forall (fun e => In (snd e) (gr_nodes g)) (gr_edges g) ->
  exists layers, topological_layers g = Some layers /\ Permutation (concat layers) (gr_nodes g) /\ Forall (fun l => l <> []) layers.
Proof.
  intros g Nd He. unfold topological_layers. destruct (count_some (gr_edges g) (map (fun n => (n, 0)) (gr_nodes g))) as (t & E).
  { rewrite map_map. cbn. now rewrite map_id. }
  rewrite E. destruct (count_spec _ _ _ E) as [K _]. rewrite map_map in K. cbn in K. rewrite map_id in K.
  destruct (peel_spec (gr_edges g) (length (gr_nodes g)) t) as (layers & -> & N & M & F); [now rewrite K | rewrite <- K, map_length; lia |].
  eexists. split; [reflexivity|]. split; [|assumption]. apply NoDup_Permutation; [assumption | assumption|]. intros x. rewrite M, K. reflexivity.
Qed.
Print Assumptions layers_partition.

(** C61: in a directed graph without closed walks every edge leads to a later layer. *)
Theorem layers_respect_edges : forall g layers, NoDup (gr_nodes g) -> closed g -> gr_directed g = true -> (forall a b, step g a b -> ~ walk g b a) ->
  topological_layers g = Some layers -> forall u v, In (u, v) (gr_edges g) ->
  exists A l B, layers = A ++ l :: B /\ In u l /\ In v (concat B) /\ ~ In v (concat (A ++ [l])).
Proof.
  intros g layers Nd Hc Hd Ha Hl u v He.
  destruct (find_cycles_runs g) as (s & E & Ec). rewrite (acyclic_silent g Ha) in Ec. injection Ec as Ec.
  assert (Es : se_cycles s = []) by (rewrite <- (rev_involutive (se_cycles s)), <- Ec; reflexivity).
  destruct (no_report_order g s E Es) as (F & Ho & Hn).
  assert (Hc' := Hc). unfold closed in Hc'. rewrite Forall_forall in Hc'.
  destruct (layers_partition g Nd) as (layers' & E' & P & _); [eapply Forall_impl; [|exact Hc]; intros e H; apply H|]. rewrite Hl in E'. injection E' as <-.
  unfold topological_layers in Hl. destruct (count_degrees _ _) as [t|] eqn:Et; [|discriminate].
  destruct (initial_degrees g t Nd Hc Et) as [K Cn]. rewrite <- K in Cn.
  assert (Hr : forall a b, In (a, b) (gr_edges g) -> rank F b < rank F a) by (intros a b Hab; apply (ordered_rank g F); [assumption | apply Hn; apply (Hc' (a, b) Hab) | now left]).
  destruct (peel_edges (gr_edges g) (rank F) Hr _ t layers ltac:(now rewrite K) Cn Hl u v He) as (A & l & B & EL & Hu & Hv).
  - rewrite K. apply (Hc' _ He).
  - rewrite K. apply (Hc' _ He).
  - exists A, l, B. split; [assumption|]. split; [assumption|]. split; [assumption|].
    assert (N : NoDup (concat layers)) by (apply (Permutation_NoDup (Permutation_sym P)); assumption).
    rewrite EL in N. replace (A ++ l :: B) with ((A ++ [l]) ++ B) in N by (rewrite <- app_assoc; reflexivity). rewrite concat_app in N.
    clear -N Hv. intros H. revert N H Hv. generalize (concat (A ++ [l])) (concat B). intros x y N H Hv. induction x as [| z x IH]; [contradiction|].
    cbn [app] in N. inversion N as [| ? ? N1 N2]; subst. destruct H as [-> | H]; [apply N1; apply in_app_iff; now right | now apply IH].
Qed.
Print Assumptions layers_respect_edges.

Example layers_case : topological_layers (Graph [2; 0; 1; 3] [(0, 1); (1, 2); (0, 2)] true) = Some [[0; 3]; [1]; [2]] /\
  topological_layers (Graph [0; 1] [(0, 1); (1, 0)] true) = Some [[0]; [1]].
Proof. split; vm_compute; reflexivity. Qed.

(** C102 fails: an edge to a missing node makes the layering panic (the other layouts leave such edges out). *)
Theorem dangling_edge_refuted : exists g, gr_nodes g = [0] /\ gr_edges g = [(0, 1)] /\ topological_layers g = None.
Proof. exists (Graph [0] [(0, 1)] true). repeat split. Qed.
Print Assumptions dangling_edge_refuted.

(** C102: exactly those edges do. *)
Theorem dangling_edge_exact : forall g, NoDup (gr_nodes g) -> (topological_layers g = None <-> exists e, In e (gr_edges g) /\ ~ In (snd e) (gr_nodes g)).
Proof.
  intros g Nd. split.
  - intros H. destruct (Forall_Exists_dec (fun e : nat * nat => In (snd e) (gr_nodes g)) (fun e => in_dec Nat.eq_dec (snd e) (gr_nodes g)) (gr_edges g)) as [F | X].
    + destruct (layers_partition g Nd F) as (layers & E & _). congruence.
    + apply Exists_exists in X. destruct X as (e & He & N). eauto.
  - intros (e & He & N). unfold topological_layers.
    assert (G : forall es t, In e es -> map fst t = gr_nodes g -> count_degrees es t = None).
    { induction es as [| x es IH]; intros t Hi Ht; [contradiction|]. cbn [count_degrees]. destruct (increment (snd x) t) as [t'|] eqn:Ei; [|reflexivity].
      destruct Hi as [-> | Hi].
      - unfold increment in Ei. rewrite Ht, (proj2 (mem_not_in _ _) N) in Ei. discriminate.
      - apply IH; [assumption|]. now rewrite (proj1 (increment_spec _ _ _ Ei)). }
    rewrite G; [reflexivity | assumption |]. rewrite map_map. cbn. apply map_id.
Qed.
Print Assumptions dangling_edge_exact.

Lemma step_sym g a b : gr_directed g = false -> step g a b -> step g b a.
Proof. intros Hd [H | [_ H]]; [right; now split | now left]. Qed.
Lemma walk_sym g a b : gr_directed g = false -> walk g a b -> walk g b a.
Proof. intros Hd W. induction W as [a | a b c S W IH]; [constructor|]. eapply walk_app; [exact IH|]. eapply WStep; [apply step_sym; eassumption | constructor]. Qed.
Lemma walk_nodes g a b : closed g -> walk g a b -> In a (gr_nodes g) -> In b (gr_nodes g).
Proof.
  intros Hc W. induction W as [a | a b c S W IH]; [auto|]. intros _. apply IH. unfold closed in Hc. rewrite Forall_forall in Hc.
  destruct S as [S | [_ S]]; apply Hc in S; apply S.
Qed.

(** C62, for undirected graphs whose edges join existing nodes. *)
Theorem connected_partial : forall g, NoDup (gr_nodes g) -> closed g -> gr_directed g = false ->
  exists b, is_connected g = Some b /\ (b = true <-> forall x y, In x (gr_nodes g) -> In y (gr_nodes g) -> walk g x y).
Proof.
  intros g Nd Hc Hd. unfold is_connected. destruct (gr_nodes g) as [| start rest] eqn:En; [exists true; split; [reflexivity | split; [contradiction | reflexivity]]|].
  rewrite <- En in *. assert (Hs : In start (gr_nodes g)) by (rewrite En; now left).
  destruct (explore_reach g start (nodes_universe g start Hs)) as (v & -> & Nv & Hv). eexists. split; [reflexivity|].
  assert (Iv : incl v (gr_nodes g)) by (intros x Hx; apply Hv in Hx; eapply walk_nodes; eassumption).
  rewrite Nat.eqb_eq. split.
  - intros L x y Hx Hy. assert (In' : incl (gr_nodes g) v) by (apply NoDup_length_incl; [assumption | lia | assumption]).
    apply walk_app with start; [apply walk_sym; [assumption | apply Hv; now apply In'] | apply Hv; now apply In'].
  - intros H. apply Nat.le_antisymm; [now apply NoDup_incl_length|]. apply NoDup_incl_length; [assumption|]. intros x Hx. apply Hv. now apply H.
Qed.
Print Assumptions connected_partial.

(** C62: hence the order of the node table does not matter. *)
Theorem connected_order_partial : forall nodes nodes' edges, NoDup nodes -> Permutation nodes nodes' ->
  closed (Graph nodes edges false) -> is_connected (Graph nodes edges false) = is_connected (Graph nodes' edges false).
Proof.
  intros nodes nodes' edges Nd P Hc.
  assert (Nd' : NoDup nodes') by (eapply Permutation_NoDup; eassumption).
  assert (Hc' : closed (Graph nodes' edges false)).
  { unfold closed in *. cbn [gr_edges gr_nodes] in *. eapply Forall_impl; [|exact Hc]. intros e [H1 H2]. cbn beta in *. split; eapply Permutation_in; eassumption. }
  destruct (connected_partial (Graph nodes edges false) Nd Hc eq_refl) as (b & -> & Hb). destruct (connected_partial (Graph nodes' edges false) Nd' Hc' eq_refl) as (b' & -> & Hb'). f_equal.
  assert (W : forall x y, walk (Graph nodes edges false) x y <-> walk (Graph nodes' edges false) x y).
  { assert (G : forall n1 n2 x y, walk (Graph n1 edges false) x y -> walk (Graph n2 edges false) x y) by (intros n1 n2 x y H; induction H; [constructor | eapply WStep; eassumption]). split; apply G. }
  cbn [gr_nodes] in *. assert (I : b = true <-> b' = true).
  { rewrite Hb, Hb'. split; intros H x y Hx Hy; apply W; apply H; (eapply Permutation_in; [|eassumption]); [now apply Permutation_sym | now apply Permutation_sym | assumption | assumption]. }
  destruct b, b'; try reflexivity; [symmetry; now apply I | now apply I].
Qed.
Print Assumptions connected_order_partial.

Example connected_case : is_connected (Graph [2; 0; 1] [(0, 1); (1, 2)] false) = Some true /\ is_connected (Graph [2; 0; 1] [(0, 1)] false) = Some false.
Proof. split; vm_compute; reflexivity. Qed.

(** C62 fails for directed graphs: the answer depends on the order of the node table. *)
Theorem connected_order_refuted : exists nodes nodes' edges, Permutation nodes nodes' /\ closed (Graph nodes edges true) /\
  is_connected (Graph nodes edges true) = Some true /\ is_connected (Graph nodes' edges true) = Some false.
Proof.
  exists [0; 1], [1; 0], [(0, 1)]. split; [constructor|]. split; [|split; vm_compute; reflexivity].
  apply Forall_cons; [|apply Forall_nil]. cbn. auto.
Qed.
Print Assumptions connected_order_refuted.

(** C62 fails also for edges to missing nodes: a graph of one node is said not to be connected. *)
Theorem connected_dangling_refuted : exists g, gr_nodes g = [0] /\ gr_directed g = false /\ is_connected g = Some false.
Proof. exists (Graph [0] [(0, 1)] false). repeat split. Qed.
Print Assumptions connected_dangling_refuted.
