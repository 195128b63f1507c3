(** Lemmas about the directions of the hierarchical engine. *)
Require Import QArith Lqa.
From Verif Require Import Base GraphModel GeoModel GeoSpec GeoProofs SideModel SideSpec.
Open Scope Q_scope.

(** ** Turning a drawing over *)
Definition turn_point (p : point) : point := Point (py p) (px p).
Definition turn_size (s : size) : size := Size (sh s) (sw s).
Definition turn_rect (r : rect) : rect := Rect (turn_point (origin r)) (turn_size (extent r)).
Definition turn_node (n : node) : node := Node (n_id n) (n_label n) (turn_rect (n_rect n)).
Fixpoint turn (h : hierarchy) : hierarchy := match h with Hier i s cs => Hier i (turn_size s) (map turn cs) end.
Definition turn_config (c : layout_config) : layout_config := LayoutConfig (lc_vertical c) (lc_horizontal c) (lc_margin c).
Definition turn_item (i : item) : item := Item (i_id i) (turn_size (i_size i)).
Lemma h_size_turn h : h_size (turn h) = turn_size (h_size h).
Proof. now destruct h. Qed.
Definition left_row (c : layout_config) := fix each (l : list hierarchy) (child_y x : Q) : list node * Q :=
  match l with
  | [] => ([], x)
  | h :: r => let '(a, x1) := left_right c h x child_y in let '(b, x2) := each r (child_y + sh (h_size h) + lc_vertical c) x1 in (a ++ b, x2)
  end.
Lemma left_right_eq c i s cs x y : left_right c (Hier i s cs) x y =
  let '(rest, x') := left_row c cs (y + lc_vertical c) (x + (sw s + lc_horizontal c)) in (Node i [] (Rect (Point x y) s) :: rest, x').
Proof. reflexivity. Qed.
Lemma left_row_cons c h r y x : left_row c (h :: r) y x = let '(a, x1) := left_right c h x y in let '(b, x2) := left_row c r (y + sh (h_size h) + lc_vertical c) x1 in (a ++ b, x2).
Proof. reflexivity. Qed.
Lemma left_right_turn c : forall h x y, left_right c h x y = (map turn_node (fst (top_down (turn_config c) (turn h) y x)), snd (top_down (turn_config c) (turn h) y x)).
Proof.
  induction h as [i s cs IH] using hierarchy_ind'. intros x y. rewrite left_right_eq. cbn [turn]. rewrite top_down_eq.
  assert (R : forall y' x', left_row c cs y' x' = (map turn_node (fst (top_down_row (turn_config c) (map turn cs) y' x')), snd (top_down_row (turn_config c) (map turn cs) y' x'))).
  { clear x y. induction IH as [| h r H _ IHr]; intros y' x'; [reflexivity|]. cbn [map]. rewrite left_row_cons, top_down_row_cons, H. destruct (top_down (turn_config c) (turn h) y' x') as [a y1]. cbn [fst snd]. rewrite IHr, h_size_turn. cbn [sw turn_size lc_horizontal turn_config].
    destruct (top_down_row (turn_config c) (map turn r) _ y1) as [b y2]. cbn [fst snd]. now rewrite map_app. }
  rewrite R. cbn [lc_horizontal lc_vertical turn_config sh turn_size]. destruct (top_down_row (turn_config c) (map turn cs) _ _) as [rest y']. cbn [fst snd map]. unfold turn_node at 1. cbn. unfold turn_rect. cbn. now destruct s.
Qed.
Lemma left_right_all_turn c : forall hs x, left_right_all c hs x = (map turn_node (fst (top_down_all (turn_config c) (map turn hs) x)), snd (top_down_all (turn_config c) (map turn hs) x)).
Proof.
  induction hs as [| h r IH]; intros x; [reflexivity|]. cbn [left_right_all map top_down_all]. rewrite left_right_turn. cbn [lc_margin turn_config lc_vertical]. destruct (top_down (turn_config c) (turn h) (lc_margin c) x) as [a y1]. cbn [fst snd]. rewrite IH.
  destruct (top_down_all (turn_config c) (map turn r) _) as [b y2]. cbn [fst snd]. now rewrite map_app.
Qed.
Lemma traverse_turn (f g : nat -> option hierarchy) : (forall i, g i = option_map turn (f i)) -> forall l, traverse g l = option_map (map turn) (traverse f l).
Proof. intros H. induction l as [| i l IH]; [reflexivity|]. cbn [traverse]. rewrite H, IH. destruct (f i); [|reflexivity]. destruct (traverse f l); reflexivity. Qed.
Lemma find_turn id : forall items, find (fun n => (i_id n =? id)%nat) (map turn_item items) = option_map turn_item (find (fun n => (i_id n =? id)%nat) items).
Proof. induction items as [| i r IH]; [reflexivity|]. cbn [map find]. change (i_id (turn_item i)) with (i_id i). destruct (i_id i =? id)%nat; [reflexivity | exact IH]. Qed.
Lemma build_turn items es : forall fuel id, build_node fuel (map turn_item items) es id = option_map turn (build_node fuel items es id).
Proof.
  induction fuel as [| f IH]; intros id; [reflexivity|]. cbn [build_node]. rewrite find_turn. destruct (find _ items) as [n|]; [|reflexivity]. cbn [option_map]. rewrite (traverse_turn (build_node f items es) _ IH). destruct (traverse _ _) as [l|]; reflexivity.
Qed.

Lemma hierarchy_turn fuel items es : build_hierarchy fuel (map turn_item items) es = option_map (map turn) (build_hierarchy fuel items es).
Proof.
  unfold build_hierarchy. assert (B := build_turn items es fuel). revert B. generalize (map turn_item items) at 1 2 as all'. generalize items at 1 3 as all. intros all all' B.
  induction items as [| k l IHl]; [reflexivity|]. cbn [map filter]. change (i_id (turn_item k)) with (i_id k). destruct (negb (mem (i_id k) (map snd es))); [|exact IHl]. cbn [traverse]. change (i_id (turn_item k)) with (i_id k). rewrite B, IHl. clear IHl.
  destruct (build_node fuel all es (i_id k)); [|reflexivity]. cbn [option_map]. destruct (traverse (fun n => build_node fuel all es (i_id n)) _); reflexivity.
Qed.
Lemma put_turn n : forall l, put_node (turn_node n) (map turn_node l) = map turn_node (put_node n l).
Proof. induction l as [| m r IH]; [reflexivity|]. cbn [map put_node]. change (n_id (turn_node m)) with (n_id m). change (n_id (turn_node n)) with (n_id n). destruct (n_id m =? n_id n)%nat; [reflexivity|]. now rewrite IH. Qed.
Lemma add_turn ns : forall l l', l_nodes l' = map turn_node (l_nodes l) -> l_nodes (fold_left add_node (map turn_node ns) l') = map turn_node (l_nodes (fold_left add_node ns l)).
Proof. induction ns as [| n r IH]; intros l l' E; [exact E|]. cbn [map fold_left]. apply IH. cbn [add_node update_bounds l_nodes]. rewrite E. apply put_turn. Qed.
Lemma engine_turn fuel c items es l : directed_engine LeftRight fuel c items es = Some l ->
  exists m, directed_engine TopDown fuel (turn_config c) (map turn_item items) es = Some m /\ l_nodes l = map turn_node (l_nodes m).
Proof.
  intros E. destruct items as [| i r]; [injection E as <-; now exists new_layout|]. unfold directed_engine in *. set (items := i :: r) in *. change (match map turn_item items with [] => ?a | _ => ?b end) with b. rewrite hierarchy_turn. destruct (build_hierarchy fuel items es) as [hs|]; [|discriminate]. cbn [option_map]. eexists. split; [reflexivity|]. injection E as <-. rewrite !route_nodes.
  cbn [placed_in]. rewrite left_right_all_turn. cbn [fst lc_margin turn_config]. now apply add_turn.
Qed.
Lemma engine_turn_back fuel c items es m : directed_engine TopDown fuel (turn_config c) (map turn_item items) es = Some m ->
  exists l, directed_engine LeftRight fuel c items es = Some l /\ l_nodes l = map turn_node (l_nodes m).
Proof.
  intros E. destruct (directed_engine LeftRight fuel c items es) as [l|] eqn:L.
  - destruct (engine_turn _ _ _ _ _ L) as (m' & E' & H). rewrite E in E'. injection E' as <-. now exists l.
  - exfalso. destruct items as [| i r]; [discriminate|]. unfold directed_engine in *. set (items := i :: r) in *. change (match map turn_item items with [] => ?a | _ => ?b end) with b in E. rewrite hierarchy_turn in E. destruct (build_hierarchy fuel items es); discriminate.
Qed.

(** ** What comes later is farther down. *)
Section Down.
  Variable c : layout_config.
  Hypothesis Room : 0 <= lc_vertical c.
  Definition under (a b : node) : Prop := after TopDown c (n_rect a) (n_rect b).
  Definition thin (ps : list (nat * size)) : Prop := Forall (fun p => 0 <= sh (snd p)) ps.
  Definition spaced (y y' : Q) (l : list node) : Prop := y <= y' /\ (forall n, In n l -> y <= min_y (n_rect n) /\ max_y (n_rect n) + lc_vertical c <= y') /\ between under l.
  Lemma spaced_app y y1 y2 a b : spaced y y1 a -> spaced y1 y2 b -> spaced y y2 (a ++ b).
  Proof.
    intros (A1 & A2 & A3) (B1 & B2 & B3). split; [lra|]. split.
    - intros n I. apply in_app_iff in I. destruct I as [I | I]; [apply A2 in I; lra | apply B2 in I; lra].
    - apply between_app; [assumption | assumption|]. intros u v U V. apply A2 in U. apply B2 in V. unfold under, after. unfold max_y, min_y in *. lra.
  Qed.
  Lemma spaced_nil y : spaced y y [].
  Proof. split; [lra|]. split; [intros n [] | apply between_nil]. Qed.
  Lemma top_down_spaced : forall h x y, thin (h_items h) -> spaced y (snd (top_down c h x y)) (fst (top_down c h x y)).
  Proof.
    induction h as [i s cs IH] using hierarchy_ind'. intros x y T. rewrite h_items_eq in T. apply Forall_cons_iff in T. destruct T as [T0 T]. cbn [snd] in T0. rewrite top_down_eq.
    assert (R : forall x' y', spaced y' (snd (top_down_row c cs x' y')) (fst (top_down_row c cs x' y'))).
    { induction IH as [| k r Hk _ IHr]; intros x' y'; [apply spaced_nil|]. cbn [flat_map] in T. apply Forall_app in T. destruct T as [T1 T2]. rewrite top_down_row_cons. specialize (Hk x' y' T1). destruct (top_down c k x' y') as [a y1].
      specialize (IHr T2 (x' + sw (h_size k) + lc_horizontal c) y1). destruct (top_down_row c r _ y1) as [b y2]. cbn [fst snd] in *. eapply spaced_app; eassumption. }
    specialize (R (x + lc_horizontal c) (y + (sh s + lc_vertical c))). destruct (top_down_row c cs _ _) as [rest y']. cbn [fst snd] in *.
    change (?n :: rest) with ([n] ++ rest). eapply spaced_app; [|exact R]. split; [lra|]. split; [|apply between_cons; [constructor | apply between_nil]].
    intros n [<- | []]. unfold min_y, max_y. cbn [n_rect origin py extent]. split; lra.
  Qed.
  Lemma top_down_all_spaced : forall hs y, thin (flat_map h_items hs) -> spaced y (snd (top_down_all c hs y)) (fst (top_down_all c hs y)).
  Proof.
    induction hs as [| h r IH]; intros y T; [apply spaced_nil|]. cbn [flat_map] in T. apply Forall_app in T. destruct T as [T1 T2]. cbn [top_down_all]. pose proof (top_down_spaced h (lc_margin c) y T1) as A. destruct (top_down c h (lc_margin c) y) as [a y1].
    pose proof (IH (y1 + lc_vertical c) T2) as B. destruct (top_down_all c r (y1 + lc_vertical c)) as [b y2]. cbn [fst snd] in *. eapply spaced_app; [exact A|]. destruct B as (B1 & B2 & B3). split; [lra|]. split; [|assumption]. intros n I. apply B2 in I. lra.
  Qed.
  (** ** What is reached comes later. *)
  Variable es : list (nat * nat).
  Definition follows (l : list node) : Prop := forall p x s, l = p ++ x :: s -> forall b, In (n_id x, b) es -> In b (map n_id s).
  Lemma follows_nil : follows [].
  Proof. intros [|] x s E; discriminate. Qed.
  Lemma follows_cons x l : (forall b, In (n_id x, b) es -> In b (map n_id l)) -> follows l -> follows (x :: l).
  Proof. intros H F [| z p] y s E; injection E as -> E; [subst; exact H | exact (F p y s E)]. Qed.
  Lemma follows_app a b : follows a -> follows b -> follows (a ++ b).
  Proof.
    intros A B. induction a as [| x a IH]; [exact B|]. cbn [app]. apply follows_cons.
    - intros k I. rewrite map_app. apply in_or_app. left. exact (A [] x a eq_refl k I).
    - apply IH. intros p y s -> k I. exact (A (x :: p) y s eq_refl k I).
  Qed.
  Definition root (h : hierarchy) : nat := match h with Hier i _ _ => i end.
  Lemma top_down_root h x y : In (root h) (map n_id (fst (top_down c h x y))).
  Proof. destruct h as [i s cs]. rewrite top_down_eq. destruct (top_down_row c cs _ _). now left. Qed.
  Lemma row_follows cs : Forall (fun h => forall x y, follows (fst (top_down c h x y))) cs -> forall x y, follows (fst (top_down_row c cs x y)) /\ incl (map root cs) (map n_id (fst (top_down_row c cs x y))).
  Proof.
    induction 1 as [| h r H _ IH]; intros x y; [split; [apply follows_nil | intros z []]|]. rewrite top_down_row_cons. pose proof (H x y) as A. pose proof (top_down_root h x y) as R. destruct (top_down c h x y) as [a y1]. destruct (IH (x + sw (h_size h) + lc_horizontal c) y1) as [B1 B2]. destruct (top_down_row c r _ y1) as [b y2]. cbn [fst snd map] in *.
    split; [now apply follows_app|]. rewrite map_app. intros z [<- | I]; apply in_or_app; [left; exact R | right; now apply B2].
  Qed.
  Lemma traverse_roots items f : forall ids l, traverse (build_node f items es) ids = Some l -> map root l = ids /\ Forall (fun h => exists id, build_node f items es id = Some h) l.
  Proof.
    induction ids as [| i ids IH]; intros l E; cbn [traverse] in E; [injection E as <-; split; [reflexivity | constructor]|]. destruct (build_node f items es i) as [h|] eqn:H; [|discriminate]. destruct (traverse _ ids) as [l'|]; [|discriminate]. injection E as <-. destruct (IH l' eq_refl) as [A B]. cbn [map]. rewrite A. split; [|constructor; [now exists i | exact B]].
    f_equal. destruct f as [| f]; [discriminate|]. cbn [build_node] in H. destruct (find _ items); [|discriminate]. destruct (traverse _ _); [|discriminate]. injection H as <-. reflexivity.
  Qed.
  Lemma build_follows items : forall f id h, build_node f items es id = Some h -> forall x y, follows (fst (top_down c h x y)).
  Proof.
    induction f as [| f IH]; intros id h E x y; [discriminate|]. cbn [build_node] in E. destruct (find _ items) as [n|]; [|discriminate]. destruct (traverse (build_node f items es) _) as [cs|] eqn:T; [|discriminate]. injection E as <-. destruct (traverse_roots items f _ _ T) as [Rt Fa].
    rewrite top_down_eq. assert (Fc : Forall (fun h => forall x y, follows (fst (top_down c h x y))) cs). { apply Forall_forall. intros h I. rewrite Forall_forall in Fa. destruct (Fa h I) as (k & K). exact (IH k h K). }
    destruct (row_follows cs Fc (x + lc_horizontal c) (y + (sh (i_size n) + lc_vertical c))) as [A B]. destruct (top_down_row c cs _ _) as [rest y']. cbn [fst snd] in *. apply follows_cons; [|exact A]. cbn [n_id]. intros b I. apply B. rewrite Rt. apply in_map_iff. exists (id, b). split; [reflexivity|]. apply filter_In. split; [exact I | apply Nat.eqb_refl].
  Qed.
  Lemma all_follows items f : forall ns hs, traverse (fun n => build_node f items es (i_id n)) ns = Some hs -> forall y, follows (fst (top_down_all c hs y)).
  Proof.
    induction ns as [| n ns IH]; intros hs E y; cbn [traverse] in E; [injection E as <-; apply follows_nil|]. destruct (build_node f items es (i_id n)) as [h|] eqn:B; [|discriminate]. destruct (traverse _ ns) as [r|]; [|discriminate]. injection E as <-. cbn [top_down_all].
    pose proof (build_follows items f _ _ B (lc_margin c) y) as A. destruct (top_down c h (lc_margin c) y) as [a y1]. pose proof (IH r eq_refl (y1 + lc_vertical c)) as D. destruct (top_down_all c r _) as [b y2]. now apply follows_app.
  Qed.
End Down.
(** ** The last insertion counts. *)
Lemma put_last n l x : In x (put_node n l) -> NoDup (map n_id l) -> x = n \/ In x l /\ n_id x <> n_id n.
Proof.
  induction l as [| m r IH]; intros I N; cbn [put_node] in I; [destruct I as [<- | []]; now left|]. inversion N as [| ? ? N1 N2]; subst. destruct (Nat.eqb_spec (n_id m) (n_id n)) as [E | E].
  - destruct I as [<- | I]; [now left|]. right. split; [now right|]. intros X. apply N1. rewrite E, <- X. now apply in_map.
  - destruct I as [<- | I]; [right; split; [now left | exact E]|]. destruct (IH I N2) as [-> | [A B]]; [now left|]. right. split; [now right | exact B].
Qed.
Lemma last_counts ns x : In x (l_nodes (fold_left add_node ns new_layout)) -> exists p s, ns = p ++ x :: s /\ ~ In (n_id x) (map n_id s).
Proof.
  induction ns as [| n ns IH] using rev_ind; [intros []|]. rewrite fold_left_app. cbn [fold_left add_node update_bounds l_nodes]. intros I. apply put_last in I; [|apply add_nodes_nodup; constructor]. destruct I as [-> | [I D]]; [exists ns, []; split; [reflexivity | intros []]|].
  destruct (IH I) as (p & s & -> & N). exists p, (s ++ [n]). split; [now rewrite <- app_assoc|]. rewrite map_app, in_app_iff. intros [H | [H | []]]; [now apply N | now apply D].
Qed.
Lemma last_later (l p s q t : list node) x y : l = p ++ x :: s -> In (n_id y) (map n_id s) -> l = q ++ y :: t -> ~ In (n_id y) (map n_id t) -> exists l1 l2 l3, l = l1 ++ x :: l2 ++ y :: l3.
Proof.
  intros E I E' N. subst l. assert (L : exists u, s = u ++ y :: t).
  { clear - I E' N. revert q E'. induction p as [| z p IH]; intros q E'.
    - destruct q as [| z q]; cbn [app] in E'; injection E' as -> E'; [subst t; contradiction | subst s; now exists q].
    - destruct q as [| z' q]; cbn [app] in E'; injection E' as -> E'; [|exact (IH q E')]. exfalso. apply N. rewrite <- E', map_app. apply in_or_app. right. now right. }
  destruct L as (u & ->). now exists p, u, t.
Qed.
