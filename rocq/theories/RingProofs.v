(** Lemmas about the layouts by angles and by forces. *)
From Verif Require Import Base RingModel RingSpec.
Require Import Reals Lra Permutation.
Open Scope R_scope.

(** ** Tables *)
Lemma put_new b : forall l, ~ In (b_id b) (map b_id l) -> put b l = l ++ [b].
Proof.
  induction l as [| c r IH]; intros N; [reflexivity|]. cbn [put]. destruct (Nat.eqb_spec (b_id c) (b_id b)) as [E | _]; [exfalso; apply N; left; exact E|]. rewrite IH; [reflexivity|]. intros H. apply N. now right.
Qed.
Lemma table_app : forall l acc, NoDup (map b_id (acc ++ l)) -> fold_left (fun t b => put b t) l acc = acc ++ l.
Proof.
  induction l as [| b r IH]; intros acc N; [now rewrite app_nil_r|]. cbn [fold_left]. rewrite put_new.
  - rewrite IH; [now rewrite <- app_assoc|]. now rewrite <- app_assoc.
  - rewrite map_app in N. apply NoDup_remove_2 in N. intros H. apply N. apply in_or_app. now left.
Qed.
Lemma table_nodup l : NoDup (map b_id l) -> table l = l.
Proof. intros N. exact (table_app l [] N). Qed.
Lemma middle_around p s : middle (around p s) = p.
Proof. destruct p as [x y]. unfold middle, around. cbn. f_equal; field. Qed.
Lemma get_in l id b : get l id = Some b -> In b l /\ b_id b = id.
Proof. intros E. apply find_some in E. destruct E as [I E]. split; [exact I | now apply Nat.eqb_eq]. Qed.
Lemma get_none l id : get l id = None -> ~ In id (map b_id l).
Proof. intros E I. apply in_map_iff in I. destruct I as (b & <- & I). pose proof (find_none _ _ E b I) as H. cbn in H. now rewrite Nat.eqb_refl in H. Qed.
Lemma joined_drawing l : forall es, drawing l es (flat_map (joined l) es).
Proof.
  induction es as [| [a b] es IH]; [constructor|]. cbn [flat_map]. unfold joined at 1. cbn [fst snd]. destruct (get l a) as [p|] eqn:A; [destruct (get l b) as [q|] eqn:B|].
  - apply get_in in A, B. apply DrawEdge; [exists p | exists q | exact IH]; (split; [tauto|]; split; [tauto | reflexivity]).
  - apply DrawLess; [right; now apply get_none | exact IH].
  - apply DrawLess; [left; now apply get_none | exact IH].
Qed.

(** ** Chords *)
Lemma chord a b : (cos a - cos b) * (cos a - cos b) + (sin a - sin b) * (sin a - sin b) = 4 * (sin ((a - b) / 2) * sin ((a - b) / 2)).
Proof.
  pose proof (cos_2a_sin ((a - b) / 2)) as H. replace (2 * ((a - b) / 2)) with (a - b) in H by field. rewrite cos_minus in H.
  pose proof (sin2_cos2 a) as A. pose proof (sin2_cos2 b) as B. unfold Rsqr in A, B. nra.
Qed.
Lemma sin_least a x : 0 <= a -> a <= PI / 2 -> a <= x <= PI - a -> sin a <= sin x.
Proof.
  intros P H L. pose proof PI_RGT_0. destruct (Rle_or_lt x (PI / 2)) as [K | K].
  - apply sin_incr_1; lra.
  - rewrite <- (sin_PI_x x). apply sin_incr_1; lra.
Qed.
Lemma chord_far r c a b : 0 <= r -> 0 <= (a - b) / 2 <= PI -> far (on_circle c r a) (on_circle c r b) (2 * r * sin ((a - b) / 2)).
Proof.
  intros R H. split; [apply Rmult_le_pos; [lra | apply sin_ge_0; lra]|]. unfold on_circle. cbn [x_of y_of]. pose proof (chord a b). nra.
Qed.
Lemma ray_far c r a : 0 <= r -> far (on_circle c r a) c r.
Proof. intros R. split; [exact R|]. unfold on_circle. cbn [x_of y_of]. pose proof (sin2_cos2 a) as A. unfold Rsqr in A. nra. Qed.

(** ** The circle *)
Section Circle.
  Variable (c : force_config) (step : R).
  Lemma circle_ids : forall vs i, map b_id (circle c step i vs) = map v_id vs.
  Proof. induction vs as [| v vs IH]; intros i; [reflexivity|]. cbn. now rewrite IH. Qed.
  Lemma circle_nth : forall vs i k v, nth_error vs k = Some v ->
    nth_error (circle c step i vs) k = Some (vert_body c v (on_circle (Spot 0 0) (fc_radius c) (INR (i + k) * step))).
  Proof.
    induction vs as [| u vs IH]; intros i [| k] v E; try discriminate.
    - injection E as <-. cbn. unfold on_circle. cbn [x_of y_of]. rewrite Nat.add_0_r, !Rplus_0_l. reflexivity.
    - cbn [circle nth_error]. rewrite (IH (S i) k v E). now rewrite Nat.add_succ_r.
  Qed.
End Circle.
Lemma squares a b : - b < a < b -> a * a < b * b.
Proof. intros H. pose proof (Rmult_lt_0_compat (b - a) (b + a) ltac:(lra) ltac:(lra)). lra. Qed.
Lemma roots a b : 0 <= b -> a * a <= b * b -> - b <= a <= b.
Proof. intros P H. destruct (Rle_or_lt a b) as [L | L]; [|exfalso; pose proof (squares b a ltac:(lra)); lra]. split; [|exact L]. destruct (Rle_or_lt (- b) a) as [K | K]; [exact K|]. exfalso. pose proof (squares b (- a) ltac:(lra)). lra. Qed.
Lemma apart_boxes a b d : far (middle a) (middle b) d -> 0 <= wide (sides a) -> 0 <= high (sides a) ->
  (wide (sides a) + wide (sides b)) * (wide (sides a) + wide (sides b)) + (high (sides a) + high (sides b)) * (high (sides a) + high (sides b)) <= 4 * (d * d) -> ~ overlap a b.
Proof.
  intros [_ F] W H L ([x y] & (A & B) & (C & D)). destruct a as [[ax ay] [aw ah]], b as [[bx by_] [bw bh]]. unfold middle in F. cbn in *.
  set (u := ax + aw / 2 - (bx + bw / 2)) in *. set (v := ay + ah / 2 - (by_ + bh / 2)) in *. assert (U1 : 2 * u < aw + bw) by (unfold u; lra). assert (U2 : - (aw + bw) < 2 * u) by (unfold u; lra).
  assert (V1 : 2 * v < ah + bh) by (unfold v; lra). assert (V2 : - (ah + bh) < 2 * v) by (unfold v; lra).
  clearbody u v. pose proof (squares (2 * u) (aw + bw) ltac:(lra)). pose proof (squares (2 * v) (ah + bh) ltac:(lra)). lra.
Qed.
Lemma near_boxes a b d w h : far (middle a) (middle b) d -> sides a = Dims w h -> sides b = Dims w h -> d < w -> d < h -> overlap a b.
Proof.
  intros [P F] A B W H. destruct a as [[ax ay] s], b as [[bx by_] s']. cbn in A, B. subst. unfold middle in F. cbn in F.
  set (u := ax + w / 2 - (bx + w / 2)) in *. set (v := ay + h / 2 - (by_ + h / 2)) in *.
  pose proof (Rle_0_sqr u) as U0. pose proof (Rle_0_sqr v) as V0. unfold Rsqr in U0, V0. pose proof (roots u d P ltac:(lra)). pose proof (roots v d P ltac:(lra)).
  exists (Spot ((ax + bx + w) / 2) ((ay + by_ + h) / 2)). unfold interior. cbn. clear F U0 V0. subst u v. repeat split; cbn [x_of y_of corner sides wide high]; lra.
Qed.

(** ** Children, one after the other *)
Definition kids {A} (f : nat -> rtree -> list A) : nat -> list rtree -> list A := fix each i l := match l with [] => [] | c :: r => f i c ++ each (S i) r end.
Lemma kids_in {A} (f : nat -> rtree -> list A) x : forall l i, In x (kids f i l) <-> exists k c, nth_error l k = Some c /\ In x (f (i + k)%nat c).
Proof.
  induction l as [| c l IH]; intros i; cbn [kids]; [split; [intros [] | intros ([|] & ? & E & _); discriminate]|]. rewrite in_app_iff, IH. split.
  - intros [H | (k & d & E & H)]; [exists 0%nat, c; split; [reflexivity|]; now rewrite Nat.add_0_r | exists (S k), d; split; [exact E|]; now rewrite Nat.add_succ_r].
  - intros ([| k] & d & E & H); [left; injection E as <-; now rewrite Nat.add_0_r in H | right; exists k, d; split; [exact E|]; now rewrite Nat.add_succ_r in H].
Qed.
Lemma kids_map {A B} (g : A -> B) (f : nat -> rtree -> list A) : forall l i, map g (kids f i l) = kids (fun i c => map g (f i c)) i l.
Proof. induction l as [| c l IH]; intros i; [reflexivity|]. cbn [kids]. now rewrite map_app, IH. Qed.
Lemma kids_same {A} (f g : nat -> rtree -> list A) : forall l i, (forall k c, In c l -> f k c = g k c) -> kids f i l = kids g i l.
Proof. induction l as [| c l IH]; intros i H; [reflexivity|]. cbn [kids]. rewrite H by (now left). f_equal. apply IH. intros k d I. apply H. now right. Qed.
Lemma nodup_app {A} (a b : list A) : NoDup a -> NoDup b -> (forall x, In x a -> ~ In x b) -> NoDup (a ++ b).
Proof.
  intros Ha Hb H. induction Ha as [| x a N Ha IH]; [exact Hb|]. cbn. constructor.
  - rewrite in_app_iff. intros [I | I]; [now apply N | apply (H x); [now left | exact I]].
  - apply IH. intros y I. apply H. now right.
Qed.
Lemma kids_nodup {A} (f : nat -> rtree -> list A) : forall l i, (forall k c, nth_error l k = Some c -> NoDup (f (i + k)%nat c)) ->
  (forall k k' c c' x, (k < k')%nat -> nth_error l k = Some c -> nth_error l k' = Some c' -> In x (f (i + k)%nat c) -> In x (f (i + k')%nat c') -> False) -> NoDup (kids f i l).
Proof.
  induction l as [| c l IH]; intros i N D; cbn [kids]; [constructor|]. apply nodup_app.
  - specialize (N 0%nat c eq_refl). now rewrite Nat.add_0_r in N.
  - apply IH; [intros k d E; specialize (N (S k) d E); now rewrite Nat.add_succ_r in N|]. intros k k' d d' x L E E' I I'. apply (D (S k) (S k') d d' x); [lia | exact E | exact E' | |]; now rewrite Nat.add_succ_r.
  - intros x I J. apply kids_in in J. destruct J as (k & d & E & J). apply (D 0%nat (S k) c d x); [lia | reflexivity | exact E | now rewrite Nat.add_0_r | now rewrite Nat.add_succ_r].
Qed.
Section TreeInd.
  Variable P : rtree -> Prop.
  Hypothesis Step : forall id s cs, Forall P cs -> P (RTree id s cs).
  Fixpoint rtree_all (t : rtree) : P t :=
    match t with RTree id s cs => Step id s cs ((fix each (l : list rtree) : Forall P l := match l with [] => Forall_nil P | c :: r => Forall_cons c (rtree_all c) (each r) end) cs) end.
End TreeInd.
Lemma radial_eq c t ctr r s sp : radial_children c t ctr r s sp =
  kids (fun i child => let step := sp / INR (length (t_children t)) in let angle := s + INR i * step + step / 2 in let pos := on_circle ctr r angle in
    tree_body c child pos :: radial_children c child pos (r + rc_level c) (angle - step * (4 / 5) / 2) (step * (4 / 5))) 0 (t_children t).
Proof.
  destruct t as [id sz cs]. cbn [radial_children t_children]. generalize 0%nat. generalize (INR (length cs)). intros n. induction cs as [| d cs IH]; intros i; [reflexivity|]. cbn [kids]. rewrite IH. reflexivity.
Qed.
Lemma balloon_eq c t ctr r : balloon_children c t ctr r =
  kids (fun i child => let pos := on_circle ctr r (INR i * (2 * PI / INR (length (t_children t)))) in tree_body c child pos :: balloon_children c child pos (r * (3 / 5))) 0 (t_children t).
Proof.
  destruct t as [id sz cs]. cbn [balloon_children t_children]. generalize 0%nat. generalize (INR (length cs)). intros n. induction cs as [| d cs IH]; intros i; [reflexivity|]. cbn [kids]. rewrite IH. reflexivity.
Qed.
Lemma nodes_eq t : nodes_of t = t :: kids (fun _ c => nodes_of c) 0 (t_children t).
Proof. destruct t as [id sz cs]. cbn [nodes_of t_children]. f_equal. generalize 0%nat. induction cs as [| d cs IH]; intros i; [reflexivity|]. cbn [kids]. now rewrite <- IH. Qed.

(** ** Cones *)
Inductive cone (lo hi : R) : spot -> Prop :=
| One r a : 0 < r -> lo <= a <= hi -> cone lo hi (Spot (r * cos a) (r * sin a))
| Sum p q : cone lo hi p -> cone lo hi q -> cone lo hi (spot_add p q).
Lemma cone_wide lo hi lo' hi' p : lo' <= lo -> hi <= hi' -> cone lo hi p -> cone lo' hi' p.
Proof. intros L H C. induction C as [r a R A | p q _ IHp _ IHq]; [apply One; lra | now apply Sum]. Qed.
Definition dot (p : spot) (w : R) : R := x_of p * cos w + y_of p * sin w.
Lemma dot_add p q w : dot (spot_add p q) w = dot p w + dot q w.
Proof. unfold dot, spot_add. cbn [x_of y_of]. ring. Qed.
Lemma dot_one r a w : dot (Spot (r * cos a) (r * sin a)) w = r * cos (a - w).
Proof. unfold dot. cbn [x_of y_of]. rewrite cos_minus. ring. Qed.
Lemma cone_pos lo hi p w : cone lo hi p -> w - PI / 2 < lo -> hi < w + PI / 2 -> 0 < dot p w.
Proof.
  intros C L H. induction C as [r a R A | p q _ IHp _ IHq]; [|rewrite dot_add; lra]. rewrite dot_one. apply Rmult_lt_0_compat; [exact R|]. apply cos_gt_0; lra.
Qed.
Lemma cone_neg lo hi p w : cone lo hi p -> w + PI / 2 < lo -> hi < w + 3 * (PI / 2) -> dot p w < 0.
Proof.
  intros C L H. induction C as [r a R A | p q _ IHp _ IHq]; [|rewrite dot_add; lra]. rewrite dot_one. pose proof (cos_lt_0 (a - w) ltac:(lra) ltac:(lra)). nra.
Qed.
Lemma between a b c d : a < c -> a < d -> b < c -> b < d -> exists w, a < w /\ b < w /\ w < c /\ w < d.
Proof.
  intros. exists ((Rmax a b + Rmin c d) / 2). assert (Rmax a b < Rmin c d) by (unfold Rmax, Rmin; destruct (Rle_dec a b), (Rle_dec c d); lra).
  pose proof (Rmax_l a b). pose proof (Rmax_r a b). pose proof (Rmin_l c d). pose proof (Rmin_r c d). lra.
Qed.
(** Cones that are turned against each other have no point in common. *)
Lemma cones_apart lo hi lo' hi' p : lo <= hi -> lo' <= hi' -> hi - lo < PI -> hi' - lo' < PI -> hi < lo' -> hi' < lo + 2 * PI -> cone lo hi p -> cone lo' hi' p -> False.
Proof.
  intros A B C D E F G H. pose proof PI_RGT_0. destruct (between (hi - PI / 2) (hi' - 3 * (PI / 2)) (lo + PI / 2) (lo' - PI / 2)) as (w & W1 & W2 & W3 & W4); [lra | lra | lra | lra|].
  pose proof (cone_pos lo hi p w G ltac:(lra) ltac:(lra)). pose proof (cone_neg lo' hi' p w H ltac:(lra) ltac:(lra)). lra.
Qed.
(** A point of a cone and a step ahead do not cancel out. *)
Lemma cone_ahead lo hi p a d : lo <= hi -> hi - lo < PI -> 0 <= d -> d = 0 \/ (a - PI < lo /\ hi < a + PI) -> cone lo hi p -> spot_add (Spot (d * cos a) (d * sin a)) p <> Spot 0 0.
Proof.
  intros A B P C G E. pose proof PI_RGT_0. assert (W : exists w, hi - PI / 2 < w /\ w < lo + PI / 2 /\ (d = 0 \/ a - PI / 2 < w < a + PI / 2)).
  { destruct C as [-> | [L H0]]; [exists ((lo + hi) / 2); split; [lra|]; split; [lra | now left]|].
    destruct (between (hi - PI / 2) (a - PI / 2) (lo + PI / 2) (a + PI / 2)) as (w & W1 & W2 & W3 & W4); [lra | lra | lra | lra|]. exists w. split; [lra|]. split; [lra|]. right. lra. }
  destruct W as (w & W1 & W2 & W3). pose proof (cone_pos lo hi p w G ltac:(lra) ltac:(lra)) as Q. pose proof (f_equal (fun s => dot s w) E) as K. cbv beta in K. rewrite dot_add, dot_one in K. unfold dot at 2 in K. cbn [x_of y_of] in K.
  destruct W3 as [-> | W3]; [lra|]. pose proof (cos_gt_0 (a - w) ltac:(lra) ltac:(lra)). assert (0 <= d * cos (a - w)) by (apply Rmult_le_pos; lra). lra.
Qed.

(** ** The radial layout *)
Lemma ratio n k sp : 0 < sp -> (k < n)%nat -> 0 < sp / INR n /\ 0 <= INR k * (sp / INR n) /\ (INR k + 1) * (sp / INR n) <= sp /\ INR n * (sp / INR n) = sp.
Proof.
  intros S L. assert (N : 0 < INR n) by (apply lt_0_INR; lia). assert (K : INR k + 1 <= INR n) by (rewrite <- S_INR; apply le_INR; lia). pose proof (pos_INR k).
  assert (Q : 0 < sp / INR n) by (apply Rdiv_lt_0_compat; lra). assert (E : INR n * (sp / INR n) = sp) by (field; lra). split; [exact Q|]. split; [apply Rmult_le_pos; lra|]. split; [|exact E]. rewrite <- E at 2. apply Rmult_le_compat_r; lra.
Qed.
Section Radial.
  Variable c : ring_config.
  Hypothesis Lv : 0 < rc_level c.
  Notation mid := (fun b => middle (b_box b)).
  Lemma mid_body t p : middle (b_box (tree_body c t p)) = p.
  Proof. apply middle_around. Qed.
  Definition branch (t : rtree) (ctr : spot) (r s sp : R) (i : nat) (child : rtree) : list body :=
    let step := sp / INR (length (t_children t)) in let angle := s + INR i * step + step / 2 in let pos := on_circle ctr r angle in
    tree_body c child pos :: radial_children c child pos (r + rc_level c) (angle - step * (4 / 5) / 2) (step * (4 / 5)).
  Lemma radial_branch t ctr r s sp : radial_children c t ctr r s sp = kids (branch t ctr r s sp) 0 (t_children t).
  Proof. apply radial_eq. Qed.
  Lemma nth_lt {A} (l : list A) k x : nth_error l k = Some x -> (k < length l)%nat.
  Proof. intros E. apply nth_error_Some. congruence. Qed.
  (** Everything on a branch lies in its sector. *)
  Lemma branch_cone : forall t ctr r s sp k child b, 0 < r -> 0 < sp -> nth_error (t_children t) k = Some child -> In b (branch t ctr r s sp k child) ->
    let step := sp / INR (length (t_children t)) in cone (s + INR k * step + step / 10) (s + INR k * step + 9 * step / 10) (spot_sub (middle (b_box b)) ctr).
  Proof.
    intros t. induction t as [id sz cs IH] using rtree_all. intros ctr r s sp k child b R S E I step. cbn [t_children] in *. destruct (ratio (length cs) k sp S (nth_lt _ _ _ E)) as (Q & K0 & K1 & _). fold step in Q, K0, K1.
    assert (U : forall a, spot_sub (on_circle ctr r a) ctr = Spot (r * cos a) (r * sin a)) by (intros a; unfold spot_sub, on_circle; cbn [x_of y_of]; f_equal; ring).
    unfold branch in I. cbn [t_children] in I. fold step in I. cbv zeta in I. set (angle := s + INR k * step + step / 2) in *. destruct I as [<- | I].
    - rewrite mid_body, U. apply One; [exact R | unfold angle; lra].
    - rewrite radial_branch in I. apply kids_in in I. destruct I as (k' & d & E' & I). cbn [Nat.add] in I.
      assert (D : 0 < step * (4 / 5)) by lra. assert (R' : 0 < r + rc_level c) by lra.
      pose proof (proj1 (Forall_forall _ _) IH child (nth_error_In _ _ E) _ _ _ _ k' d b R' D E' I) as C. cbv zeta in C. destruct (ratio (length (t_children child)) k' (step * (4 / 5)) D (nth_lt _ _ _ E')) as (Q' & K0' & K1' & _).
      set (step' := step * (4 / 5) / INR (length (t_children child))) in *. assert (X : spot_sub (middle (b_box b)) ctr = spot_add (Spot (r * cos angle) (r * sin angle)) (spot_sub (middle (b_box b)) (on_circle ctr r angle))).
      { rewrite <- U. unfold spot_sub, spot_add, on_circle. cbn [x_of y_of]. f_equal; ring. }
      rewrite X. apply Sum; [apply One; [exact R | unfold angle; lra]|]. eapply cone_wide; [| | exact C]; unfold angle in *; lra.
  Qed.
  (** Nothing comes back to where it started, nor to a place behind. *)
  Lemma radial_away : forall t ctr r a sp d b, 0 < r -> 0 < sp -> 0 <= d -> (d = 0 /\ sp <= 2 * PI) \/ sp <= 8 / 5 * PI -> In b (radial_children c t ctr r (a - sp / 2) sp) ->
    spot_add (Spot (d * cos a) (d * sin a)) (spot_sub (middle (b_box b)) ctr) <> Spot 0 0.
  Proof.
    intros t. induction t as [id sz cs IH] using rtree_all. intros ctr r a sp d b R S D H I. pose proof PI_RGT_0 as Pi. rewrite radial_branch in I. apply kids_in in I. destruct I as (k & child & E & I). cbn [Nat.add t_children] in *.
    destruct (ratio (length cs) k sp S (nth_lt _ _ _ E)) as (Q & K0 & K1 & Ns). pose proof (nth_lt _ _ _ E) as Lk. destruct (Nat.eq_dec (length cs) 1) as [N | N].
    - assert (k = 0%nat) by lia. subst k. unfold branch in I. cbn [t_children] in I. rewrite N in I. change (INR 1) with 1 in I. change (INR 0) with 0 in I. cbv zeta in I. replace (sp / 1) with sp in I by field. replace (a - sp / 2 + 0 * sp + sp / 2) with a in I by field.
      assert (P : 0 < d + r) by lra. assert (U : forall q, spot_add (Spot (d * cos a) (d * sin a)) (spot_sub q ctr) = spot_add (Spot ((d + r) * cos a) ((d + r) * sin a)) (spot_sub q (on_circle ctr r a))).
      { intros q. unfold spot_add, spot_sub, on_circle. cbn [x_of y_of]. f_equal; ring. }
      rewrite U. destruct I as [<- | I].
      + rewrite mid_body. intros X. pose proof (f_equal (fun s => dot s a) X) as Y. cbv beta in Y. rewrite dot_add, dot_one, Rminus_diag_eq, cos_0 in Y by reflexivity. unfold dot, spot_sub in Y. cbn [x_of y_of] in Y. lra.
      + apply (proj1 (Forall_forall _ _) IH child (nth_error_In _ _ E) (on_circle ctr r a) (r + rc_level c) a (sp * (4 / 5)) (d + r) b); [lra | lra | lra | right; lra | exact I].
    - pose proof (branch_cone (RTree id sz cs) ctr r (a - sp / 2) sp k child b R S E I) as C. cbv zeta in C. cbn [t_children] in C. set (step := sp / INR (length cs)) in *.
      assert (Two : 2 * step <= sp). { rewrite <- Ns. apply Rmult_le_compat_r; [lra|]. replace 2 with (INR 2) by reflexivity. apply le_INR. lia. }
      refine (cone_ahead _ _ _ a d _ _ D _ C); [lra | lra|]. destruct H as [[-> H] | H]; [now left | right; lra].
  Qed.
  Lemma radial_distinct : forall t ctr r s sp, 0 < r -> 0 < sp -> sp <= 2 * PI -> NoDup (map mid (radial_children c t ctr r s sp)).
  Proof.
    intros t. induction t as [id sz cs IH] using rtree_all. intros ctr r s sp R S Sp. pose proof PI_RGT_0 as Pi. rewrite radial_branch, kids_map. cbn [t_children]. apply kids_nodup.
    - intros k child E. cbn [Nat.add]. destruct (ratio (length cs) k sp S (nth_lt _ _ _ E)) as (Q & K0 & K1 & Ns). unfold branch. cbn [t_children]. set (step := sp / INR (length cs)) in *. cbv zeta. set (angle := s + INR k * step + step / 2). cbn [map]. rewrite mid_body.
      assert (Le : step <= sp). { rewrite Rmult_plus_distr_r in K1. lra. }
      constructor.
      + intros I. apply in_map_iff in I. destruct I as (b & Eb & I). refine (radial_away child (on_circle ctr r angle) (r + rc_level c) angle (step * (4 / 5)) 0 b _ _ _ _ I _); [lra | lra | lra | right; lra|].
        rewrite Eb. unfold spot_add, spot_sub. cbn [x_of y_of]. f_equal; ring.
      + apply (proj1 (Forall_forall _ _) IH child (nth_error_In _ _ E)); lra.
    - intros k k' d d' x L E E' I I'. cbn [Nat.add] in *. apply in_map_iff in I. destruct I as (b & Eb & I). apply in_map_iff in I'. destruct I' as (b' & Eb' & I').
      pose proof (branch_cone (RTree id sz cs) ctr r s sp k d b R S E I) as C. pose proof (branch_cone (RTree id sz cs) ctr r s sp k' d' b' R S E' I') as C'. cbv zeta in C, C'. cbn [t_children] in C, C'. rewrite Eb in C. rewrite Eb' in C'.
      destruct (ratio (length cs) k sp S (nth_lt _ _ _ E)) as (Q & K0 & K1 & Ns). destruct (ratio (length cs) k' sp S (nth_lt _ _ _ E')) as (_ & K0' & K1' & _). set (step := sp / INR (length cs)) in *.
      assert (Two : 2 * step <= sp). { rewrite <- Ns. apply Rmult_le_compat_r; [lra|]. replace 2 with (INR 2) by reflexivity. apply le_INR. pose proof (nth_lt _ _ _ E'). lia. }
      assert (Lk : (INR k + 1) * step <= INR k' * step) by (apply Rmult_le_compat_r; [lra|]; rewrite <- S_INR; apply le_INR; lia).
      refine (cones_apart _ _ _ _ _ _ _ _ _ _ _ C C'); lra.
  Qed.
  Lemma radial_sizes : forall t ctr r s sp, map (fun b => (b_id b, sides (b_box b))) (radial_children c t ctr r s sp) = map (fun s => (t_id s, tree_size c s)) (tl (nodes_of t)).
  Proof.
    intros t. induction t as [id sz cs IH] using rtree_all. intros ctr r s sp. rewrite radial_branch, kids_map. rewrite nodes_eq. cbn [map tl t_children]. rewrite kids_map. apply kids_same. intros k d I. unfold branch. cbv zeta. cbn [map].
    rewrite (proj1 (Forall_forall _ _) IH d I). rewrite (nodes_eq d). reflexivity.
  Qed.
  Lemma radial_ids : forall t ctr r s sp, map b_id (radial_children c t ctr r s sp) = tl (tree_ids t).
  Proof.
    intros t. induction t as [id sz cs IH] using rtree_all. intros ctr r s sp. rewrite radial_branch, kids_map. unfold tree_ids. rewrite nodes_eq. cbn [map tl t_children]. rewrite kids_map. apply kids_same. intros k d I. unfold branch. cbv zeta. cbn [map].
    rewrite (proj1 (Forall_forall _ _) IH d I). unfold tree_ids. rewrite (nodes_eq d). reflexivity.
  Qed.
  (** Parents and children *)
  Lemma radial_levels : forall t k p s, below t k p -> In s (t_children p) -> forall ctr r st sp, 0 < r -> exists a b, (k = 0%nat /\ p = t /\ a = ctr \/ sits_at (radial_children c t ctr r st sp) (t_id p) a) /\
    sits_at (radial_children c t ctr r st sp) (t_id s) b /\ far b a (r + INR k * rc_level c).
  Proof.
    intros t k p s B Is. induction B as [t | t d k p Id B IH]; intros ctr r st sp R.
    - apply In_nth_error in Is. destruct Is as (i & E). set (step := sp / INR (length (t_children t))). exists ctr, (on_circle ctr r (st + INR i * step + step / 2)). split; [now left|]. split.
      + exists (tree_body c s (on_circle ctr r (st + INR i * step + step / 2))). split; [|split; [reflexivity | apply mid_body]]. rewrite radial_branch. apply kids_in. exists i, s. split; [exact E|]. left. reflexivity.
      + change (INR 0) with 0. rewrite Rmult_0_l, Rplus_0_r. apply ray_far. lra.
    - apply In_nth_error in Id. destruct Id as (i & E). set (step := sp / INR (length (t_children t))). set (angle := st + INR i * step + step / 2).
      destruct (IH Is (on_circle ctr r angle) (r + rc_level c) (angle - step * (4 / 5) / 2) (step * (4 / 5))) as (a & b & A & Bb & F); [lra|].
      assert (Sub : forall b, In b (radial_children c d (on_circle ctr r angle) (r + rc_level c) (angle - step * (4 / 5) / 2) (step * (4 / 5))) -> In b (radial_children c t ctr r st sp)).
      { intros x I. rewrite (radial_branch t). apply kids_in. exists i, d. split; [exact E|]. right. exact I. }
      exists a, b. split; [|split].
      + right. destruct A as [(-> & -> & ->) | (x & I & A)]; [|exists x; split; [now apply Sub | exact A]]. exists (tree_body c d (on_circle ctr r angle)). split; [|split; [reflexivity | apply mid_body]]. rewrite radial_branch. apply kids_in. exists i, d. split; [exact E|]. left. reflexivity.
      + destruct Bb as (x & I & A'). exists x. split; [now apply Sub | exact A'].
      + rewrite S_INR. replace (r + (INR k + 1) * rc_level c) with (r + rc_level c + INR k * rc_level c) by ring. exact F.
  Qed.
End Radial.

(** ** The balloon layout *)
Lemma euc p q : distance_to p q = dist_euc (x_of p) (y_of p) (x_of q) (y_of q).
Proof. reflexivity. Qed.
Lemma far_distance p q d : far p q d -> distance_to p q = d.
Proof. intros [P F]. unfold distance_to. cbv zeta. rewrite F. now apply sqrt_square. Qed.
Lemma distance_far p q : far p q (distance_to p q).
Proof. unfold far, distance_to. cbv zeta. split; [apply sqrt_pos|]. rewrite sqrt_sqrt; [reflexivity|]. apply Rplus_le_le_0_compat; apply Rle_0_sqr. Qed.
Lemma farther p q r d e : distance_to p q <= d -> distance_to q r <= e -> distance_to p r <= d + e.
Proof. intros A B. rewrite euc in *. pose proof (triangle (x_of p) (y_of p) (x_of r) (y_of r) (x_of q) (y_of q)). lra. Qed.
Section Balloon.
  Variable c : ring_config.
  Definition pop (t : rtree) (ctr : spot) (r : R) (i : nat) (child : rtree) : list body :=
    let pos := on_circle ctr r (INR i * (2 * PI / INR (length (t_children t)))) in tree_body c child pos :: balloon_children c child pos (r * (3 / 5)).
  Lemma balloon_pop t ctr r : balloon_children c t ctr r = kids (pop t ctr r) 0 (t_children t).
  Proof. apply balloon_eq. Qed.
  Lemma balloon_sizes : forall t ctr r, map (fun b => (b_id b, sides (b_box b))) (balloon_children c t ctr r) = map (fun s => (t_id s, tree_size c s)) (tl (nodes_of t)).
  Proof.
    intros t. induction t as [id sz cs IH] using rtree_all. intros ctr r. rewrite balloon_pop, kids_map. rewrite nodes_eq. cbn [map tl t_children]. rewrite kids_map. apply kids_same. intros k d I. unfold pop. cbv zeta. cbn [map].
    rewrite (proj1 (Forall_forall _ _) IH d I). rewrite (nodes_eq d). reflexivity.
  Qed.
  Lemma balloon_ids : forall t ctr r, map b_id (balloon_children c t ctr r) = tl (tree_ids t).
  Proof.
    intros t. induction t as [id sz cs IH] using rtree_all. intros ctr r. rewrite balloon_pop, kids_map. unfold tree_ids. rewrite nodes_eq. cbn [map tl t_children]. rewrite kids_map. apply kids_same. intros k d I. unfold pop. cbv zeta. cbn [map].
    rewrite (proj1 (Forall_forall _ _) IH d I). unfold tree_ids. rewrite (nodes_eq d). reflexivity.
  Qed.
  Lemma balloon_near : forall t ctr r b, 0 <= r -> In b (balloon_children c t ctr r) -> distance_to (middle (b_box b)) ctr <= 5 / 2 * r.
  Proof.
    intros t. induction t as [id sz cs IH] using rtree_all. intros ctr r b R I. rewrite balloon_pop in I. apply kids_in in I. destruct I as (k & d & E & I). cbn [t_children Nat.add] in *. unfold pop in I. cbn [t_children] in I. cbv zeta in I. set (a := INR k * (2 * PI / INR (length cs))) in *.
    pose proof (far_distance _ _ _ (ray_far ctr r a R)) as P. destruct I as [<- | I]; [rewrite mid_body, P; lra|].
    pose proof (proj1 (Forall_forall _ _) IH d (nth_error_In _ _ E) _ (r * (3 / 5)) b ltac:(lra) I) as Q. pose proof (farther _ _ _ _ _ Q (Req_le _ _ P)) as T. lra.
  Qed.
  Lemma balloon_levels : forall t k p s, below t k p -> In s (t_children p) -> forall ctr r, 0 <= r -> exists a b, (k = 0%nat /\ p = t /\ a = ctr \/ sits_at (balloon_children c t ctr r) (t_id p) a) /\
    sits_at (balloon_children c t ctr r) (t_id s) b /\ far b a (r * (3 / 5) ^ k).
  Proof.
    intros t k p s B Is. induction B as [t | t d k p Id B IH]; intros ctr r R.
    - apply In_nth_error in Is. destruct Is as (i & E). set (a := INR i * (2 * PI / INR (length (t_children t)))). exists ctr, (on_circle ctr r a). split; [now left|]. split.
      + exists (tree_body c s (on_circle ctr r a)). split; [|split; [reflexivity | apply mid_body]]. rewrite balloon_pop. apply kids_in. exists i, s. split; [exact E|]. left. reflexivity.
      + rewrite pow_O, Rmult_1_r. now apply ray_far.
    - apply In_nth_error in Id. destruct Id as (i & E). set (a0 := INR i * (2 * PI / INR (length (t_children t)))).
      destruct (IH Is (on_circle ctr r a0) (r * (3 / 5))) as (a & b & A & Bb & F); [lra|].
      assert (Sub : forall b, In b (balloon_children c d (on_circle ctr r a0) (r * (3 / 5))) -> In b (balloon_children c t ctr r)).
      { intros x I. rewrite (balloon_pop t). apply kids_in. exists i, d. split; [exact E|]. right. exact I. }
      exists a, b. split; [|split].
      + right. destruct A as [(-> & -> & ->) | (x & I & A)]; [|exists x; split; [now apply Sub | exact A]]. exists (tree_body c d (on_circle ctr r a0)). split; [|split; [reflexivity | apply mid_body]]. rewrite balloon_pop. apply kids_in. exists i, d. split; [exact E|]. left. reflexivity.
      + destruct Bb as (x & I & A'). exists x. split; [now apply Sub | exact A'].
      + cbn [pow]. replace (r * (3 / 5 * (3 / 5) ^ k)) with (r * (3 / 5) * (3 / 5) ^ k) by ring. exact F.
  Qed.
  (** Siblings *)
  Lemma balloon_siblings : forall t k p, below t k p -> forall i j s s', (i < j)%nat -> nth_error (t_children p) i = Some s -> nth_error (t_children p) j = Some s' ->
    forall ctr r, 0 <= r -> exists a b, sits_at (balloon_children c t ctr r) (t_id s) a /\ sits_at (balloon_children c t ctr r) (t_id s') b /\
    far b a (2 * (r * (3 / 5) ^ k) * sin (INR (j - i) * PI / INR (length (t_children p)))).
  Proof.
    intros t k p B i j s s' L E E'. induction B as [t | t d k p Id B IH]; intros ctr r R.
    - set (n := INR (length (t_children t))). assert (N : 0 < n) by (apply lt_0_INR; pose proof (nth_lt _ _ _ E'); lia). exists (on_circle ctr r (INR i * (2 * PI / n))), (on_circle ctr r (INR j * (2 * PI / n))). split; [|split].
      + exists (tree_body c s (on_circle ctr r (INR i * (2 * PI / n)))). split; [|split; [reflexivity | apply mid_body]]. rewrite balloon_pop. apply kids_in. exists i, s. split; [exact E|]. left. reflexivity.
      + exists (tree_body c s' (on_circle ctr r (INR j * (2 * PI / n)))). split; [|split; [reflexivity | apply mid_body]]. rewrite balloon_pop. apply kids_in. exists j, s'. split; [exact E'|]. left. reflexivity.
      + rewrite pow_O, Rmult_1_r. rewrite minus_INR by lia. assert (X : (INR j - INR i) * PI / n = (INR j * (2 * PI / n) - INR i * (2 * PI / n)) / 2) by (field; lra). rewrite X. apply chord_far; [exact R|]. rewrite <- X. pose proof PI_RGT_0.
        assert (J : INR j <= n) by (apply le_INR; pose proof (nth_lt _ _ _ E'); lia). assert (I : INR i <= INR j) by (apply le_INR; lia). pose proof (pos_INR i). split; [apply Rmult_le_pos; [nra | apply Rlt_le, Rinv_0_lt_compat; lra]|].
        apply (Rmult_le_reg_r n); [exact N|]. unfold Rdiv. rewrite Rmult_assoc, Rinv_l by lra. nra.
    - apply In_nth_error in Id. destruct Id as (m & Em). set (a0 := INR m * (2 * PI / INR (length (t_children t)))).
      destruct (IH E E' (on_circle ctr r a0) (r * (3 / 5))) as (a & b & A & Bb & F); [lra|].
      assert (Sub : forall b, In b (balloon_children c d (on_circle ctr r a0) (r * (3 / 5))) -> In b (balloon_children c t ctr r)).
      { intros x I. rewrite (balloon_pop t). apply kids_in. exists m, d. split; [exact Em|]. right. exact I. }
      exists a, b. split; [destruct A as (x & I & A); exists x; split; [now apply Sub | exact A]|]. split; [destruct Bb as (x & I & A'); exists x; split; [now apply Sub | exact A']|].
      cbn [pow]. replace (r * (3 / 5 * (3 / 5) ^ k)) with (r * (3 / 5) * (3 / 5) ^ k) by ring. exact F.
  Qed.
End Balloon.
Lemma tree_lines_perm : forall t, Permutation (map (fun d => (d_from d, d_to d)) (tree_lines t)) (tree_edges t) /\ Forall (fun d => d_points d = []) (tree_lines t).
Proof.
  intros t. induction t as [id sz cs IH] using rtree_all. unfold tree_edges. rewrite nodes_eq. cbn [flat_map t_children t_id]. cbn [tree_lines]. generalize 0%nat. induction IH as [| d cs (P & F) _ IHcs]; intros i; [split; constructor|]. cbn [map kids]. destruct (IHcs (S i)) as [P2 F2].
  split; [|constructor; [reflexivity|]; apply Forall_app; split; assumption]. cbn [d_from d_to app]. apply perm_skip. rewrite map_app, flat_map_app. unfold tree_edges in P. rewrite P, P2. apply Permutation_app_swap_app.
Qed.

(** ** Nodes and their sizes *)
Lemma forall2_maps {A B C} (f : A -> C) (g : B -> C) (P : A -> B -> Prop) : (forall a b, g b = f a -> P a b) -> forall l m, map g m = map f l -> Forall2 P l m.
Proof. intros H. induction l as [| a l IH]; intros [| b m] E; try discriminate; [constructor|]. cbn in E. injection E as E1 E. constructor; [now apply H | now apply IH]. Qed.
Lemma tree_sized c a b : (b_id b, sides (b_box b)) = (t_id a, tree_size c a) -> b_id b = t_id a /\ sized (Dims (rc_width c) (rc_height c)) (t_size a) b.
Proof. intros E. injection E as E1 E2. split; [exact E1|]. unfold sized. rewrite E2. unfold tree_size. destruct (t_size a); [now left | now right]. Qed.
Lemma sits_more l b id p : sits_at l id p -> sits_at (b :: l) id p.
Proof. intros (x & I & E & M). exists x. split; [now right | now split]. Qed.
