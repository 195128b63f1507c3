(** Lemmas about the layouts by forces. *)
From Verif Require Import Base RingModel RingSpec RingProofs.
Require Import Reals Lra.
Open Scope R_scope.

Definition origin : spot := Spot 0 0.
(** ** How far nodes go *)
Section Bound.
  Variable (c : force_config) (es : list arc).
  Hypothesis Vel : 0 <= fc_velocity c.
  Lemma norm_add p v : distance_to (spot_add p v) p = sqrt (x_of v * x_of v + y_of v * y_of v).
  Proof. unfold distance_to, spot_add. cbn [x_of y_of]. cbv zeta. f_equal. ring. Qed.
  Lemma move_step f m : distance_to (m_pos (move c f m)) (m_pos m) <= fc_velocity c.
  Proof.
    unfold move. cbv zeta. cbn [m_pos]. rewrite norm_add. set (v := Spot _ _). set (speed := sqrt (x_of v * x_of v + y_of v * y_of v)). change (x_of (Spot (x_of (m_vel m) * fc_damping c + x_of (f (m_id m))) (y_of (m_vel m) * fc_damping c + y_of (f (m_id m))))) with (x_of v).
    destruct (Rlt_dec (fc_velocity c) speed) as [L | L]; [|fold speed; lra]. cbn [x_of y_of]. assert (P : 0 < speed) by lra.
    assert (E : speed * speed = x_of v * x_of v + y_of v * y_of v) by (apply sqrt_sqrt; apply Rplus_le_le_0_compat; apply Rle_0_sqr).
    match goal with |- sqrt ?x <= _ => replace x with (fc_velocity c * fc_velocity c) end; [rewrite sqrt_square; lra|].
    transitivity ((x_of v * x_of v + y_of v * y_of v) * (fc_velocity c / speed) * (fc_velocity c / speed)); [rewrite <- E; field; lra | ring].
  Qed.
  Definition inside (d : R) (m : mover) : Prop := distance_to (m_pos m) origin <= d.
  Lemma round_inside l d : Forall (inside d) l -> Forall (inside (d + fc_velocity c)) (force_round c es l).
  Proof.
    intros F. unfold force_round. cbv zeta. apply Forall_forall. intros m I. apply in_map_iff in I. destruct I as (m' & <- & I). rewrite Forall_forall in F. unfold inside. pose proof (farther _ _ _ _ _ (move_step (fold_left (arc_force c l) es (repel_all (fc_repulsion c) l no_force)) m') (F m' I)). lra.
  Qed.
  Lemma rounds_inside k l d : Forall (inside d) l -> Forall (inside (d + INR k * fc_velocity c)) (Nat.iter k (force_round c es) l).
  Proof.
    intros F. induction k as [| k IH]; [change (INR 0) with 0; now rewrite Rmult_0_l, Rplus_0_r|]. cbn [Nat.iter nat_rect]. replace (d + INR (S k) * fc_velocity c) with (d + INR k * fc_velocity c + fc_velocity c) by (rewrite S_INR; ring). apply round_inside. exact IH.
  Qed.
End Bound.
Lemma first_inside n : forall ids i, Forall (inside 100) (first_spots n i ids).
Proof.
  induction ids as [| id ids IH]; intros i; [constructor|]. cbn [first_spots]. constructor; [|apply IH]. unfold inside. cbn [m_pos]. apply Req_le. apply far_distance.
  pose proof (ray_far origin 100 (2 * PI * INR i / INR n) ltac:(lra)) as F. unfold on_circle, origin in F. cbn [x_of y_of] in F. rewrite !Rplus_0_l in F. exact F.
Qed.
Lemma first_ids n : forall ids i, map m_id (first_spots n i ids) = ids.
Proof. induction ids as [| id ids IH]; intros i; [reflexivity|]. cbn. now rewrite IH. Qed.
Lemma round_ids c es l : map m_id (force_round c es l) = map m_id l.
Proof. unfold force_round. cbv zeta. rewrite map_map. apply map_ext. reflexivity. Qed.
Lemma rounds_ids c es k l : map m_id (Nat.iter k (force_round c es) l) = map m_id l.
Proof. induction k as [| k IH]; [reflexivity|]. cbn [Nat.iter nat_rect]. rewrite round_ids. exact IH. Qed.
Lemma combine_ids {A B C} (f : A -> C) (g : B -> C) : forall (l : list A) (m : list B), map f l = map g m -> map (fun p => f (fst p)) (combine l m) = map f l /\ map (fun p => g (snd p)) (combine l m) = map g m /\ length (combine l m) = length l.
Proof.
  induction l as [| a l IH]; intros [| b m] E; try discriminate; [repeat split|]. cbn in E. injection E as E1 E. destruct (IH m E) as (X & Y & Z). cbn. now rewrite X, Y, Z.
Qed.

(** ** Sums of forces *)
Definition total (g : spot -> R) (f : forces) (ids : list nat) : R := sum (map (fun i => g (f i)) ids).
Section Sums.
  Variable g : spot -> R.
  Hypothesis Add : forall p q, g (spot_add p q) = g p + g q.
  Hypothesis Sub : forall p q, g (spot_sub p q) = g p - g q.
  Lemma total_other h id f ids : ~ In id ids -> total g (fun j => if (j =? id)%nat then h j else f j) ids = total g f ids.
  Proof.
    intros N. unfold total. f_equal. apply map_ext_in. intros j I. destruct (Nat.eqb_spec j id) as [-> | _]; [contradiction | reflexivity].
  Qed.
  Lemma total_push id p f : forall ids, NoDup ids -> In id ids -> total g (push id p f) ids = total g f ids + g p.
  Proof.
    induction ids as [| i ids IH]; intros N I; [destruct I|]. inversion N as [| ? ? N1 N2]; subst. unfold total. cbn [map sum fold_right]. change (fold_right Rplus 0 (map ?h ids)) with (sum (map h ids)). fold (total g (push id p f) ids) (total g f ids). destruct (Nat.eq_dec i id) as [-> | D].
    - unfold push at 2. rewrite (total_other _ _ _ _ N1). unfold push. rewrite Nat.eqb_refl, Add. ring.
    - destruct I as [E | I]; [contradiction|]. rewrite (IH N2 I). unfold push. rewrite (proj2 (Nat.eqb_neq i id) D). ring.
  Qed.
  Lemma total_pull id p f : forall ids, NoDup ids -> In id ids -> total g (pull id p f) ids = total g f ids - g p.
  Proof.
    induction ids as [| i ids IH]; intros N I; [destruct I|]. inversion N as [| ? ? N1 N2]; subst. unfold total. cbn [map sum fold_right]. change (fold_right Rplus 0 (map ?h ids)) with (sum (map h ids)). fold (total g (pull id p f) ids) (total g f ids). destruct (Nat.eq_dec i id) as [-> | D].
    - unfold pull at 2. rewrite (total_other _ _ _ _ N1). unfold pull. rewrite Nat.eqb_refl, Sub. ring.
    - destruct I as [E | I]; [contradiction|]. rewrite (IH N2 I). unfold pull. rewrite (proj2 (Nat.eqb_neq i id) D). ring.
  Qed.
  (** What pushes one node pushes another one as much the other way. *)
  Lemma total_pair a b p f ids : NoDup ids -> In a ids -> In b ids -> total g (pull b p (push a p f)) ids = total g f ids.
  Proof. intros N A B. rewrite total_pull, total_push by assumption. ring. Qed.
  Lemma total_repel s ids : NoDup ids -> forall l f, incl (map m_id l) ids -> total g (repel_all s l f) ids = total g f ids.
  Proof.
    intros N. induction l as [| a l IH]; intros f I; [reflexivity|]. cbn [repel_all]. rewrite IH by (intros x X; apply I; now right). assert (A : In (m_id a) ids) by (apply I; now left). assert (L : incl (map m_id l) ids) by (intros x X; apply I; now right). clear IH I. revert f.
    induction l as [| b l IHl]; intros f; [reflexivity|]. cbn [fold_left]. rewrite IHl by (intros x X; apply L; now right). unfold repel. cbv zeta. apply total_pair; [exact N | exact A | apply L; now left].
  Qed.
  Lemma mover_in l id p : mover_at l id = Some p -> In id (map m_id l).
  Proof. unfold mover_at. destruct (find _ l) as [m|] eqn:E; [|discriminate]. intros _. apply find_some in E. destruct E as [I E]. apply Nat.eqb_eq in E. subst id. now apply in_map. Qed.
  Lemma total_edges e ideal l : NoDup (map m_id l) -> forall es f f', fold_left (edge_force e ideal l) es (Some f) = Some f' -> total g f' (map m_id l) = total g f (map m_id l).
  Proof.
    intros N. assert (Z : forall es, fold_left (edge_force e ideal l) es None = None) by (induction es as [| a es IH]; [reflexivity | exact IH]).
    induction es as [| [a b] es IH]; intros f f' E; [injection E as <-; reflexivity|]. cbn [fold_left edge_force fst snd] in E. destruct (mover_at l a) as [p|] eqn:A; [destruct (mover_at l b) as [q|] eqn:B|]; [|exact (IH _ _ E) | exact (IH _ _ E)].
    cbv zeta in E. destruct (Req_EM_T (distance_to p q) 0) as [_ | _]; [rewrite Z in E; discriminate|]. rewrite (IH _ _ E). unfold attract. cbv zeta. apply total_pair; [exact N | exact (mover_in _ _ _ A) | exact (mover_in _ _ _ B)].
  Qed.
  Lemma total_arcs c l : NoDup (map m_id l) -> forall es f, total g (fold_left (arc_force c l) es f) (map m_id l) = total g f (map m_id l).
  Proof.
    intros N. induction es as [| a es IH]; intros f; [reflexivity|]. cbn [fold_left]. rewrite IH. unfold arc_force. destruct (mover_at l (a_from a)) as [p|] eqn:A; [destruct (mover_at l (a_to a)) as [q|] eqn:B|]; try reflexivity.
    cbv zeta. destruct (Rlt_dec 0 (distance_to p q)) as [_ | _]; [|reflexivity]. unfold attract. cbv zeta. apply total_pair; [exact N | exact (mover_in _ _ _ A) | exact (mover_in _ _ _ B)].
  Qed.
  Hypothesis Scale : forall x y k, g (Spot (x * k) (y * k)) = g (Spot x y) * k.
  Lemma total_none ids : total g no_force ids = 0.
  Proof.
    assert (Z : g (Spot 0 0) = 0) by (pose proof (Sub (Spot 0 0) (Spot 0 0)) as H; unfold spot_sub in H; cbn [x_of y_of] in H; rewrite Rminus_0_r in H; lra).
    induction ids as [| i ids IH]; [reflexivity|]. unfold total in *. cbn [map sum fold_right] in *. unfold sum in IH. rewrite IH. unfold no_force. lra.
  Qed.
  Lemma drift_vel e f m : g (m_vel (drift e f m)) = g (m_vel m) * e_damping e + g (f (m_id m)).
  Proof.
    unfold drift. cbv zeta. cbn [m_vel]. destruct (m_vel m) as [x y], (f (m_id m)) as [u v]. cbn [x_of y_of]. rewrite <- Scale. rewrite <- Add. reflexivity.
  Qed.
  Lemma drift_sums e f : forall l, sum (map (fun m => g (m_vel m)) (map (drift e f) l)) = sum (map (fun m => g (m_vel m)) l) * e_damping e + total g f (map m_id l) /\
    sum (map (fun m => g (m_pos m)) (map (drift e f) l)) = sum (map (fun m => g (m_pos m)) l) + sum (map (fun m => g (m_vel m)) (map (drift e f) l)).
  Proof.
    induction l as [| m l (V & P)]; [cbn; unfold total; cbn; lra|]. cbn [map sum fold_right]. unfold total in *. cbn [map sum fold_right]. unfold sum in *. rewrite V, P, (drift_vel e f m), V. change (m_pos (drift e f m)) with (spot_add (m_pos m) (m_vel (drift e f m))). rewrite Add, drift_vel. split; ring.
  Qed.
  Lemma engine_sums e ideal es k l l' : NoDup (map m_id l) -> sum (map (fun m => g (m_vel m)) l) = 0 -> Nat.iter k (engine_round e ideal es) (Some l) = Some l' ->
    map m_id l' = map m_id l /\ sum (map (fun m => g (m_vel m)) l') = 0 /\ sum (map (fun m => g (m_pos m)) l') = sum (map (fun m => g (m_pos m)) l).
  Proof.
    intros N V. revert l'. induction k as [| k IH]; intros l' E; [injection E as <-; split; [reflexivity|]; split; [exact V | reflexivity]|]. cbn [Nat.iter nat_rect] in E. change (nat_rect (fun _ : nat => option (list mover)) (Some l) (fun _ : nat => engine_round e ideal es) k) with (Nat.iter k (engine_round e ideal es) (Some l)) in E.
    destruct (Nat.iter k (engine_round e ideal es) (Some l)) as [l1|] eqn:E1; [|discriminate]. destruct (IH l1 eq_refl) as (I1 & V1 & P1). cbn [engine_round] in E. destruct (fold_left (edge_force e ideal l1) es _) as [f|] eqn:F; [|discriminate]. injection E as <-.
    assert (N1 : NoDup (map m_id l1)) by now rewrite I1. assert (T : total g f (map m_id l1) = 0) by (rewrite (total_edges e ideal l1 N1 es _ _ F), (total_repel _ _ N1 l1 _ (incl_refl _)); apply total_none).
    destruct (drift_sums e f l1) as [A B]. rewrite V1, T, Rmult_0_l, Rplus_0_r in A. split; [rewrite map_map; exact I1|]. split; [exact A|]. rewrite B, A, P1. ring.
  Qed.
End Sums.

(** ** The first places are all around. *)
Lemma wheel n : (2 <= n)%nat -> forall ids i, sin (PI / INR n) * (2 * sum (map (fun m => x_of (m_pos m)) (first_spots n i ids))) = 100 * (sin ((2 * INR (i + length ids) - 1) * PI / INR n) - sin ((2 * INR i - 1) * PI / INR n)) /\
  sin (PI / INR n) * (2 * sum (map (fun m => y_of (m_pos m)) (first_spots n i ids))) = 100 * (cos ((2 * INR i - 1) * PI / INR n) - cos ((2 * INR (i + length ids) - 1) * PI / INR n)).
Proof.
  intros Hn. assert (N : INR n <> 0) by (apply not_0_INR; lia). induction ids as [| id ids IH]; intros i; [cbn; rewrite Nat.add_0_r; lra|]. cbn [first_spots map sum fold_right m_pos x_of y_of length]. rewrite Nat.add_succ_r, <- Nat.add_succ_l. destruct (IH (S i)) as [A B]. unfold sum in A, B.
  set (a := 2 * PI * INR i / INR n). set (h := PI / INR n). assert (E1 : (2 * INR i - 1) * PI / INR n = a - h) by (unfold a, h; field; exact N). assert (E2 : (2 * INR (S i) - 1) * PI / INR n = a + h) by (rewrite S_INR; unfold a, h; field; exact N).
  rewrite E1. rewrite E2 in A, B. fold h in A, B. rewrite sin_minus, cos_minus. rewrite sin_plus in A. rewrite cos_plus in B. rewrite !Rmult_plus_distr_l. rewrite A, B. split; ring.
Qed.
Lemma wheel_sum n ids : (2 <= n)%nat -> length ids = n -> sum (map (fun m => x_of (m_pos m)) (first_spots n 0 ids)) = 0 /\ sum (map (fun m => y_of (m_pos m)) (first_spots n 0 ids)) = 0.
Proof.
  intros Hn L. destruct (wheel n Hn ids 0%nat) as [A B]. cbn [Nat.add] in A, B. rewrite L in A, B. assert (N : 2 <= INR n) by (replace 2 with (INR 2) by reflexivity; apply le_INR; lia). pose proof PI_RGT_0 as Pi.
  set (h := PI / INR n) in *. assert (E1 : (2 * INR 0 - 1) * PI / INR n = - h) by (unfold h; change (INR 0) with 0; field; lra). assert (E2 : (2 * INR n - 1) * PI / INR n = - h + 2 * PI) by (unfold h; field; lra). rewrite E1, E2, sin_plus, cos_plus, sin_2PI, cos_2PI in *.
  assert (P : 0 < sin h). { apply sin_gt_0; [unfold h; apply Rdiv_lt_0_compat; lra|]. unfold h. apply (Rmult_lt_reg_r (INR n)); [lra|]. unfold Rdiv. rewrite Rmult_assoc, Rinv_l by lra. nra. }
  split; [apply (Rmult_eq_reg_l (sin h)); nra | apply (Rmult_eq_reg_l (sin h)); nra].
Qed.
Lemma first_vels g n : g (Spot 0 0) = 0 -> forall ids i, sum (map (fun m => g (m_vel m)) (first_spots n i ids)) = 0.
Proof. intros Z. induction ids as [| id ids IH]; intros i; [reflexivity|]. cbn [first_spots map sum fold_right m_vel]. unfold sum in IH. rewrite IH, Z. lra. Qed.
