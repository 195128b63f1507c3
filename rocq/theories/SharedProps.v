(** C77: which schedules of several threads allocating from one arena give disjoint objects. *)
From Verif Require Import Base ArenaModel ArenaSpec ArenaProofs.
Open Scope Z_scope.

(** The two steps of an allocation on the fast path (arena.rs:213-214 and 227), by thread. *)
Inductive step := Load (t : nat) | Store (t : nat) (size : Z).
Definition thread (x : step) : nat := match x with Load t => t | Store t _ => t end.

(** The arena, what each thread has read and not used yet, and the objects given out, the newest first. *)
Record shared := Shared { sh_arena : arena; sh_seen : nat -> option (Z * Z); sh_objs : list (Z * Z) }.
Definition set_seen (f : nat -> option (Z * Z)) (t : nat) (v : option (Z * Z)) (u : nat) : option (Z * Z) :=
  if Nat.eqb u t then v else f u.
(** [None]: a thread stores without having read, or the chunk is used up and the slow path would be taken. *)
Definition shared_step (s : shared) (x : step) : option shared :=
  match x with
  | Load t => Some (Shared (sh_arena s) (set_seen (sh_seen s) t (Some (alloc_load (sh_arena s)))) (sh_objs s))
  | Store t size =>
      match sh_seen s t with
      | None => None
      | Some seen =>
          match alloc_store (sh_arena s) seen size with
          | None => None
          | Some (p, a) => Some (Shared a (set_seen (sh_seen s) t None) ((p, size) :: sh_objs s))
          end
      end
  end.
Fixpoint shared_run (s : shared) (xs : list step) : option shared :=
  match xs with
  | [] => Some s
  | x :: xs => match shared_step s x with Some s' => shared_run s' xs | None => None end
  end.
Definition shared_start (a : arena) : shared := Shared a (fun _ => None) [].

(** No thread stores between the two steps of an allocation of another one. *)
Definition exclusive (xs : list step) : Prop := forall l1 t l2 size l3,
  xs = l1 ++ Load t :: l2 ++ Store t size :: l3 -> Forall (fun x => thread x <> t) l2 ->
  Forall (fun x => match x with Store _ _ => False | Load _ => True end) l2.

Definition loads_only (l : list step) : Prop := Forall (fun x => match x with Store _ _ => False | Load _ => True end) l.

(** ** Proof *)
Lemma shared_run_snoc xs x : forall s, shared_run s (xs ++ [x]) =
  match shared_run s xs with Some s' => shared_step s' x | None => None end.
Proof.
  induction xs as [|y xs IH]; intros s; cbn.
  - destruct (shared_step s x); reflexivity.
  - destruct (shared_step s y); [apply IH | reflexivity].
Qed.

Lemma split_last (t : nat) : forall l1 l1' l2 l2',
  Forall (fun x => thread x <> t) l2 -> Forall (fun x => thread x <> t) l2' ->
  l1 ++ Load t :: l2 = l1' ++ Load t :: l2' -> l2 = l2'.
Proof.
  induction l1 as [|x l1 IH]; intros [|y l1'] l2 l2' F F' E; cbn in E.
  - now injection E.
  - injection E as _ E. rewrite E in F. apply Forall_app in F. destruct F as [_ F]. apply Forall_inv in F. now elim F.
  - injection E as _ E. rewrite <- E in F'. apply Forall_app in F'. destruct F' as [_ F']. apply Forall_inv in F'. now elim F'.
  - injection E as -> E. exact (IH _ _ _ F F' E).
Qed.

Lemma exclusive_prefix xs x : exclusive (xs ++ [x]) -> exclusive xs.
Proof.
  intros H l1 t l2 size l3 -> F. apply (H l1 t l2 size (l3 ++ [x])); [|exact F].
  now repeat (rewrite <- app_assoc; cbn [app]).
Qed.

(** What is known after an exclusive schedule. *)
Record known (a0 : arena) (xs : list step) (s : shared) : Prop := {
  k_apart : ForallOrdPairs apart (sh_objs s);
  k_below : Forall (fun o => a_ptr a0 <= fst o /\ fst o + snd o <= a_ptr (sh_arena s)) (sh_objs s);
  k_order : a_ptr a0 <= a_ptr (sh_arena s) <= a_end (sh_arena s);
  k_end : a_end (sh_arena s) = a_end a0;
  k_seen : forall t seen, sh_seen s t = Some seen ->
    exists l1 l2, xs = l1 ++ Load t :: l2 /\ Forall (fun x => thread x <> t) l2 /\
      ((loads_only l2 /\ seen = alloc_load (sh_arena s)) \/
       (~ loads_only l2 /\ exists size, 0 < size /\ In (fst seen, size) (sh_objs s)))
}.

Definition positive (xs : list step) : Prop := Forall (fun x => match x with Store _ size => 0 < size | Load _ => True end) xs.

Lemma known_step a0 xs x s s' : known a0 xs s -> exclusive (xs ++ [x]) -> positive [x] -> shared_step s x = Some s' -> known a0 (xs ++ [x]) s'.
Proof.
  intros [Ka Kb Ko Ke Ks] HE HP E. destruct x as [t|t size]; cbn in E.
  - injection E as <-. constructor; cbn [sh_arena sh_objs sh_seen]; auto.
    intros u seen Hu. unfold set_seen in Hu. destruct (Nat.eqb_spec u t) as [->|Hne].
    + injection Hu as <-. exists xs, []. split; [reflexivity|]. split; [constructor|]. left. split; [constructor | reflexivity].
    + destruct (Ks u seen Hu) as (l1 & l2 & -> & F & C). exists l1, (l2 ++ [Load t]).
      split; [now rewrite <- app_assoc|]. split; [apply Forall_app; split; [exact F | constructor; [cbn; congruence | constructor]]|].
      destruct C as [[C1 C2]|[C1 C2]]; [left | right]; (split; [|exact C2]).
      * apply Forall_app. split; [exact C1 | constructor; [exact I | constructor]].
      * intros X. apply C1. apply Forall_app in X. tauto.
  - inversion HP as [|? ? Hs _]; subst. clear HP. cbn in Hs. destruct (sh_seen s t) as [seen|] eqn:Et; [|discriminate].
    destruct (Ks t seen Et) as (l1 & l2 & -> & F & C).
    assert (L : loads_only l2).
    { apply (HE l1 t l2 size []); [now rewrite <- app_assoc | exact F]. }
    destruct C as [[_ ->]|[C _]]; [|contradiction]. unfold alloc_store, alloc_load in E. cbn [fst snd] in E.
    destruct (Z.leb_spec (align_up (a_ptr (sh_arena s) + size)) (a_end (sh_arena s))) as [Hle|]; [|discriminate]. injection E as <-.
    destruct (align_up_bounds (a_ptr (sh_arena s) + size)) as [Hb _].
    constructor; cbn [sh_arena sh_objs sh_seen a_ptr a_end].
    + constructor; [|exact Ka]. eapply Forall_impl; [|exact Kb]. intros o [H1 H2]. right. cbn. exact H2.
    + constructor; [cbn; lia|]. eapply Forall_impl; [|exact Kb]. cbn. intros o [H1 H2]. lia.
    + lia.
    + exact Ke.
    + intros u seen Hu. unfold set_seen in Hu. destruct (Nat.eqb_spec u t) as [->|Hne]; [discriminate|].
      destruct (Ks u seen Hu) as (m1 & m2 & Em & Fm & Cm). exists m1, (m2 ++ [Store t size]).
      split; [rewrite Em; now rewrite <- app_assoc|].
      split; [apply Forall_app; split; [exact Fm | constructor; [cbn; congruence | constructor]]|].
      right. split; [intros X; apply Forall_app in X; destruct X as [_ X]; inversion X; contradiction|].
      destruct Cm as [[C1 ->]|[C1 (z & Hz & Hin)]].
      * exists size. split; [exact Hs | now left].
      * exists z. split; [exact Hz | now right].
Qed.

Lemma exclusive_snoc_load xs t : exclusive xs -> exclusive (xs ++ [Load t]).
Proof.
  intros H l1 u l2 size l3 E F. destruct l3 as [|y l3 _] using rev_ind.
  - exfalso. rewrite app_comm_cons, app_assoc in E. apply app_inj_tail in E. destruct E as [_ E]. discriminate.
  - apply (H l1 u l2 size l3); [|exact F].
    replace (l1 ++ Load u :: l2 ++ Store u size :: l3 ++ [y]) with ((l1 ++ Load u :: l2 ++ Store u size :: l3) ++ [y]) in E
      by (now repeat (rewrite <- app_assoc; cbn [app])).
    apply app_inj_tail in E. tauto.
Qed.

Lemma exclusive_snoc_store xs t size l1 l2 : exclusive xs -> xs = l1 ++ Load t :: l2 -> Forall (fun x => thread x <> t) l2 ->
  loads_only l2 -> exclusive (xs ++ [Store t size]).
Proof.
  intros H E0 F0 L m1 u m2 z m3 E F. destruct m3 as [|y m3 _] using rev_ind.
  - rewrite app_comm_cons, app_assoc in E. apply app_inj_tail in E. destruct E as [E E2]. injection E2 as <- <-.
    rewrite E0 in E. apply split_last in E; [|exact F0 | exact F]. now subst m2.
  - apply (H m1 u m2 z m3); [|exact F].
    replace (m1 ++ Load u :: m2 ++ Store u z :: m3 ++ [y]) with ((m1 ++ Load u :: m2 ++ Store u z :: m3) ++ [y]) in E
      by (now repeat (rewrite <- app_assoc; cbn [app])).
    apply app_inj_tail in E. tauto.
Qed.

Lemma exclusive_nil : exclusive [].
Proof. intros l1 t l2 size l3 E. destruct l1; discriminate. Qed.

Lemma known_run a0 xs : a_ptr a0 <= a_end a0 -> forall s, exclusive xs -> positive xs -> shared_run (shared_start a0) xs = Some s -> known a0 xs s.
Proof.
  intros H0. induction xs as [|x xs IH] using rev_ind; intros s HE HP E.
  - injection E as <-. constructor; cbn; try constructor; try lia; try reflexivity. discriminate.
  - rewrite shared_run_snoc in E. destruct (shared_run (shared_start a0) xs) as [s'|]; [|discriminate].
    apply Forall_app in HP. destruct HP as [HP1 HP2].
    eapply known_step; [|exact HE | exact HP2 | exact E]. apply IH; [eapply exclusive_prefix; exact HE | exact HP1 | reflexivity].
Qed.

Lemma disjoint_exclusive a0 xs : a_ptr a0 <= a_end a0 -> forall s, positive xs -> shared_run (shared_start a0) xs = Some s ->
  ForallOrdPairs apart (sh_objs s) -> exclusive xs.
Proof.
  intros H0. induction xs as [|x xs IH] using rev_ind; intros s HP E HA; [apply exclusive_nil|].
  rewrite shared_run_snoc in E. destruct (shared_run (shared_start a0) xs) as [s'|] eqn:E'; [|discriminate].
  apply Forall_app in HP. destruct HP as [HP1 HP2]. destruct x as [t|t size]; cbn in E.
  - apply exclusive_snoc_load. injection E as <-. exact (IH s' HP1 eq_refl HA).
  - destruct (sh_seen s' t) as [seen|] eqn:Et; [|discriminate].
    destruct (alloc_store (sh_arena s') seen size) as [[p a]|] eqn:Ea; [|discriminate]. injection E as <-. cbn [sh_objs] in HA.
    inversion HA as [|? ? HA1 HA2]; subst. pose proof (IH s' HP1 eq_refl HA2) as HE.
    destruct (k_seen _ _ _ (known_run a0 xs H0 s' HE HP1 E') t seen Et) as (l1 & l2 & El & F & C).
    destruct C as [[L _]|[_ (z & Hz & Hin)]]; [exact (exclusive_snoc_store xs t size l1 l2 HE El F L)|].
    exfalso. rewrite Forall_forall in HA1. specialize (HA1 _ Hin). unfold alloc_store in Ea.
    destruct (align_up (fst seen + size) <=? snd seen); [|discriminate]. injection Ea as <- <-.
    inversion HP2; subst. unfold apart in HA1. cbn in HA1. cbn in *. lia.
Qed.

(** ** Theorems *)
(** Allocations of several threads from one arena are disjoint, and inside the chunk, exactly if no thread stores between the
    two steps of another one's allocation.  Partial: allocations that need a new chunk are left out. *)
Theorem shared_arena_exclusive_partial : forall a xs s, a_ptr a <= a_end a -> positive xs -> shared_run (shared_start a) xs = Some s ->
  (ForallOrdPairs apart (sh_objs s) <-> exclusive xs) /\
  (exclusive xs -> Forall (fun o => inside o (a_ptr a, a_end a - a_ptr a)) (sh_objs s)).
Proof.
  intros a xs s H0 HP E. split; [split|].
  - exact (disjoint_exclusive a xs H0 s HP E).
  - intros HE. exact (k_apart _ _ _ (known_run a xs H0 s HE HP E)).
  - intros HE. destruct (known_run a xs H0 s HE HP E) as [_ Kb Ko Ke _]. eapply Forall_impl; [|exact Kb].
    intros o [H1 H2]. unfold inside. cbn. lia.
Qed.
Print Assumptions shared_arena_exclusive_partial.

(** Two threads taking turns, and the same two with their steps interleaved. *)
Definition small_arena : arena := Arena 4096 4224 4096 [] [].
Example taking_turns : exists s, shared_run (shared_start small_arena) [Load 0; Store 0 24; Load 1; Store 1 16; Load 0; Store 0 3] = Some s /\
  sh_objs s = [(4136, 3); (4120, 16); (4096, 24)].
Proof. eexists. split; reflexivity. Qed.
Example interleaved : exists s, shared_run (shared_start small_arena) [Load 0; Load 1; Store 0 24; Store 1 16] = Some s /\
  sh_objs s = [(4096, 16); (4096, 24)] /\ ~ exclusive [Load 0; Load 1; Store 0 24; Store 1 16].
Proof.
  eexists. split; [reflexivity|]. split; [reflexivity|]. intros H.
  specialize (H [Load 0] 1%nat [Store 0 24] 16 [] eq_refl). assert (X : Forall (fun x => thread x <> 1%nat) [Store 0 24]) by (repeat constructor; discriminate).
  specialize (H X). inversion H. contradiction.
Qed.
