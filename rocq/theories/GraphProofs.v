(** Proofs about the graph algorithms. *)
From Verif Require Import Base GraphModel GraphSpec.
Require Import Permutation.

Lemma mem_in x l : mem x l = true <-> In x l.
Proof.
  unfold mem. rewrite existsb_exists. split; [intros (y & H & E); apply Nat.eqb_eq in E; now subst | intros H; exists x; split; [assumption | apply Nat.eqb_refl]].
Qed.

Lemma mem_not_in x l : mem x l = false <-> ~ In x l.
Proof. rewrite <- mem_in. destruct (mem x l); split; congruence. Qed.

Lemma in_neighbors g n m : In m (neighbors g n) <-> step g n m.
Proof.
  unfold neighbors, step. rewrite in_flat_map. split.
  - intros ([a b] & He & H). cbn [fst snd] in H. apply in_app_iff in H. destruct H as [H | H].
    + destruct (Nat.eqb_spec a n); [|contradiction]. destruct H as [<- | []]. subst. now left.
    + destruct (gr_directed g); [contradiction|]. destruct (Nat.eqb_spec b n); [|contradiction]. destruct H as [<- | []]. subst. now right.
  - intros [H | [Hd H]].
    + exists (n, m). split; [assumption|]. cbn. rewrite Nat.eqb_refl. now left.
    + exists (m, n). split; [assumption|]. cbn. rewrite Hd, Nat.eqb_refl. cbn. apply in_app_iff. right. now left.
Qed.

Lemma step_universe g a b : step g a b -> In a (universe g) /\ In b (universe g).
Proof.
  intros H. unfold universe. rewrite !nodup_In, !in_app_iff. destruct H as [H | [_ H]]; split; right;
    ((left; apply (in_map fst) in H; exact H) || (right; apply (in_map snd) in H; exact H)).
Qed.

(** ** The search for cycles *)
Definition dloop (rec : nat -> search -> option search) : list nat -> search -> option search :=
  fix loop (ns : list nat) (s : search) : option search :=
  match ns with
  | [] => Some s
  | m :: ns' =>
      if negb (mem m (se_visited s)) then
        match rec m s with Some s' => loop ns' s' | None => None end
      else if mem m (se_stack s) then
        match from_first m (rev (se_path s)) with
        | Some c => loop ns' (Search (se_visited s) (se_stack s) (se_path s) (c :: se_cycles s))
        | None => loop ns' s
        end
      else loop ns' s
  end.

Definition enter (n : nat) (s : search) : search := Search (n :: se_visited s) (n :: se_stack s) (n :: se_path s) (se_cycles s).
Definition leave (n : nat) (s : search) : search :=
  Search (se_visited s) (filter (fun m => negb (m =? n)) (se_stack s)) (tl (se_path s)) (se_cycles s).

Lemma dfs_S f g n s : dfs (S f) g n s = match dloop (dfs f g) (neighbors g n) (enter n s) with None => None | Some s' => Some (leave n s') end.
Proof. reflexivity. Qed.

Definition inv (g : graph) (s : search) : Prop :=
  se_stack s = se_path s /\ NoDup (se_path s) /\ incl (se_path s) (se_visited s) /\ chain g (rev (se_path s)).

Lemma chain_app_r g a b : chain g (a ++ b) -> chain g b.
Proof. induction a as [| x a IH]; [auto|]. intros H. apply IH. cbn [app] in H. destruct (a ++ b); [exact I | apply H]. Qed.

Lemma chain_snoc g l a b : chain g (l ++ [a]) -> step g a b -> chain g ((l ++ [a]) ++ [b]).
Proof.
  intros H S. induction l as [| x l IH]; [cbn; auto|]. cbn [app] in *. destruct (l ++ [a]) as [| y r] eqn:E; [destruct l; discriminate|].
  cbn [app] in *. split; [apply H | apply IH; apply H].
Qed.

Lemma from_first_spec m l c : from_first m l = Some c -> exists a b, l = a ++ m :: b /\ c = m :: b.
Proof.
  induction l as [| x l IH]; cbn [from_first]; [discriminate|]. destruct (Nat.eqb_spec x m) as [-> |].
  - intros H. injection H as <-. now exists [], l.
  - intros H. destruct (IH H) as (a & b & -> & ->). now exists (x :: a), b.
Qed.

Lemma from_first_some m l : In m l -> exists c, from_first m l = Some c.
Proof. induction l as [| x l IH]; [contradiction|]. intros [-> | H]; cbn; [rewrite Nat.eqb_refl; eauto|]. destruct (x =? m); eauto. Qed.

Definition joins (g : graph) (s : search) (n : nat) : Prop := match se_path s with [] => True | p :: _ => step g p n end.

Lemma enter_inv g n s : inv g s -> ~ In n (se_visited s) -> joins g s n -> inv g (enter n s).
Proof.
  intros (E & N & I & C) Hn J. unfold inv, enter, joins in *. cbn [se_stack se_path se_visited]. rewrite E. split; [reflexivity|].
  split; [constructor; [intros H; apply Hn; now apply I | assumption]|]. split; [intros x [-> | H]; [now left | right; now apply I]|].
  cbn [rev]. destruct (se_path s) as [| p r]; [exact I0 || exact Logic.I|]. cbn [rev] in *. now apply chain_snoc.
Qed.

Definition post (g : graph) (s s' : search) : Prop :=
  inv g s' /\ se_path s' = se_path s /\ incl (se_visited s) (se_visited s') /\
  exists new, se_cycles s' = new ++ se_cycles s /\ Forall (cycle g) new.

Lemma post_trans g a b c : post g a b -> post g b c -> post g a c.
Proof.
  intros (_ & P1 & V1 & n1 & E1 & F1) (I2 & P2 & V2 & n2 & E2 & F2). split; [assumption|]. split; [congruence|].
  split; [eapply incl_tran; eassumption|]. exists (n2 ++ n1). rewrite E2, E1, app_assoc. split; [reflexivity | apply Forall_app; now split].
Qed.

Lemma dloop_post g rec n : (forall m s s', inv g s -> ~ In m (se_visited s) -> joins g s m -> rec m s = Some s' -> post g s s') ->
  forall ns s s', inv g s -> hd_error (se_path s) = Some n -> (forall m, In m ns -> step g n m) -> dloop rec ns s = Some s' -> post g s s'.
Proof.
  intros Hrec. induction ns as [| m ns IH]; intros s s' Hi Hh Hs E; cbn [dloop] in E.
  - injection E as <-. split; [assumption|]. split; [reflexivity|]. split; [apply incl_refl|]. exists []. now split.
  - assert (Hs' : forall x, In x ns -> step g n x) by (intros x Hx; apply Hs; now right).
    assert (Hm : step g n m) by (apply Hs; now left).
    destruct (mem m (se_visited s)) eqn:Ev; cbn [negb] in E.
    + destruct (mem m (se_stack s)) eqn:Es; [|now apply (IH s s')].
      destruct (from_first m (rev (se_path s))) as [c|] eqn:Ef; [|now apply (IH s s')].
      assert (Hi' : inv g (Search (se_visited s) (se_stack s) (se_path s) (c :: se_cycles s))) by exact Hi.
      apply post_trans with (Search (se_visited s) (se_stack s) (se_path s) (c :: se_cycles s)); [|apply IH; assumption].
      split; [assumption|]. split; [reflexivity|]. split; [apply incl_refl|]. exists [c]. split; [reflexivity|]. constructor; [|constructor].
      destruct (from_first_spec _ _ _ Ef) as (a & b & El & ->). exists m, b. split; [reflexivity|].
      destruct Hi as (_ & Nd & _ & Ch). split.
      * apply NoDup_rev in Nd. rewrite El in Nd. clear -Nd. induction a as [| x a IHa]; [exact Nd|]. apply IHa. now inversion Nd.
      * rewrite El in Ch. apply chain_app_r in Ch. destruct (se_path s) as [| p r]; [discriminate Hh|]. injection Hh as ->.
        cbn [rev] in El. assert (Z : exists z, m :: b = z ++ [n]).
        { destruct (@exists_last _ (m :: b)) as (z & y & Ez); [discriminate|]. exists z. rewrite Ez. rewrite Ez in El. rewrite app_assoc in El. apply app_inj_tail in El. destruct El as [_ <-]. reflexivity. }
        destruct Z as (z & Ez). rewrite Ez in *. now apply chain_snoc.
    + destruct (rec m s) as [s1|] eqn:Er; [|discriminate].
      assert (P1 : post g s s1).
      { apply (Hrec m); [assumption | now apply mem_not_in | | assumption]. unfold joins. destruct (se_path s) as [| p r]; [exact Logic.I|]. injection Hh as ->. exact Hm. }
      apply post_trans with s1; [assumption|]. destruct P1 as (I1 & E1 & _). apply IH; [assumption | now rewrite E1 | assumption | assumption].
Qed.

Lemma leave_stack n l : ~ In n l -> filter (fun m => negb (m =? n)) (n :: l) = l.
Proof.
  intros N. cbn [filter]. rewrite Nat.eqb_refl. cbn [negb]. induction l as [| x l IH]; [reflexivity|]. cbn [filter].
  destruct (Nat.eqb_spec x n) as [-> |]; [exfalso; apply N; now left|]. cbn [negb]. f_equal. apply IH. intros H. apply N. now right.
Qed.

Lemma dfs_post g f : forall n s s', inv g s -> ~ In n (se_visited s) -> joins g s n -> dfs f g n s = Some s' -> post g s s' /\ In n (se_visited s').
Proof.
  induction f as [| f IH]; intros n s s' Hi Hn Hj E; [discriminate|]. rewrite dfs_S in E.
  destruct (dloop (dfs f g) (neighbors g n) (enter n s)) as [s1|] eqn:El; [|discriminate]. injection E as <-.
  assert (P : post g (enter n s) s1).
  { apply (dloop_post g (dfs f g) n) with (ns := neighbors g n); [| now apply enter_inv | reflexivity | | assumption].
    - intros m s2 s3 H1 H2 H3 H4. now apply (IH m s2 s3).
    - intros m Hm. now apply in_neighbors. }
  destruct P as ((E1 & N1 & I1 & C1) & Pp & Pv & new & Pc & Pf). cbn [se_path enter se_visited se_cycles] in *.
  rewrite Pp in *. assert (Nn : ~ In n (se_path s)) by now inversion N1.
  split; [|apply Pv; now left]. split.
  - unfold inv, leave. cbn [se_stack se_path se_visited]. rewrite E1, Pp, leave_stack by assumption. cbn [tl].
    split; [reflexivity|]. split; [now inversion N1|]. split; [intros x Hx; apply I1; now right|]. apply Hi.
  - split; [unfold leave; cbn [se_path]; now rewrite Pp|]. split; [intros x Hx; apply Pv; now right|]. exists new. now split.
Qed.

Lemma find_post g f : forall keys s s', inv g s -> se_path s = [] -> find_from f g keys s = Some s' ->
  post g s s' /\ forall n, In n keys -> In n (se_visited s').
Proof.
  induction keys as [| n keys IH]; intros s s' Hi Hp E; cbn [find_from] in E.
  - injection E as <-. split; [|contradiction]. split; [assumption|]. split; [reflexivity|]. split; [apply incl_refl|]. exists []. now split.
  - destruct (mem n (se_visited s)) eqn:Ev.
    + destruct (IH s s' Hi Hp E) as [P Hv]. split; [assumption|]. intros m [-> | Hm]; [|now apply Hv]. apply P. now apply mem_in.
    + destruct (dfs f g n s) as [s1|] eqn:Ed; [|discriminate].
      destruct (dfs_post g f n s s1 Hi ltac:(now apply mem_not_in) ltac:(unfold joins; now rewrite Hp) Ed) as [P1 V1].
      assert (I1 : inv g s1) by apply P1. assert (E1 : se_path s1 = se_path s) by apply P1.
      destruct (IH s1 s' I1 ltac:(congruence) E) as [P2 V2]. split; [now apply post_trans with s1|].
      intros m [-> | Hm]; [|now apply V2]. apply P2. assumption.
Qed.

Lemma inv_start g : inv g (Search [] [] [] []).
Proof. repeat split; cbn; try constructor. intros x H. exact H. Qed.

(** ** Without reports the finished nodes are ordered *)
Definition ordered (g : graph) (F : list nat) : Prop := forall F1 u F2, F = F1 ++ u :: F2 -> forall v, step g u v -> In v F2.

Definition finished (s : search) (F : list nat) : Prop := forall x, In x (se_visited s) <-> In x F \/ In x (se_path s).

Definition quiet (s s' : search) : Prop := length (se_cycles s') = length (se_cycles s).

Lemma post_more g s s' : post g s s' -> length (se_cycles s) <= length (se_cycles s').
Proof. intros (_ & _ & _ & new & -> & _). rewrite app_length. lia. Qed.

Lemma dloop_order g rec n :
  (forall m s s', inv g s -> ~ In m (se_visited s) -> joins g s m -> rec m s = Some s' -> post g s s') ->
  (forall m s s' F, inv g s -> ~ In m (se_visited s) -> joins g s m -> rec m s = Some s' -> quiet s s' -> finished s F -> ordered g F ->
     exists F', finished s' F' /\ ordered g F' /\ In m F' /\ incl F F') ->
  forall ns s s' F, inv g s -> hd_error (se_path s) = Some n -> (forall m, In m ns -> step g n m) -> dloop rec ns s = Some s' -> quiet s s' ->
    finished s F -> ordered g F -> exists F', finished s' F' /\ ordered g F' /\ (forall m, In m ns -> In m F') /\ incl F F'.
Proof.
  intros Hp Ho. induction ns as [| m ns IH]; intros s s' F Hi Hh Hs E Q Hf Hor; cbn [dloop] in E.
  - injection E as <-. exists F. split; [assumption|]. split; [assumption|]. split; [contradiction | apply incl_refl].
  - assert (Hs' : forall x, In x ns -> step g n x) by (intros x Hx; apply Hs; now right).
    assert (Hm : step g n m) by (apply Hs; now left).
    destruct (mem m (se_visited s)) eqn:Ev; cbn [negb] in E.
    + destruct (mem m (se_stack s)) eqn:Es.
      * exfalso. assert (Hin : In m (rev (se_path s))) by (rewrite <- in_rev; destruct Hi as (<- & _); now apply mem_in).
        destruct (from_first_some _ _ Hin) as (c & Ec). rewrite Ec in E.
        assert (P : post g (Search (se_visited s) (se_stack s) (se_path s) (c :: se_cycles s)) s') by (apply (dloop_post g rec n Hp ns); assumption).
        apply post_more in P. cbn in P. unfold quiet in Q. lia.
      * assert (HmF : In m F).
        { apply mem_in in Ev. apply Hf in Ev. destruct Ev as [H | H]; [assumption|]. exfalso. apply mem_not_in in Es. apply Es. destruct Hi as (-> & _). assumption. }
        destruct (IH s s' F Hi Hh Hs' E Q Hf Hor) as (F' & H1 & H2 & H3 & H4). exists F'. repeat split; try apply H1; try assumption.
        intros x [<- | Hx]; [now apply H4 | now apply H3].
    + destruct (rec m s) as [s1|] eqn:Er; [|discriminate].
      assert (Jm : joins g s m) by (unfold joins; destruct (se_path s) as [| p r]; [exact Logic.I|]; injection Hh as ->; exact Hm).
      assert (P1 : post g s s1) by (apply (Hp m); [assumption | now apply mem_not_in | assumption | assumption]).
      assert (I1 : inv g s1) by apply P1. assert (E1 : se_path s1 = se_path s) by apply P1.
      assert (P2 : post g s1 s') by (apply (dloop_post g rec n Hp ns); [assumption | now rewrite E1 | assumption | assumption]).
      assert (M1 := post_more _ _ _ P1). assert (M2 := post_more _ _ _ P2). unfold quiet in Q.
      destruct (Ho m s s1 F Hi ltac:(now apply mem_not_in) Jm Er ltac:(unfold quiet; lia) Hf Hor) as (F1 & A1 & A2 & A3 & A4).
      destruct (IH s1 s' F1 I1 ltac:(now rewrite E1) Hs' E ltac:(unfold quiet; lia) A1 A2) as (F' & H1 & H2 & H3 & H4).
      exists F'. repeat split; try apply H1; try assumption; [|eapply incl_tran; eassumption].
      intros x [<- | Hx]; [now apply H4 | now apply H3].
Qed.

Lemma dfs_order g f : forall n s s' F, inv g s -> ~ In n (se_visited s) -> joins g s n -> dfs f g n s = Some s' -> quiet s s' ->
  finished s F -> ordered g F -> exists F', finished s' F' /\ ordered g F' /\ In n F' /\ incl F F'.
Proof.
  induction f as [| f IH]; intros n s s' F Hi Hn Hj E Q Hf Hor; [discriminate|]. rewrite dfs_S in E.
  destruct (dloop (dfs f g) (neighbors g n) (enter n s)) as [s1|] eqn:El; [|discriminate]. injection E as <-.
  assert (Hp : forall m s s', inv g s -> ~ In m (se_visited s) -> joins g s m -> dfs f g m s = Some s' -> post g s s') by (intros m a b H1 H2 H3 H4; now apply (dfs_post g f m)).
  assert (Hs : forall m, In m (neighbors g n) -> step g n m) by (intros m Hm; now apply in_neighbors).
  assert (He : inv g (enter n s)) by now apply enter_inv.
  assert (P : post g (enter n s) s1) by (apply (dloop_post g (dfs f g) n Hp (neighbors g n)); [assumption | reflexivity | assumption | assumption]).
  destruct (dloop_order g (dfs f g) n Hp IH (neighbors g n) (enter n s) s1 F He eq_refl Hs El Q) as (F1 & A1 & A2 & A3 & A4).
  { intros x. cbn [enter se_visited se_path In]. rewrite (Hf x). tauto. }
  { assumption. }
  exists (n :: F1). destruct P as (_ & Pp & Pv & _). cbn [enter se_path] in Pp. split; [|split; [|split]].
  - intros x. cbn [leave se_visited se_path In]. rewrite (A1 x), Pp. cbn [tl In]. tauto.
  - intros G1 u G2 EF v Hv. destruct G1 as [| y G1]; cbn [app] in EF; injection EF as <- EF.
    + subst G2. apply A3. now apply in_neighbors.
    + now apply (A2 G1 u G2).
  - now left.
  - intros x Hx. right. now apply A4.
Qed.

Lemma find_order g f : forall keys s s' F, inv g s -> se_path s = [] -> find_from f g keys s = Some s' -> quiet s s' -> finished s F -> ordered g F ->
  exists F', finished s' F' /\ ordered g F'.
Proof.
  induction keys as [| n keys IH]; intros s s' F Hi Hp E Q Hf Hor; cbn [find_from] in E.
  - injection E as <-. now exists F.
  - destruct (mem n (se_visited s)) eqn:Ev; [now apply (IH s s' F)|].
    destruct (dfs f g n s) as [s1|] eqn:Ed; [|discriminate].
    assert (J : joins g s n) by (unfold joins; now rewrite Hp).
    destruct (dfs_post g f n s s1 Hi ltac:(now apply mem_not_in) J Ed) as [P1 V1].
    assert (I1 : inv g s1) by apply P1. assert (E1 : se_path s1 = se_path s) by apply P1.
    destruct (find_post g f keys s1 s' I1 ltac:(congruence) E) as [P2 _].
    assert (M1 := post_more _ _ _ P1). assert (M2 := post_more _ _ _ P2). unfold quiet in Q.
    destruct (dfs_order g f n s s1 F Hi ltac:(now apply mem_not_in) J Ed ltac:(unfold quiet; lia) Hf Hor) as (F1 & A1 & A2 & _).
    apply (IH s1 s' F1); try assumption; [congruence | unfold quiet; lia].
Qed.

Lemma ordered_walk g F : ordered g F -> forall F1 u F2, F = F1 ++ u :: F2 -> forall v, walk g u v -> In v (u :: F2).
Proof.
  intros Ho F1 u F2 E v W. revert F1 F2 E. induction W as [a | a b c S W IH]; intros F1 F2 E; [now left|].
  assert (Hb := Ho _ _ _ E _ S). apply in_split in Hb. destruct Hb as (G1 & G2 & ->).
  assert (Hc := IH (F1 ++ a :: G1) G2 ltac:(rewrite <- app_assoc; exact E)). right. apply in_app_iff. right. exact Hc.
Qed.

(** ** Enough fuel *)
Definition fresh (g : graph) (s : search) : nat := length (filter (fun x => negb (mem x (se_visited s))) (universe g)).

Lemma filter_le {A} (p q : A -> bool) l : (forall x, In x l -> p x = true -> q x = true) -> length (filter p l) <= length (filter q l).
Proof.
  induction l as [| a l IH]; intros H; [reflexivity|]. cbn [filter]. assert (IH' := IH (fun x Hx => H x (or_intror Hx))).
  destruct (p a) eqn:Ep; [rewrite (H a (or_introl eq_refl) Ep); cbn; lia|]. destruct (q a); cbn; lia.
Qed.

Lemma filter_lt {A} (p q : A -> bool) l a : (forall x, In x l -> p x = true -> q x = true) -> In a l -> p a = false -> q a = true -> length (filter p l) < length (filter q l).
Proof.
  induction l as [| b l IH]; intros H Ha Ep Eq; [contradiction|]. cbn [filter].
  assert (H' := fun x Hx => H x (or_intror Hx)). destruct Ha as [-> | Ha].
  - rewrite Ep, Eq. cbn. assert (L := filter_le p q l H'). lia.
  - assert (IH' := IH H' Ha Ep Eq). destruct (p b) eqn:Epb; [rewrite (H b (or_introl eq_refl) Epb); cbn; lia|]. destruct (q b); cbn; lia.
Qed.

Lemma fresh_le g s s' : incl (se_visited s) (se_visited s') -> fresh g s' <= fresh g s.
Proof.
  intros H. apply filter_le. intros x _ Hx. apply negb_true_iff in Hx. apply mem_not_in in Hx. apply negb_true_iff. apply mem_not_in. intros Hi. apply Hx. now apply H.
Qed.

Lemma fresh_lt g s n : In n (universe g) -> ~ In n (se_visited s) -> fresh g (enter n s) < fresh g s.
Proof.
  intros Hu Hn. apply filter_lt with n; [| assumption | |].
  - intros x _ Hx. apply negb_true_iff in Hx. apply mem_not_in in Hx. apply negb_true_iff. apply mem_not_in. intros Hi. apply Hx. now right.
  - apply negb_false_iff. apply mem_in. now left.
  - apply negb_true_iff. now apply mem_not_in.
Qed.

Lemma dloop_grows rec : (forall m s s', rec m s = Some s' -> incl (se_visited s) (se_visited s')) ->
  forall ns s s', dloop rec ns s = Some s' -> incl (se_visited s) (se_visited s').
Proof.
  intros Hrec. induction ns as [| m ns IH]; intros s s' E; cbn [dloop] in E; [injection E as <-; apply incl_refl|].
  destruct (negb (mem m (se_visited s))).
  - destruct (rec m s) as [s1|] eqn:Er; [|discriminate]. eapply incl_tran; [exact (Hrec _ _ _ Er) | now apply IH].
  - destruct (mem m (se_stack s)); [|now apply IH]. destruct (from_first m (rev (se_path s))); [|now apply IH]. apply IH in E. exact E.
Qed.

Lemma dfs_grows g f : forall n s s', dfs f g n s = Some s' -> incl (se_visited s) (se_visited s').
Proof.
  induction f as [| f IH]; intros n s s' E; [discriminate|]. rewrite dfs_S in E.
  destruct (dloop (dfs f g) (neighbors g n) (enter n s)) as [s1|] eqn:El; [|discriminate]. injection E as <-.
  apply dloop_grows in El; [|exact IH]. intros x Hx. apply El. now right.
Qed.

Lemma dfs_fuel g f : forall n s, In n (universe g) -> ~ In n (se_visited s) -> fresh g s <= f -> exists s', dfs f g n s = Some s'.
Proof.
  induction f as [| f IH]; intros n s Hu Hn Hf; [assert (L := fresh_lt g s n Hu Hn); lia|]. rewrite dfs_S.
  assert (G : forall ns t, (forall m, In m ns -> In m (universe g)) -> fresh g t <= f -> exists t', dloop (dfs f g) ns t = Some t').
  { induction ns as [| m ns IHn]; intros t Hm Ht; cbn [dloop]; [now eexists|].
    assert (Hm' : forall x, In x ns -> In x (universe g)) by (intros x Hx; apply Hm; now right).
    destruct (mem m (se_visited t)) eqn:Ev; cbn [negb].
    - destruct (mem m (se_stack t)); [|now apply IHn]. destruct (from_first m (rev (se_path t))); now apply IHn.
    - destruct (IH m t ltac:(apply Hm; now left) ltac:(now apply mem_not_in) Ht) as (t1 & E1). rewrite E1. apply IHn; [assumption|].
      apply dfs_grows in E1. assert (L := fresh_le g _ _ E1). lia. }
  destruct (G (neighbors g n) (enter n s)) as (t & ->); [| assert (L := fresh_lt g s n Hu Hn); lia | now eexists].
  intros m Hm. apply in_neighbors in Hm. now apply step_universe in Hm.
Qed.

Lemma fresh_bound g s : fresh g s <= length (universe g).
Proof. unfold fresh. induction (universe g) as [| x l IH]; [reflexivity|]. cbn [filter]. destruct (negb _); cbn; lia. Qed.

Lemma find_fuel g f : length (universe g) <= f -> forall keys s, (forall n, In n keys -> In n (universe g)) -> exists s', find_from f g keys s = Some s'.
Proof.
  intros Hf. induction keys as [| n keys IH]; intros s Hk; cbn [find_from]; [now eexists|].
  assert (Hk' : forall x, In x keys -> In x (universe g)) by (intros x Hx; apply Hk; now right).
  destruct (mem n (se_visited s)) eqn:Ev; [now apply IH|].
  destruct (dfs_fuel g f n s ltac:(apply Hk; now left) ltac:(now apply mem_not_in) ltac:(assert (L := fresh_bound g s); lia)) as (s1 & ->). now apply IH.
Qed.

Lemma nodes_universe g n : In n (gr_nodes g) -> In n (universe g).
Proof. intros H. unfold universe. apply nodup_In. apply in_app_iff. now left. Qed.

Lemma find_cycles_runs g : exists s, find_from (S (length (universe g))) g (gr_nodes g) (Search [] [] [] []) = Some s /\ find_cycles g = Some (rev (se_cycles s)).
Proof.
  destruct (find_fuel g (S (length (universe g))) ltac:(lia) (gr_nodes g) (Search [] [] [] []) (nodes_universe g)) as (s & E).
  exists s. split; [assumption|]. unfold find_cycles. now rewrite E.
Qed.

Lemma no_report_order g s : find_from (S (length (universe g))) g (gr_nodes g) (Search [] [] [] []) = Some s -> se_cycles s = [] ->
  exists F, ordered g F /\ forall n, In n (gr_nodes g) -> In n F.
Proof.
  intros E Ec. destruct (find_post _ _ _ _ _ (inv_start g) eq_refl E) as [P V].
  destruct (find_order g _ _ _ _ [] (inv_start g) eq_refl E) as (F & Hf & Ho).
  - unfold quiet. rewrite Ec. reflexivity.
  - intros x. cbn. tauto.
  - intros F1 u F2 H. destruct F1; discriminate.
  - exists F. split; [assumption|]. intros n Hn. apply V in Hn. apply Hf in Hn. destruct Hn as [H | H]; [assumption|].
    destruct P as (_ & Pp & _). rewrite Pp in H. contradiction.
Qed.

Lemma last_split (a : nat) F : In a F -> exists F1 F2, F = F1 ++ a :: F2 /\ ~ In a F2.
Proof.
  induction F as [| x F IH]; [contradiction|]. intros H. destruct (in_dec Nat.eq_dec a F) as [Hi | Hi].
  - destruct (IH Hi) as (F1 & F2 & -> & N). now exists (x :: F1), F2.
  - destruct H as [-> | H]; [now exists [], F | contradiction].
Qed.

Lemma ordered_acyclic g F a b : ordered g F -> In a F -> step g a b -> walk g b a -> False.
Proof.
  intros Ho Ha S W. destruct (last_split a F Ha) as (F1 & F2 & -> & N). assert (Hb := Ho F1 a F2 eq_refl b S).
  apply in_split in Hb. destruct Hb as (G1 & G2 & ->).
  assert (H := ordered_walk g _ Ho (F1 ++ a :: G1) b G2 ltac:(rewrite <- app_assoc; reflexivity) a W).
  apply N. apply in_app_iff. right. exact H.
Qed.

(** ** Ranks from the order *)
Fixpoint rank (F : list nat) (x : nat) : nat :=
  match F with
  | [] => 0
  | y :: r => if mem x r then rank r x else if y =? x then length r else 0
  end.

Lemma rank_at F1 x F2 : ~ In x F2 -> rank (F1 ++ x :: F2) x = length F2.
Proof.
  intros N. induction F1 as [| y F1 IH]; cbn [app rank].
  - apply mem_not_in in N. rewrite N, Nat.eqb_refl. reflexivity.
  - assert (M : mem x (F1 ++ x :: F2) = true) by (apply mem_in, in_app_iff; right; now left). now rewrite M.
Qed.

Lemma ordered_rank g F u v : ordered g F -> In u F -> step g u v -> rank F v < rank F u.
Proof.
  intros Ho Hu S. destruct (last_split u F Hu) as (F1 & F2 & -> & N). rewrite (rank_at F1 u F2 N).
  assert (Hv := Ho F1 u F2 eq_refl v S). destruct (last_split v F2 Hv) as (G1 & G2 & -> & Nv).
  replace (F1 ++ u :: G1 ++ v :: G2) with ((F1 ++ u :: G1) ++ v :: G2) by (rewrite <- app_assoc; reflexivity).
  rewrite rank_at by assumption. rewrite app_length. cbn. lia.
Qed.

(** ** Exploring *)
Definition unseen (g : graph) (visited : list nat) : nat := list_sum (map (degree g) (filter (fun x => negb (mem x visited)) (universe g))).

Lemma sum_cons x l : list_sum (x :: l) = x + list_sum l.
Proof. reflexivity. Qed.

Lemma unseen_visit g visited n : In n (universe g) -> ~ In n visited -> unseen g (n :: visited) + degree g n <= unseen g visited.
Proof.
  unfold unseen. intros Hu Hn. revert Hu.
  assert (T : forall y, mem y (n :: visited) = false -> mem y visited = false).
  { intros y E1. apply mem_not_in in E1. apply mem_not_in. intros H. apply E1. now right. }
  assert (M : forall U, list_sum (map (degree g) (filter (fun x => negb (mem x (n :: visited))) U)) <= list_sum (map (degree g) (filter (fun x => negb (mem x visited)) U))).
  { induction U as [| y U IH]; [reflexivity|]. cbn [filter]. destruct (mem y (n :: visited)) eqn:E1; cbn [negb].
    - destruct (mem y visited); cbn [negb map]; rewrite ?sum_cons; lia.
    - rewrite (T y E1). cbn [negb map]. rewrite !sum_cons. lia. }
  induction (universe g) as [| y U IH]; [contradiction|]. intros H. cbn [filter].
  destruct (Nat.eq_dec y n) as [-> |].
  - assert (E1 : mem n (n :: visited) = true) by (apply mem_in; now left). assert (E2 : mem n visited = false) by now apply mem_not_in.
    rewrite E1, E2. cbn [negb map]. rewrite sum_cons. assert (K := M U). lia.
  - destruct H as [-> | H]; [congruence|]. specialize (IH H). destruct (mem y (n :: visited)) eqn:E1; cbn [negb].
    + destruct (mem y visited); cbn [negb map]; rewrite ?sum_cons; lia.
    + rewrite (T y E1). cbn [negb map]. rewrite !sum_cons. lia.
Qed.

Lemma NoDup_app_intro {A} (a b : list A) : NoDup a -> NoDup b -> (forall x, In x a -> In x b -> False) -> NoDup (a ++ b).
Proof.
  induction 1 as [| x a Hx Ha IH]; intros Hb D; [assumption|]. cbn [app]. constructor.
  - intros H. apply in_app_iff in H. destruct H as [H | H]; [contradiction|]. apply (D x); [now left | assumption].
  - apply IH; [assumption|]. intros y H1 H2. apply (D y); [now right | assumption].
Qed.

Lemma filter_length {A} (p : A -> bool) l : length (filter p l) <= length l.
Proof. induction l as [| a l IH]; [reflexivity|]. cbn [filter]. destruct (p a); cbn; lia. Qed.

Lemma explore_fuel_ok g : forall f stack visited, (forall x, In x stack -> In x (universe g)) -> length stack + unseen g visited <= f ->
  exists v, explore f g stack visited = Some v.
Proof.
  induction f as [| f IH]; intros stack visited Hs Hf; destruct stack as [| n rest]; cbn [explore]; [exists visited; reflexivity | cbn in Hf; lia | exists visited; reflexivity |].
  assert (Hr : forall x, In x rest -> In x (universe g)) by (intros x Hx; apply Hs; now right).
  destruct (mem n visited) eqn:Ev; [apply IH; [assumption | cbn in Hf; lia]|].
  apply IH.
  - intros x Hx. apply in_app_iff in Hx. destruct Hx as [Hx | Hx]; [|now apply Hr]. apply in_rev in Hx. apply filter_In in Hx.
    destruct Hx as [Hx _]. apply in_neighbors in Hx. now apply step_universe in Hx.
  - rewrite app_length, rev_length. assert (L := filter_length (fun m => negb (mem m (n :: visited))) (neighbors g n)). fold (degree g n) in L.
    assert (K := unseen_visit g visited n (Hs n (or_introl eq_refl)) ltac:(now apply mem_not_in)). cbn [length] in Hf. lia.
Qed.

Lemma walk_app g a b c : walk g a b -> walk g b c -> walk g a c.
Proof. induction 1 as [a | a b d S W IH]; [auto|]. intros H. eapply WStep; eauto. Qed.

Lemma explore_spec g : forall f stack visited v, explore f g stack visited = Some v ->
  (NoDup visited -> NoDup v) /\ (forall x, In x v -> In x visited \/ exists s, In s stack /\ walk g s x) /\
  ((forall x y, In x visited -> step g x y -> In y visited \/ In y stack) ->
    (forall x, In x visited \/ In x stack -> In x v) /\ forall x y, In x v -> step g x y -> In y v).
Proof.
  induction f as [| f IH]; intros stack visited v E; destruct stack as [| n rest]; cbn [explore] in E; try discriminate.
  - injection E as <-. split; [auto|]. split; [auto|]. intros H. split; [intros x [Hx | []]; assumption|]. intros x y Hx S. destruct (H x y Hx S) as [K | []]. exact K.
  - injection E as <-. split; [auto|]. split; [auto|]. intros H. split; [intros x [Hx | []]; assumption|]. intros x y Hx S. destruct (H x y Hx S) as [K | []]. exact K.
  - destruct (mem n visited) eqn:Ev.
    + destruct (IH _ _ _ E) as (H1 & H2 & H3). split; [assumption|]. split.
      * intros x Hx. destruct (H2 x Hx) as [K | (s & K1 & K2)]; [now left|]. right. exists s. split; [now right | assumption].
      * intros H. apply mem_in in Ev. destruct H3 as [H3 H4].
        { intros x y Hx S. destruct (H x y Hx S) as [K | [<- | K]]; auto. }
        split; [|assumption]. intros x [Hx | [<- | Hx]]; apply H3; auto.
    + destruct (IH _ _ _ E) as (H1 & H2 & H3). apply mem_not_in in Ev. split; [intros N; apply H1; now constructor|]. split.
      * intros x Hx. destruct (H2 x Hx) as [[<- | K] | (s & K1 & K2)]; [right; exists n; split; [now left | constructor] | now left |].
        apply in_app_iff in K1. destruct K1 as [K1 | K1]; [|right; exists s; split; [now right | assumption]].
        apply in_rev in K1. apply filter_In in K1. destruct K1 as [K1 _]. apply in_neighbors in K1. right. exists n. split; [now left | eapply WStep; eassumption].
      * intros H. destruct H3 as [H3 H4].
        { intros x y [<- | Hx] S.
          - destruct (in_dec Nat.eq_dec y (n :: visited)) as [Hy | Hy]; [now left|]. right. apply in_app_iff. left. apply -> in_rev. apply filter_In.
            split; [now apply in_neighbors|]. apply negb_true_iff. now apply mem_not_in.
          - destruct (H x y Hx S) as [K | [<- | K]]; [left; now right | left; now left |]. right. apply in_app_iff. now right. }
        split; [|assumption]. intros x [Hx | [<- | Hx]]; apply H3; [left; now right | left; now left |]. right. apply in_app_iff. now right.
Qed.

Lemma closed_walk g (v : list nat) : (forall x y, In x v -> step g x y -> In y v) -> forall a b, walk g a b -> In a v -> In b v.
Proof. intros H a b W. induction W as [a | a b c S W IH]; [auto|]. intros Ha. apply IH. now apply (H a b). Qed.

Lemma explore_reach g start : In start (universe g) -> exists v, explore (explore_fuel g) g [start] [] = Some v /\ NoDup v /\ forall x, In x v <-> walk g start x.
Proof.
  intros Hs. destruct (explore_fuel_ok g (explore_fuel g) [start] []) as (v & E).
  - intros x [<- | []]. assumption.
  - unfold explore_fuel, unseen. cbn [length mem existsb negb].
    assert (F : forall l, filter (fun _ : nat => true) l = l) by (induction l as [| y l IH]; [reflexivity | cbn; now rewrite IH]). rewrite F. lia.
  - exists v. split; [assumption|]. destruct (explore_spec g _ _ _ _ E) as (H1 & H2 & H3). split; [apply H1; constructor|].
    destruct H3 as [H3 H4]; [contradiction|]. intros x. split.
    + intros Hx. destruct (H2 x Hx) as [[] | (s & [<- | []] & W)]. exact W.
    + intros W. apply (closed_walk g v H4 start x W). apply H3. right. now left.
Qed.

(** ** Layers *)
Definition hits (es : list (nat * nat)) (K : list nat) (v : nat) : nat := length (filter (fun e => (snd e =? v) && mem (fst e) K) es).

Definition counted (es : list (nat * nat)) (K : list nat) (t : table) : Prop := forall v d, In (v, d) t -> d = hits es K v.

Lemma keys_decrement v t : map fst (decrement v t) = map fst t.
Proof. unfold decrement. rewrite map_map. apply map_ext. intros [a d]. cbn. destruct (a =? v); reflexivity. Qed.

Lemma keys_remove v t : map fst (remove_key v t) = filter (fun x => negb (x =? v)) (map fst t).
Proof. unfold remove_key. induction t as [| [a d] t IH]; [reflexivity|]. cbn [filter map fst]. destruct (negb (a =? v)); cbn [map fst]; now rewrite IH. Qed.

Lemma keys_take_out es t n : map fst (take_out es t n) = filter (fun x => negb (x =? n)) (map fst t).
Proof.
  unfold take_out. rewrite <- keys_remove. generalize (remove_key n t). induction es as [| e es IH]; intros t0; [reflexivity|]. cbn [fold_left].
  rewrite IH. destruct (fst e =? n); [apply keys_decrement | reflexivity].
Qed.

Lemma entry_fold es n : forall t v d, In (v, d) (fold_left (fun t e => if fst e =? n then decrement (snd e) t else t) es t) ->
  exists d0, In (v, d0) t /\ d = d0 - length (filter (fun e => (fst e =? n) && (snd e =? v)) es).
Proof.
  induction es as [| e es IH]; intros t v d H; cbn [fold_left filter] in *; [exists d; split; [assumption | cbn; lia]|].
  destruct (IH _ _ _ H) as (d0 & H0 & ->). destruct (Nat.eqb_spec (fst e) n) as [En | En]; cbn [andb].
  - unfold decrement in H0. apply in_map_iff in H0. destruct H0 as ([a c] & Ea & Ha). cbn [fst snd] in Ea.
    destruct (Nat.eqb_spec a (snd e)) as [E1 | E1]; injection Ea as Ev Ed.
    + subst. exists c. split; [assumption|]. rewrite Nat.eqb_refl. cbn [length]. lia.
    + subst. exists d0. split; [assumption|]. destruct (Nat.eqb_spec (snd e) v); [congruence | reflexivity].
  - exists d0. split; [assumption | reflexivity].
Qed.

Lemma hits_less es K n v : hits es (filter (fun x => negb (x =? n)) K) v =
  hits es K v - (if mem n K then length (filter (fun e => (fst e =? n) && (snd e =? v)) es) else 0).
Proof.
  unfold hits. assert (G : forall e : nat * nat, mem (fst e) (filter (fun x => negb (x =? n)) K) = mem (fst e) K && negb (fst e =? n)).
  { intros e. destruct (mem (fst e) K && negb (fst e =? n)) eqn:E.
    - apply andb_true_iff in E. destruct E as [E1 E2]. apply mem_in. apply filter_In. split; [now apply mem_in | assumption].
    - apply mem_not_in. intros H. apply filter_In in H. destruct H as [H1 H2]. apply mem_in in H1. rewrite H1, H2 in E. discriminate. }
  destruct (mem n K) eqn:En.
  - induction es as [| e es IH]; [reflexivity|]. cbn [filter]. rewrite G.
    assert (L : length (filter (fun e => (fst e =? n) && (snd e =? v)) es) <= length (filter (fun e => (snd e =? v) && mem (fst e) K) es)).
    { apply filter_le. intros x _ Hx. apply andb_true_iff in Hx. destruct Hx as [H1 H2]. apply Nat.eqb_eq in H1. rewrite H1, H2, En. reflexivity. }
    destruct (Nat.eqb_spec (fst e) n) as [E | E].
    + rewrite E, En. cbn [negb andb]. rewrite !andb_false_r, andb_true_r. destruct (snd e =? v); cbn [length]; lia.
    + cbn [negb andb]. rewrite andb_true_r. destruct ((snd e =? v) && mem (fst e) K); cbn [length]; lia.
  - rewrite Nat.sub_0_r. f_equal. apply filter_ext. intros e. rewrite G. destruct (Nat.eqb_spec (fst e) n) as [E | E]; cbn [negb]; [rewrite E, En; reflexivity | now rewrite andb_true_r].
Qed.

Lemma take_out_counted es K t n : In n K -> counted es K t -> counted es (filter (fun x => negb (x =? n)) K) (take_out es t n).
Proof.
  intros Hn H v d Hd. unfold take_out in Hd. apply entry_fold in Hd. destruct Hd as (d0 & H0 & ->).
  unfold remove_key in H0. apply filter_In in H0. destruct H0 as [H0 _]. rewrite (H v d0 H0), hits_less. apply mem_in in Hn. now rewrite Hn.
Qed.

Definition minus (K layer : list nat) : list nat := filter (fun x => negb (mem x layer)) K.

Lemma minus_cons K n layer : minus (filter (fun x => negb (x =? n)) K) layer = minus K (n :: layer).
Proof.
  unfold minus. induction K as [| x K IH]; [reflexivity|]. cbn [filter mem existsb]. destruct (x =? n); cbn [negb orb filter]; [apply IH|].
  fold (mem x layer). destruct (negb (mem x layer)); now rewrite IH.
Qed.

Lemma in_minus x K layer : In x (minus K layer) <-> In x K /\ ~ In x layer.
Proof. unfold minus. rewrite filter_In, negb_true_iff, mem_not_in. reflexivity. Qed.

Lemma layer_out es : forall layer t K, map fst t = K -> NoDup layer -> (forall n, In n layer -> In n K) -> counted es K t ->
  map fst (fold_left (take_out es) layer t) = minus K layer /\ counted es (minus K layer) (fold_left (take_out es) layer t).
Proof.
  induction layer as [| n layer IH]; intros t K HK Nd Hin Hc; cbn [fold_left].
  - assert (E : minus K [] = K) by (unfold minus; induction K as [| x K' IHK]; [reflexivity|]; cbn; f_equal; clear -K'; induction K' as [| y l IHl]; [reflexivity | cbn; now rewrite IHl]).
    rewrite E. now split.
  - inversion Nd as [| ? ? N1 N2]; subst. rewrite <- minus_cons. apply IH.
    + apply keys_take_out.
    + assumption.
    + intros m Hm. apply filter_In. split; [apply Hin; now right|]. apply negb_true_iff. apply Nat.eqb_neq. intros ->. contradiction.
    + apply take_out_counted; [apply Hin; now left | assumption].
Qed.

Lemma layer_keys es : forall layer t, map fst (fold_left (take_out es) layer t) = minus (map fst t) layer.
Proof.
  induction layer as [| n layer IH]; intros t; cbn [fold_left].
  - unfold minus. induction (map fst t) as [| x l IHl]; [reflexivity | cbn in *; now rewrite <- IHl].
  - rewrite IH, keys_take_out. apply minus_cons.
Qed.

Lemma min_entry_in t : forall best, In (min_entry best t) (best :: t).
Proof.
  induction t as [| p t IH]; intros best; cbn [min_entry]; [now left|]. destruct (IH (if snd p <? snd best then p else best)) as [H | H].
  - rewrite <- H. destruct (snd p <? snd best); [right; now left | now left].
  - right. now right.
Qed.

Definition layer_of (p : nat * nat) (r : table) : list nat :=
  let zero := map fst (filter (fun p => snd p =? 0) (p :: r)) in match zero with [] => [fst (min_entry p r)] | _ => zero end.

Lemma peel_S f es p r : peel (S f) es (p :: r) = match peel f es (fold_left (take_out es) (layer_of p r) (p :: r)) with Some layers => Some (layer_of p r :: layers) | None => None end.
Proof. reflexivity. Qed.

Lemma layer_of_spec p r : NoDup (map fst (p :: r)) -> layer_of p r <> [] /\ NoDup (layer_of p r) /\ forall n, In n (layer_of p r) -> In n (map fst (p :: r)).
Proof.
  intros Nd. unfold layer_of. cbv zeta. destruct (map fst (filter (fun p => snd p =? 0) (p :: r))) as [| z zs] eqn:E.
  - split; [discriminate|]. split; [constructor; [intros [] | constructor]|]. intros n [<- | []]. apply in_map. apply min_entry_in.
  - split; [discriminate|]. rewrite <- E. split.
    + clear E. induction (p :: r) as [| q t IH]; [constructor|]. cbn [map] in Nd. inversion Nd as [| ? ? N1 N2]; subst. cbn [filter].
      destruct (snd q =? 0); [|now apply IH]. cbn [map]. constructor; [|now apply IH]. intros H. apply N1. apply in_map_iff in H. destruct H as (x & Ex & Hx).
      rewrite <- Ex. apply in_map. now apply filter_In in Hx.
    + intros n Hn. apply in_map_iff in Hn. destruct Hn as (x & <- & Hx). apply in_map. now apply filter_In in Hx.
Qed.

Lemma minus_length K layer : layer <> [] -> (forall n, In n layer -> In n K) -> length (minus K layer) < length K.
Proof.
  intros Hl Hin. destruct layer as [| n layer]; [congruence|]. assert (Hn := Hin n (or_introl eq_refl)).
  assert (E : length K = length (filter (fun _ : nat => true) K)) by (clear; induction K as [| x K IH]; [reflexivity | cbn; now rewrite <- IH]).
  rewrite E. unfold minus. apply filter_lt with n; auto. apply negb_false_iff. apply mem_in. now left.
Qed.

Lemma nodup_minus K layer : NoDup K -> NoDup (minus K layer).
Proof. apply NoDup_filter. Qed.

Lemma peel_spec es : forall f t, NoDup (map fst t) -> length t <= f -> exists layers, peel f es t = Some layers /\
  NoDup (concat layers) /\ (forall n, In n (concat layers) <-> In n (map fst t)) /\ Forall (fun l => l <> []) layers.
Proof.
  induction f as [| f IH]; intros t Nd Hf; destruct t as [| p r]; try (exists []; split; [reflexivity|]; split; [constructor|]; split; [reflexivity | constructor]); [cbn in Hf; lia|].
  rewrite peel_S. destruct (layer_of_spec p r Nd) as (L1 & L2 & L3).
  assert (EK := layer_keys es (layer_of p r) (p :: r)).
  destruct (IH (fold_left (take_out es) (layer_of p r) (p :: r))) as (layers & E & A & B & C).
  - rewrite EK. now apply nodup_minus.
  - assert (L := minus_length _ _ L1 L3). rewrite <- EK, !map_length in L. cbn [length] in Hf, L. cbn [length] in *. lia.
  - rewrite E. eexists. split; [reflexivity|]. cbn [concat]. split; [|split].
    + apply NoDup_app_intro; [assumption | assumption |]. intros x H1 H2. apply B in H2. rewrite EK in H2. apply in_minus in H2. now apply H2.
    + intros n. rewrite in_app_iff, B, EK, in_minus. split; [intros [H | H]; [now apply L3 | apply H]|]. intros H. destruct (in_dec Nat.eq_dec n (layer_of p r)); [now left | right; now split].
    + constructor; assumption.
Qed.

(** ** Layers respect edges of ranked graphs *)
Definition before (layers : list (list nat)) (u v : nat) : Prop := exists A l B, layers = A ++ l :: B /\ In u l /\ In v (concat B).

Lemma hits_pos es K u v : In (u, v) es -> In u K -> 0 < hits es K v.
Proof.
  intros He Hu. unfold hits. apply in_split in He. destruct He as (a & b & ->). rewrite filter_app, app_length. cbn [filter fst snd].
  apply mem_in in Hu. rewrite Nat.eqb_refl, Hu. cbn. lia.
Qed.

Lemma max_rank (rk : nat -> nat) K : K <> [] -> exists x, In x K /\ forall y, In y K -> rk y <= rk x.
Proof.
  induction K as [| k K IH]; [congruence|]. intros _. destruct K as [| k2 K].
  - exists k. split; [now left|]. intros y [<- | []]. lia.
  - destruct IH as (x & Hx & Hm); [discriminate|]. destruct (le_lt_dec (rk k) (rk x)).
    + exists x. split; [now right|]. intros y [<- | Hy]; [assumption | now apply Hm].
    + exists k. split; [now left|]. intros y [<- | Hy]; [lia|]. specialize (Hm y Hy). lia.
Qed.

Lemma hits_zero es K v : (forall u, In (u, v) es -> ~ In u K) -> hits es K v = 0.
Proof.
  intros H. unfold hits. destruct (filter _ es) as [| e l] eqn:E; [reflexivity|]. exfalso. assert (He : In e (e :: l)) by now left. rewrite <- E in He.
  apply filter_In in He. destruct He as [He Hb]. apply andb_true_iff in Hb. destruct Hb as [H1 H2]. apply Nat.eqb_eq in H1. apply mem_in in H2. destruct e as [a b]. cbn in *. subst b. exact (H a He H2).
Qed.

Lemma peel_edges es (rk : nat -> nat) : (forall u v, In (u, v) es -> rk v < rk u) ->
  forall f t layers, NoDup (map fst t) -> counted es (map fst t) t -> peel f es t = Some layers ->
  forall u v, In (u, v) es -> In u (map fst t) -> In v (map fst t) -> before layers u v.
Proof.
  intros Hrk. induction f as [| f IH]; intros t layers Nd Hc E u v He Hu Hv; destruct t as [| p r]; try contradiction; try discriminate.
  rewrite peel_S in E.
  destruct (layer_of_spec p r Nd) as (L1 & L2 & L3).
  destruct (layer_out es (layer_of p r) (p :: r) _ eq_refl L2 L3 Hc) as [EK HcK].
  destruct (peel f es (fold_left (take_out es) (layer_of p r) (p :: r))) as [ls|] eqn:Ep; [|discriminate]. injection E as <-.
  assert (Z : exists z, In (z, 0) (p :: r)).
  { destruct (max_rank rk (map fst (p :: r))) as (x & Hx & Hm); [discriminate|]. apply in_map_iff in Hx. destruct Hx as ([x' d] & Ex & Hx). cbn in Ex. subst x'.
    exists x. rewrite (Hc x d Hx) in Hx. rewrite hits_zero in Hx; [assumption|]. intros w Hw Hin. specialize (Hrk w x Hw). specialize (Hm w Hin). lia. }
  assert (Lz : forall n, In n (layer_of p r) -> In (n, 0) (p :: r)).
  { intros n Hn. destruct Z as (z & Hz). unfold layer_of in Hn. cbv zeta in Hn. destruct (map fst (filter (fun p => snd p =? 0) (p :: r))) as [| z' zs] eqn:Ez.
    - exfalso. assert (K : In z (map fst (filter (fun p => snd p =? 0) (p :: r)))) by (apply in_map_iff; exists (z, 0); split; [reflexivity | apply filter_In; split; [assumption | reflexivity]]). rewrite Ez in K. contradiction.
    - rewrite <- Ez in Hn. apply in_map_iff in Hn. destruct Hn as ([a d] & <- & Ha). apply filter_In in Ha. destruct Ha as [Ha Hd]. cbn in Hd. apply Nat.eqb_eq in Hd. now subst d. }
  assert (Hv' : ~ In v (layer_of p r)).
  { intros H. apply Lz in H. apply Hc in H. assert (P := hits_pos es _ u v He Hu). lia. }
  assert (Nd' : NoDup (map fst (fold_left (take_out es) (layer_of p r) (p :: r)))) by (rewrite EK; now apply nodup_minus).
  assert (Hvk : In v (minus (map fst (p :: r)) (layer_of p r))) by (apply in_minus; now split).
  destruct (in_dec Nat.eq_dec u (layer_of p r)) as [Hul | Hul].
  - exists [], (layer_of p r), ls. split; [reflexivity|]. split; [assumption|].
    assert (Sp := peel_spec es f (fold_left (take_out es) (layer_of p r) (p :: r)) Nd').
    assert (Lf : length (fold_left (take_out es) (layer_of p r) (p :: r)) <= f \/ True) by now right. clear Lf.
    clear Sp. revert Ep Hvk EK Nd'. clear. generalize (fold_left (take_out es) (layer_of p r) (p :: r)) as t. generalize (minus (map fst (p :: r)) (layer_of p r)) as K.
    intros K t Ep Hv <- Nd. revert t ls Ep Hv Nd. induction f as [| f IH]; intros t ls Ep Hv Nd; destruct t as [| q s]; try contradiction; try discriminate.
    rewrite peel_S in Ep.
    destruct (peel f es (fold_left (take_out es) (layer_of q s) (q :: s))) as [ls'|] eqn:E; [|discriminate]. injection Ep as <-. cbn [concat]. apply in_app_iff.
    destruct (in_dec Nat.eq_dec v (layer_of q s)); [now left | right]. apply (IH _ _ E); rewrite layer_keys; [apply in_minus; now split | now apply nodup_minus].
  - destruct (IH _ ls Nd' ltac:(rewrite EK; exact HcK) Ep u v He) as (A & l & B & -> & Hl & HB).
    + rewrite EK. apply in_minus. now split.
    + rewrite EK. assumption.
    + now exists (layer_of p r :: A), l, B.
Qed.

(** ** Initial degrees *)
Lemma increment_spec v t t' : increment v t = Some t' -> map fst t' = map fst t /\ forall w d, In (w, d) t' -> exists d0, In (w, d0) t /\ d = d0 + (if w =? v then 1 else 0).
Proof.
  unfold increment. destruct (mem v (map fst t)); [|discriminate]. intros H. injection H as <-. split.
  - rewrite map_map. apply map_ext. intros [a d]. cbn. destruct (a =? v); reflexivity.
  - intros w d H. apply in_map_iff in H. destruct H as ([a c] & E & Ha). cbn [fst snd] in E. destruct (Nat.eqb_spec a v) as [Ea | Ea]; injection E as E1 E2; subst.
    + exists c. split; [assumption | now rewrite Nat.eqb_refl].
    + exists d. split; [assumption|]. destruct (Nat.eqb_spec w v); [congruence | lia].
Qed.

Lemma count_spec : forall es t t', count_degrees es t = Some t' -> map fst t' = map fst t /\
  forall w d, In (w, d) t' -> exists d0, In (w, d0) t /\ d = d0 + length (filter (fun e => snd e =? w) es).
Proof.
  induction es as [| e es IH]; intros t t' E; cbn [count_degrees] in E.
  - injection E as <-. split; [reflexivity|]. intros w d H. exists d. split; [assumption | cbn; lia].
  - destruct (increment (snd e) t) as [t1|] eqn:Ei; [|discriminate]. destruct (increment_spec _ _ _ Ei) as [K1 D1]. destruct (IH _ _ E) as [K2 D2].
    split; [congruence|]. intros w d H. destruct (D2 w d H) as (d1 & H1 & ->). destruct (D1 w d1 H1) as (d0 & H0 & ->). exists d0. split; [assumption|].
    cbn [filter]. rewrite (Nat.eqb_sym w). destruct (snd e =? w); cbn [length]; lia.
Qed.

Lemma count_some : forall es t, Forall (fun e => In (snd e) (map fst t)) es -> exists t', count_degrees es t = Some t'.
Proof.
  induction es as [| e es IH]; intros t H; cbn [count_degrees]; [now eexists|]. apply Forall_cons_iff in H. destruct H as [H1 H2].
  unfold increment. rewrite (proj2 (mem_in _ _) H1). apply IH. rewrite map_map. eapply Forall_impl; [|exact H2]. intros e' H. cbn beta in *.
  rewrite <- map_ext with (f := fst); [exact H|]. intros [a d]. cbn. destruct (a =? snd e); reflexivity.
Qed.

Lemma initial_degrees g t : NoDup (gr_nodes g) -> closed g -> count_degrees (gr_edges g) (map (fun n => (n, 0)) (gr_nodes g)) = Some t ->
  map fst t = gr_nodes g /\ counted (gr_edges g) (gr_nodes g) t.
Proof.
  intros Nd Hc E. destruct (count_spec _ _ _ E) as [K D]. rewrite map_map in K. cbn in K. rewrite map_id in K. split; [assumption|].
  intros v d H. destruct (D v d H) as (d0 & H0 & ->). apply in_map_iff in H0. destruct H0 as (n & En & _). injection En as _ <-. cbn [Nat.add].
  unfold hits. f_equal. unfold closed in Hc. rewrite Forall_forall in Hc. clear -Hc. revert Hc. generalize (gr_nodes g). intros N. induction (gr_edges g) as [| e es IH]; intros Hc; [reflexivity|].
  cbn [filter]. assert (M : mem (fst e) N = true) by (apply mem_in; apply Hc; now left). rewrite M, andb_true_r, IH; [reflexivity|]. intros x Hx. apply Hc. now right.
Qed.
