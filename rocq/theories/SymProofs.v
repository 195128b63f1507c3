From Verif Require Import Base Utf8 VfsModel VfsProofs TreeModel TreeSpec TreeProofs SymModel SymSpec.

(** ** The symbol table *)
Definition apply_update (t : symbol_table) (u : update) : symbol_table := update_file_symbols t (fst u) (snd u).
Definition table_after (h : list update) : symbol_table := fold_right (fun u t => apply_update t u) table_new h.

Lemma named_iff q s : named q s <-> qualified_name s = q.
Proof. unfold named, qualified_name. destruct (sy_container s); cbn [lit]; split; intros; subst; reflexivity. Qed.

Lemma named_dec q s : {named q s} + {~ named q s}.
Proof.
  destruct (list_eq_dec Z.eq_dec (qualified_name s) q) as [E | E]; [left | right]; rewrite named_iff; assumption.
Qed.

Lemma current_fun h u : forall l l', current h u l -> current h u l' -> l = l'.
Proof.
  induction h as [| [v m] h IH]; intros l l' H H'; inversion H; inversion H'; subst; try reflexivity; try contradiction; auto.
Qed.

Lemma current_total h u : exists l, current h u l.
Proof.
  induction h as [| [v m] h [l IH]]; [exists []; constructor|].
  destruct (list_eq_dec Z.eq_dec u v) as [-> | N]; [exists m; constructor | exists l; now constructor].
Qed.

Lemma mget_remove_all old : forall (q : list (str * symbol)) k,
  mget str_eqb (fold_left (fun q s => mremove str_eqb q (qualified_name s)) old q) k =
  if existsb (fun s => str_eqb (qualified_name s) k) old then None else mget str_eqb q k.
Proof.
  induction old as [| s r IH]; intros q k; [reflexivity|]. cbn [fold_left existsb]. rewrite IH.
  rewrite (mget_remove str_eqb str_eqb_spec).
  destruct (str_eqb (qualified_name s) k), (existsb (fun s => str_eqb (qualified_name s) k) r); reflexivity.
Qed.

Definition last_sym (k : str) (l : list symbol) : option symbol :=
  fold_left (fun o s => if str_eqb (qualified_name s) k then Some s else o) l None.

Lemma last_sym_gen k l : forall o, fold_left (fun o s => if str_eqb (qualified_name s) k then Some s else o) l o =
  match last_sym k l with Some s => Some s | None => o end.
Proof.
  unfold last_sym. induction l as [| s r IH]; intros o; [reflexivity|]. cbn [fold_left].
  rewrite (IH (if str_eqb (qualified_name s) k then Some s else o)), (IH (if str_eqb (qualified_name s) k then Some s else None)).
  destruct (fold_left _ r None); [reflexivity|]. destruct (str_eqb (qualified_name s) k); reflexivity.
Qed.

Lemma last_sym_cons k s r : last_sym k (s :: r) = match last_sym k r with Some x => Some x | None =>
  if str_eqb (qualified_name s) k then Some s else None end.
Proof. unfold last_sym at 1. cbn [fold_left]. apply last_sym_gen. Qed.

Lemma mget_insert_all l : forall (q : list (str * symbol)) k,
  mget str_eqb (fold_left (fun q s => minsert str_eqb q (qualified_name s) s) l q) k =
  match last_sym k l with Some s => Some s | None => mget str_eqb q k end.
Proof.
  induction l as [| s r IH]; intros q k; [reflexivity|]. cbn [fold_left]. rewrite IH, last_sym_cons.
  destruct (last_sym k r); [reflexivity|]. rewrite (mget_insert str_eqb str_eqb_spec).
  destruct (str_eqb (qualified_name s) k); reflexivity.
Qed.

Lemma last_sym_none k l : last_sym k l = None <-> forall s, In s l -> ~ named k s.
Proof.
  induction l as [| s r IH]; [split; [intros _ ? [] | reflexivity]|]. rewrite last_sym_cons.
  destruct (last_sym k r) eqn:E.
  - split; [discriminate|]. intros H. assert (G : Some s0 = None) by (apply IH; intros; apply H; now right). discriminate.
  - destruct (str_eqb (qualified_name s) k) eqn:Q.
    + apply str_eqb_spec in Q. split; [discriminate|]. intros H. exfalso. apply (H s); [now left | now apply named_iff].
    + split; [|reflexivity]. intros _ x [<- | Hx].
      * rewrite named_iff. intros G. apply str_eqb_spec in G. congruence.
      * apply IH; auto.
Qed.

Lemma last_sym_spec k l s : last_sym k l = Some s <-> last_named k l s.
Proof.
  revert s. induction l as [| x r IH]; intros s.
  - split; [discriminate|]. intros (l1 & l2 & E & _). destruct l1; discriminate.
  - rewrite last_sym_cons. destruct (last_sym k r) eqn:E.
    + split.
      * intros [= <-]. destruct (proj1 (IH s0) eq_refl) as (l1 & l2 & -> & H). exists (x :: l1), l2. now split.
      * intros (l1 & l2 & G & Hn & Hl). destruct l1 as [| y l1]; injection G as -> ->.
        -- assert (K := proj2 (last_sym_none k l2) Hl). congruence.
        -- apply IH. now exists l1, l2.
    + assert (K := proj1 (last_sym_none k r) E). destruct (str_eqb (qualified_name x) k) eqn:Q.
      * apply str_eqb_spec in Q. split.
        -- intros [= <-]. exists [], r. repeat split; [now apply named_iff | assumption].
        -- intros (l1 & l2 & G & Hn & Hl). destruct l1 as [| y l1]; injection G as -> ->; [reflexivity|].
           exfalso. apply (K s); [apply in_or_app; right; now left | assumption].
      * split; [discriminate|]. intros (l1 & l2 & G & Hn & Hl). destruct l1 as [| y l1]; injection G as -> ->.
        -- apply named_iff in Hn. apply str_eqb_spec in Hn. congruence.
        -- exfalso. apply (K s); [apply in_or_app; right; now left | assumption].
Qed.

Lemma files_current h : forall u, current h u (query_file (table_after h) u).
Proof.
  induction h as [| [v l] h IH]; intros u; [constructor|].
  unfold query_file in *. cbn [table_after fold_right]. unfold apply_update at 1, update_file_symbols. cbn [fst snd st_files].
  rewrite (mget_insert str_eqb str_eqb_spec). rewrite str_eqb_dec. destruct (list_eq_dec Z.eq_dec v u) as [-> | N]; constructor; auto.
Qed.

Lemma lookup_step h v l q : lookup (table_after ((v, l) :: h)) q =
  match last_sym q l with
  | Some s => Some s
  | None => if existsb (fun s => str_eqb (qualified_name s) q) (query_file (table_after h) v) then None
            else lookup (table_after h) q
  end.
Proof.
  unfold lookup at 1, query_file. cbn [table_after fold_right]. unfold apply_update at 1, update_file_symbols. cbn [fst snd st_qualified].
  rewrite mget_insert_all. destruct (last_sym q l); [reflexivity|].
  change (fold_right (fun (u : update) (t : symbol_table) => apply_update t u) table_new h) with (table_after h).
  destruct (mget str_eqb (st_files (table_after h)) v); [apply mget_remove_all | reflexivity].
Qed.

Lemma existsb_named q l : existsb (fun s => str_eqb (qualified_name s) q) l = true <-> exists s, In s l /\ named q s.
Proof.
  rewrite existsb_exists. split; intros (s & Hi & Hs); exists s; (split; [assumption|]).
  - apply named_iff. now apply str_eqb_spec.
  - apply str_eqb_spec. now apply named_iff.
Qed.

Lemma lookup_sound h q s : lookup (table_after h) q = Some s -> exists u l, current h u l /\ In s l /\ named q s.
Proof.
  revert s. induction h as [| [v l] h IH]; intros s; [discriminate|]. rewrite lookup_step.
  destruct (last_sym q l) eqn:E.
  - intros [= <-]. apply last_sym_spec in E. destruct E as (l1 & l2 & -> & Hn & _).
    exists v, (l1 ++ s0 :: l2). repeat split; [constructor | apply in_or_app; right; now left | assumption].
  - destruct (existsb _ _) eqn:X; [discriminate|]. intros H. destruct (IH s H) as (u & lu & Hc & Hi & Hn).
    exists u, lu. repeat split; try assumption. constructor; [|assumption]. intros ->.
    assert (lu = query_file (table_after h) v) as -> by (eapply current_fun; [eassumption | apply files_current]).
    assert (G : existsb (fun s => str_eqb (qualified_name s) q) (query_file (table_after h) v) = true)
      by (apply existsb_named; now exists s).
    congruence.
Qed.

(** In a calm history no two files share a name. *)
Lemma calm_disjoint h : calm h -> forall u v lu lv q s s', u <> v -> current h u lu -> current h v lv ->
  In s lu -> In s' lv -> named q s -> ~ named q s'.
Proof.
  induction 1 as [| w l h Hh IH Hc]; intros u v lu lv q s s' N Hu Hv Hi Hi' Hn Hn'.
  - inv Hu. contradiction.
  - inversion Hu; subst; inversion Hv; subst; try contradiction.
    + eapply Hc; [| eassumption | eassumption | eassumption | eassumption | eassumption]. congruence.
    + eapply (Hc u); [| eassumption | exact Hi' | exact Hi | exact Hn' | exact Hn]. congruence.
    + eapply IH; [exact N | eassumption | eassumption | exact Hi | exact Hi' | exact Hn | exact Hn'].
Qed.

Lemma lookup_calm h : calm h -> forall q s, lookup (table_after h) q = Some s <-> exists u l, current h u l /\ last_named q l s.
Proof.
  induction 1 as [| v l h Hh IH Hc]; intros q s.
  - split; [discriminate|]. intros (u & l & Hu & (l1 & l2 & E & _)). inv Hu. destruct l1; discriminate.
  - assert (Hd := calm_disjoint _ (CalmCons v l h Hh Hc)).
    rewrite lookup_step. destruct (last_sym q l) eqn:E.
    + split.
      * intros [= <-]. exists v, l. split; [constructor | now apply last_sym_spec].
      * intros (u & lu & Hu & Hs). destruct (list_eq_dec Z.eq_dec u v) as [-> | N].
        -- inversion Hu; subst; [|contradiction]. apply last_sym_spec in Hs. congruence.
        -- exfalso. apply last_sym_spec in E. destruct E as (a & b & -> & Hn & _). destruct Hs as (a' & b' & -> & Hn' & _).
           eapply (Hd u v); [exact N | exact Hu | constructor | | | exact Hn' | exact Hn]; apply in_or_app; right; now left.
    + assert (K := proj1 (last_sym_none q l) E). destruct (existsb _ _) eqn:X.
      * apply existsb_named in X. destruct X as (x & Hx & Hnx). split; [discriminate|].
        intros (u & lu & Hu & (a & b & -> & Hn & _)). exfalso. inversion Hu; subst.
        -- apply (K s); [apply in_or_app; right; now left | assumption].
        -- eapply (calm_disjoint _ Hh u v); [eassumption | eassumption | apply files_current | | exact Hx | exact Hn | exact Hnx].
           apply in_or_app; right; now left.
      * rewrite IH. split; intros (u & lu & Hu & Hs).
        -- exists u, lu. split; [|assumption]. constructor; [|assumption]. intros ->.
           destruct Hs as (a & b & -> & Hn & _).
           assert (a ++ s :: b = query_file (table_after h) v) as G by (eapply current_fun; [eassumption | apply files_current]).
           assert (Y : existsb (fun s => str_eqb (qualified_name s) q) (query_file (table_after h) v) = true).
           { apply existsb_named. exists s. rewrite <- G. split; [apply in_or_app; right; now left | assumption]. }
           congruence.
        -- inversion Hu; subst.
           ++ exfalso. destruct Hs as (a & b & -> & Hn & _). apply (K s); [apply in_or_app; right; now left | assumption].
           ++ exists u, lu. now split.
Qed.

Lemma starts_with_spec p : forall s, starts_with s p = true <-> exists b, s = p ++ b.
Proof.
  induction p as [| a p IH]; intros s.
  - destruct s; cbn; split; intros; try reflexivity; eexists; reflexivity.
  - destruct s as [| b s]; cbn.
    + split; [discriminate | intros (x & H); discriminate].
    + rewrite andb_true_iff, IH, Z.eqb_eq. split.
      * intros [-> (x & ->)]. now exists x.
      * intros (x & [= -> ->]). split; [reflexivity | now exists x].
Qed.

Lemma contains_spec s p : contains s p = true <-> substring p s.
Proof.
  unfold substring. induction s as [| c s IH]; cbn [contains]; rewrite orb_true_iff, starts_with_spec.
  - split.
    + intros [(b & E) | H]; [|discriminate]. exists [], b. assumption.
    + intros (a & b & E). left. destruct a; [now exists b | discriminate].
  - rewrite IH. split.
    + intros [(b & E) | (a & b & ->)]; [now exists [], b | now exists (c :: a), b].
    + intros ([| x a] & b & E); [left; now exists b | right]. injection E as -> ->. now exists a, b.
Qed.

Lemma nodup_remove (q : list (str * symbol)) k : NoDup (map fst q) -> NoDup (map fst (mremove str_eqb q k)).
Proof.
  unfold mremove. induction q as [| [k' v] r IH]; intros H; [constructor|]. cbn [map fst] in H. inv H.
  cbn [filter fst]. destruct (str_eqb k' k); cbn [negb]; [now apply IH|]. cbn [map fst]. constructor; [|now apply IH].
  intros Hi. apply H2. apply in_map_iff in Hi. destruct Hi as (p & <- & Hp). apply filter_In in Hp. now apply in_map.
Qed.

Lemma nodup_insert (q : list (str * symbol)) k v : NoDup (map fst q) -> NoDup (map fst (minsert str_eqb q k v)).
Proof.
  intros H. unfold minsert. cbn [map fst]. constructor; [|now apply nodup_remove].
  intros Hi. apply in_map_iff in Hi. destruct Hi as ([k' v'] & E & Hp). cbn in E. subst k'. apply filter_In in Hp. cbn in Hp.
  destruct Hp as [_ Hp]. rewrite (eqb_refl str_eqb str_eqb_spec) in Hp. discriminate.
Qed.

Lemma nodup_after h : NoDup (map fst (st_qualified (table_after h))).
Proof.
  induction h as [| [u l] h IH]; [constructor|]. cbn [table_after fold_right]. unfold apply_update at 1, update_file_symbols. cbn [fst snd st_qualified].
  change (fold_right (fun (u : update) (t : symbol_table) => apply_update t u) table_new h) with (table_after h).
  assert (G : forall l q, NoDup (map fst q) ->
    NoDup (map fst (fold_left (fun q s => minsert str_eqb q (qualified_name s) s) l q))).
  { clear. induction l as [| s l IH]; intros q H; [assumption|]. cbn [fold_left]. apply IH. now apply nodup_insert. }
  apply G. destruct (mget str_eqb (st_files (table_after h)) u) as [old|]; [|assumption].
  clear -IH. revert IH. generalize (st_qualified (table_after h)). induction old as [| s old IH']; intros q H; [assumption|].
  cbn [fold_left]. apply IH'. now apply nodup_remove.
Qed.

Lemma mget_in (q : list (str * symbol)) k v : NoDup (map fst q) -> In (k, v) q <-> mget str_eqb q k = Some v.
Proof.
  induction q as [| [k' v'] r IH]; intros H; [split; [contradiction | discriminate]|].
  cbn [map fst] in H. inv H. cbn [In mget]. destruct (str_eqb k' k) eqn:E.
  - apply str_eqb_spec in E. subst k'. split.
    + intros [[= ->] | Hi]; [reflexivity|]. exfalso. apply H2. now apply (in_map fst) in Hi.
    + intros [= ->]. now left.
  - rewrite <- IH by assumption. split; [|now right]. intros [[= -> ->] | Hi]; [|assumption].
    rewrite (eqb_refl str_eqb str_eqb_spec) in E. discriminate.
Qed.

Lemma query_lookup h p s : In s (query (table_after h) p) <-> exists q, substring p q /\ lookup (table_after h) q = Some s.
Proof.
  unfold query. rewrite in_map_iff. split.
  - intros ([k v] & E & Hi). cbn in E. subst v. apply filter_In in Hi. destruct Hi as [Hi Hc]. cbn in Hc.
    exists k. split; [now apply contains_spec | apply mget_in; [apply nodup_after | assumption]].
  - intros (q & Hs & Hl). exists (q, s). split; [reflexivity|]. apply filter_In. split.
    + apply mget_in; [apply nodup_after | assumption].
    + now apply contains_spec.
Qed.

(** ** Document symbols *)
Section Symbols.
  Variables (is_definition is_name : nat -> bool) (debug_kind : nat -> str) (text_in : nat -> nat -> str) (uri : str).
  Notation collect := (collect_symbols is_definition is_name debug_kind text_in uri).
  Notation dname := (definition_name is_name debug_kind text_in).
  Notation symof := (symbol_of is_definition is_name debug_kind text_in uri).
  Notation defs := (defines is_definition).

  Fixpoint glay {A} (f : green -> nat -> list A) (off : nat) (ch : list green) : list A :=
    match ch with [] => [] | c :: r => f c off ++ glay f (off + glen c) r end.

  Lemma glay_lay {A} (f : green -> nat -> list A) ch : Forall built ch -> forall off, glay f off ch = lay f off ch.
  Proof. induction 1; intros off; [reflexivity|]. cbn [glay lay]. rewrite glen_width by assumption. now rewrite IHForall. Qed.

  Lemma collect_eq k n ch off c : collect (GNode k n ch) off c =
    if is_definition k then
      let name := match first_name is_name text_in ch off with Some s => s | None => [60%Z] ++ debug_kind k ++ [62%Z] end in
      Symbol name uri (off, off + n) c :: glay (fun t o => collect t o (Some name)) off ch
    else glay (fun t o => collect t o c) off ch.
  Proof.
    assert (G : forall c ch off,
      (fix go (ch : list green) (off : nat) : list symbol :=
             match ch with
             | [] => []
             | t :: r => collect t off c ++ go r (off + glen t)
             end) ch off = glay (fun t o => collect t o c) off ch).
    { clear. intros c. induction ch as [| t r IH]; intros off; [reflexivity|]. cbn [glay]. now rewrite IH. }
    cbn [collect_symbols]. destruct (is_definition k); cbn zeta; rewrite G; reflexivity.
  Qed.

  Lemma scoped_eq t off around : scoped t off around =
    (t, off, around) :: match t with GLeaf _ _ _ => [] | GNode _ _ ch => lay (fun c o => scoped c o ((t, off) :: around)) off ch end.
  Proof.
    destruct t as [k n m | k n ch]; [reflexivity|]. cbn [scoped]. f_equal. cbn zeta. generalize ((GNode k n ch, off) :: around). intros l.
    revert off. induction ch as [| c r IH]; intros off; [reflexivity|]. cbn [lay]. now rewrite IH.
  Qed.

  Lemma first_name_spec ch : Forall built ch -> forall off,
    first_name is_name text_in ch off =
    match find (fun c => negb (is_node (fst c)) && is_name (gkind_of (fst c))) (lay (fun c o => [(c, o)]) off ch) with
    | Some (c, o) => Some (text_in o (o + width c))
    | None => None
    end.
  Proof.
    induction 1 as [| c r Hb Hr IH]; intros off; [reflexivity|].
    destruct c as [k n m | k n ch]; cbn [first_name lay app find fst is_node gkind_of negb andb].
    - destruct (is_name k); [reflexivity|]. rewrite IH. reflexivity.
    - rewrite IH. assert (E := glen_width _ Hb). cbn [glen] in E. rewrite E. reflexivity.
  Qed.

  Lemma definition_name_eq k n ch off : Forall built ch -> dname (GNode k n ch) off =
    match first_name is_name text_in ch off with Some s => s | None => [60%Z] ++ debug_kind k ++ [62%Z] end.
  Proof.
    intros Hb. unfold definition_name, children_at. rewrite first_name_spec by assumption.
    destruct (find _ _) as [[c o]|]; reflexivity.
  Qed.

  Definition context (around : list (green * nat)) : option str :=
    match find (fun a => defs (fst a)) around with Some (d, o) => Some (dname d o) | None => None end.

  Lemma collect_spec t : built t -> forall off around,
    collect t off (context around) = map symof (filter (fun e => defs (fst (fst e))) (scoped t off around)).
  Proof.
    revert t. apply (built_ind' (fun t => forall off around,
      collect t off (context around) = map symof (filter (fun e => defs (fst (fst e))) (scoped t off around)))).
    - reflexivity.
    - intros k ch Hb IH off around. rewrite collect_eq, scoped_eq. cbn [filter fst]. unfold defines at 1. cbn [is_node gkind_of andb].
      assert (G : forall c around ch off, Forall built ch ->
        Forall (fun t => forall off around, collect t off (context around) = map symof (filter (fun e => defs (fst (fst e))) (scoped t off around))) ch ->
        context around = c ->
        glay (fun t o => collect t o c) off ch =
        map symof (filter (fun e => defs (fst (fst e))) (lay (fun t o => scoped t o around) off ch))).
      { clear. intros c around. induction ch as [| t r IHr]; intros off Hb IH E; [reflexivity|]. inversion Hb; inversion IH; subst.
        cbn [glay lay]. rewrite filter_app, map_app, glen_width by assumption. f_equal; [apply H5 | now apply IHr]. }
      destruct (is_definition k) eqn:D; cbn zeta.
      + cbn [map]. f_equal.
        * unfold symbol_of. rewrite definition_name_eq by assumption. unfold context. f_equal. cbn [width]. rewrite sum_len_width by assumption. reflexivity.
        * apply G; [assumption | assumption|]. unfold context. cbn [find fst]. unfold defines at 1. cbn [is_node gkind_of andb]. rewrite D.
          now rewrite definition_name_eq.
      + apply G; [assumption | assumption|]. unfold context. cbn [find fst]. unfold defines at 1. cbn [is_node gkind_of andb]. now rewrite D.
  Qed.
End Symbols.

Lemma scoped_elements t : forall off around, map fst (scoped t off around) = elements t off.
Proof.
  induction t as [k n m | k n ch IH] using green_ind'; intros off around; [reflexivity|].
  rewrite scoped_eq, elements_eq. cbn [map fst]. f_equal. rewrite map_lay.
  assert (G : forall (l : list (green * nat)) ch off, Forall (fun t => forall off around, map fst (scoped t off around) = elements t off) ch ->
    lay (fun c o => map fst (scoped c o l)) off ch = lay elements off ch).
  { clear. intros l. induction ch as [| c r IHr]; intros off H; [reflexivity|]. inv H. cbn [lay]. f_equal; auto. }
  now apply G.
Qed.

(** ** References *)
Section References.
  Variables (is_name : nat -> bool) (source name : str).
  Notation vt := (visit_token is_name name source).

  Definition leaf_of (p : green * nat) : list (nat * nat * nat) :=
    match fst p with GLeaf k n _ => [(k, snd p, snd p + n)] | GNode _ _ _ => [] end.

  Lemma leaves_elements t : forall off, leaves t off = flat_map leaf_of (elements t off).
  Proof.
    induction t as [k n m | k n ch IH] using green_ind'; intros off; [reflexivity|].
    rewrite leaves_eq, elements_eq. cbn [flat_map leaf_of fst app]. revert off.
    induction IH as [| c r Hc Hr IHr]; intros off; [reflexivity|]. cbn [lay]. now rewrite flat_map_app, Hc, IHr.
  Qed.

  Definition readable (l : nat * nat * nat) : Prop :=
    let '(k, a, b) := l in is_name k = true -> str_get source a b <> None.

  Lemma str_get_substr s a b t : str_get s a b = Some t -> t = substr s a b.
  Proof. unfold str_get. destruct (_ && _); intros H; inversion H; reflexivity. Qed.

  Lemma fold_tokens els : (forall l, In l (flat_map leaf_of els) -> readable l) -> forall acc,
    fold_left vt (map as_red els) (Some acc) =
    Some (acc ++ map leaf_span (filter (refers is_name source name) (flat_map leaf_of els))).
  Proof.
    induction els as [| [t o] r IH]; intros H acc; [cbn; now rewrite app_nil_r|].
    cbn [map fold_left flat_map] in *. rewrite filter_app, map_app.
    destruct t as [k n m | k n ch]; unfold as_red at 2; cbn [fst snd red_of visit_token leaf_of] in *.
    - cbn [filter]. unfold refers at 1. cbn [app] in H. assert (R := H (k, o, o + n) (or_introl eq_refl)). cbn in R.
      destruct (is_name k) eqn:K.
      + destruct (str_get source o (o + n)) as [t|] eqn:E; [|now elim R].
        rewrite (str_get_substr _ _ _ _ E). cbn [andb]. rewrite str_eqb_dec. destruct (list_eq_dec Z.eq_dec _ _).
        * rewrite IH by (intros; apply H; now right). rewrite <- app_assoc. reflexivity.
        * rewrite IH by (intros; apply H; now right). reflexivity.
      + cbn [andb map app]. rewrite IH by (intros; apply H; now right). reflexivity.
    - apply IH. assumption.
  Qed.

  Lemma fold_none els : fold_left vt els None = None.
  Proof. induction els; [reflexivity|]. cbn [fold_left]. destruct a; assumption. Qed.

  Lemma fold_panics els l : In l (flat_map leaf_of els) -> ~ readable l -> forall acc, fold_left vt (map as_red els) acc = None.
  Proof.
    induction els as [| [t o] r IH]; intros Hi Hn acc; [contradiction|]. cbn [flat_map map fold_left] in *.
    apply in_app_or in Hi. destruct Hi as [Hi | Hi]; [|now apply IH].
    destruct t as [k n m | k n ch]; [|contradiction]. destruct Hi as [<- | []]. unfold as_red at 2. cbn [fst snd red_of].
    destruct acc as [acc|]; cbn [visit_token]; [|apply fold_none]. cbn in Hn. destruct (is_name k); [|now elim Hn].
    destruct (str_get source o (o + n)); [elim Hn; discriminate | apply fold_none].
  Qed.

  Lemma find_references_spec fuel root : built root -> depth root <= fuel ->
    (forall l, In l (leaves root 0) -> readable l) ->
    find_references is_name name source fuel root = Some (map leaf_span (filter (refers is_name source name) (leaves root 0))).
  Proof.
    intros Hb Hd Hr. unfold find_references. rewrite visit_spec by assumption. rewrite leaves_elements in *.
    rewrite fold_tokens by assumption. reflexivity.
  Qed.

  Lemma find_references_panics fuel root l : built root -> depth root <= fuel -> In l (leaves root 0) -> ~ readable l ->
    find_references is_name name source fuel root = None.
  Proof.
    intros Hb Hd Hi Hn. unfold find_references. rewrite visit_spec by assumption. rewrite leaves_elements in Hi.
    now apply fold_panics with l.
  Qed.

  Lemma refers_nonempty l : name <> [] -> refers is_name source name l = true -> fst (leaf_span l) < snd (leaf_span l).
  Proof.
    destruct l as [[k a] b]. unfold refers, leaf_span. cbn [fst snd]. intros Hn H. apply andb_true_iff in H. destruct H as [_ H].
    destruct (list_eq_dec Z.eq_dec _ _) as [E|]; [|discriminate]. destruct (Nat.ltb_spec a b) as [|L]; [assumption|].
    exfalso. apply Hn. rewrite <- E. unfold substr. replace (b - a) with 0 by lia. reflexivity.
  Qed.

  Lemma references_nodup a ls b : name <> [] -> tiles leaf_span a ls b ->
    NoDup (map leaf_span (filter (refers is_name source name) ls)) /\
    forall p, In p (map leaf_span (filter (refers is_name source name) ls)) -> a <= fst p /\ fst p < snd p.
  Proof.
    intros Hn. induction 1 as [a | a x l e E1 E2 E3 [IH1 IH2]]; [split; [constructor | intros ? []]|].
    cbn [filter]. destruct (refers is_name source name x) eqn:R.
    - assert (L := refers_nonempty _ Hn R). cbn [map]. split.
      + constructor; [|assumption]. intros Hi. apply IH2 in Hi. lia.
      + intros p [<- | Hp]; [lia|]. apply IH2 in Hp. lia.
    - split; [assumption|]. intros p Hp. apply IH2 in Hp. lia.
  Qed.
End References.

(** ** Paths *)
Definition keep (c : str) : bool := negb (str_eqb c []) && negb (str_eqb c [46%Z]).

Lemma split_app n : ~ In 47%Z n -> forall p cur, split_slash (n ++ p) cur = split_slash p (cur ++ n).
Proof.
  induction n as [| c n IH]; intros H p cur; [now rewrite app_nil_r|]. cbn [app split_slash].
  destruct (Z.eqb_spec c 47) as [-> | N]; [elim H; now left|]. rewrite IH by (intros G; apply H; now right).
  now rewrite <- app_assoc.
Qed.

Lemma components_eq p : components p = filter keep (split_slash p []).
Proof. reflexivity. Qed.

Lemma components_ends p cur : ends_name p ->
  filter keep (split_slash p cur) = (if keep cur then [cur] else []) ++ components p.
Proof.
  destruct p as [| c p]; cbn [ends_name]; intros H.
  - cbn. destruct (keep cur); reflexivity.
  - subst c. rewrite components_eq. cbn [split_slash]. change (47 =? 47)%Z with true. cbv iota. cbn [filter]. change (keep []) with false. cbv iota. destruct (keep cur); reflexivity.
Qed.

Lemma keep_name n : keep n = true <-> n <> [] /\ n <> lit ".".
Proof.
  unfold keep. rewrite andb_true_iff, !negb_true_iff. change (lit ".") with [46%Z]. split; intros [A B].
  - split; intros ->; [now rewrite (eqb_refl str_eqb str_eqb_spec) in A | now rewrite (eqb_refl str_eqb str_eqb_spec) in B].
  - split; apply not_true_iff_false; rewrite str_eqb_spec; assumption.
Qed.

Lemma names_components p l : names p l -> components p = l.
Proof.
  induction 1 as [| p l H IH | p l He H IH | n p l N1 N2 N3 He H IH].
  - reflexivity.
  - exact IH.
  - rewrite components_eq. cbn [split_slash]. change (46 =? 47)%Z with false. cbv iota. cbn [app].
    rewrite components_ends by assumption. exact IH.
  - rewrite components_eq, split_app by assumption. cbn [app].
    rewrite components_ends by assumption.
    rewrite (proj2 (keep_name n)) by now split. cbn [app]. now rewrite IH.
Qed.

Lemma take_name p : exists n r, p = n ++ r /\ ~ In 47%Z n /\ ends_name r.
Proof.
  induction p as [| c p (n & r & -> & H1 & H2)]; [exists [], []; repeat split; auto|].
  destruct (Z.eq_dec c 47) as [-> | N].
  - exists [], (47%Z :: n ++ r). repeat split; auto.
  - exists (c :: n), r. repeat split; auto. intros [E | G]; [congruence | contradiction].
Qed.

Lemma components_names p : names p (components p).
Proof.
  remember (length p) as n eqn:L. assert (Hn : length p <= n) by lia. clear L. revert p Hn.
  induction n as [| n IH]; intros p Hn.
  - destruct p; [constructor | cbn in Hn; lia].
  - destruct (take_name p) as (a & r & -> & H1 & H2). rewrite app_length in Hn.
    destruct a as [| c a].
    + destruct r as [| d r]; [constructor|]. cbn in H2. subst d. cbn [app]. apply NSlash.
      change (components (47%Z :: r)) with (components r). apply IH. cbn in Hn. lia.
    + rewrite components_eq, split_app by assumption. cbn [app].
      rewrite components_ends by assumption. destruct (keep (c :: a)) eqn:K.
      * apply keep_name in K. destruct K. cbn [app]. change (c :: a ++ r) with ((c :: a) ++ r).
        apply NName; try assumption. apply IH. cbn in Hn. lia.
      * assert (E : c :: a = [46%Z]).
        { unfold keep in K. destruct (str_eqb (c :: a) [46%Z]) eqn:S; [now apply str_eqb_spec in S | cbn in K; discriminate]. }
        injection E as -> ->. cbn [app]. apply NDot; [assumption|]. apply IH. cbn in Hn. lia.
Qed.

Lemma names_iff p l : names p l <-> components p = l.
Proof. split; [apply names_components | intros <-; apply components_names]. Qed.

Lemma comps_prefix_spec a : forall b, comps_prefix a b = true <-> exists r, b = a ++ r.
Proof.
  induction a as [| x a IH]; intros b.
  - cbn. split; intros; [now exists b | reflexivity].
  - destruct b as [| y b]; cbn.
    + split; [discriminate | intros (r & E); discriminate].
    + rewrite andb_true_iff, IH, str_eqb_spec. split.
      * intros [-> (r & ->)]. now exists r.
      * intros (r & [= -> ->]). split; [reflexivity | now exists r].
Qed.

Lemma inside_iff path folder : inside path folder <-> path_starts_with path folder = true.
Proof.
  unfold inside, path_starts_with. rewrite comps_prefix_spec. split.
  - intros (l & r & H1 & H2). apply names_iff in H1, H2. exists r. congruence.
  - intros (r & E). exists (components folder), r. split; [apply components_names | rewrite <- E; apply components_names].
Qed.

Lemma deeper_iff p q : deeper p q <-> length (components q) < length (components p).
Proof.
  unfold deeper. split.
  - intros (l & m & H1 & H2 & L). apply names_iff in H1, H2. now subst.
  - intros L. exists (components p), (components q). repeat split; try apply components_names. assumption.
Qed.

Lemma tidy_names p : tidy p -> exists l, names p l /\ Forall (fun n => n <> []) l /\
  list_sum (map (fun n => S (length n)) l) <= length p /\ length p <= S (list_sum (map (fun n => S (length n)) l)).
Proof.
  intros (l & Hl & Hp). exists l.
  assert (G : forall e, names e [] -> ends_name e -> names (flat_map (fun n => 47%Z :: n) l ++ e) l /\ ends_name (flat_map (fun n => 47%Z :: n) l ++ e)).
  { clear Hp. intros e He Ee. induction Hl as [| n l (N1 & N2 & N3) Hl IH]; [split; assumption|]. destruct IH as [I1 I2]. cbn [flat_map]. split; [|reflexivity].
    cbn [app]. apply NSlash. rewrite <- app_assoc. now apply NName. }
  assert (L : length (flat_map (fun n => 47%Z :: n) l) = list_sum (map (fun n => S (length n)) l)).
  { clear. induction l as [| n l IH]; [reflexivity|]. cbn [flat_map map]. rewrite app_length, list_sum_cons, IH. reflexivity. }
  assert (F : Forall (fun n => n <> []) l) by (eapply Forall_impl; [|exact Hl]; cbn; tauto).
  destruct Hp as [-> | ->].
  - destruct (G [] NEnd I) as [G1 _]. rewrite app_nil_r in G1. repeat split; try assumption; lia.
  - destruct (G (lit "/") (NSlash _ _ NEnd) eq_refl) as [G1 _]. repeat split; try assumption; rewrite app_length; cbn [length lit]; rewrite L; cbn; lia.
Qed.

(** Among tidy folders containing a path, the deeper one is longer. *)
Lemma tidy_longer path p q : tidy p -> tidy q -> inside path p -> inside path q -> deeper p q -> length q < length p.
Proof.
  intros Hp Hq Ip Iq D. destruct (tidy_names _ Hp) as (l & Nl & Fl & L1 & L2). destruct (tidy_names _ Hq) as (m & Nm & Fm & M1 & M2).
  apply names_iff in Nl, Nm. apply deeper_iff in D. rewrite Nl, Nm in D.
  apply inside_iff in Ip, Iq. unfold path_starts_with in *. rewrite comps_prefix_spec in Ip, Iq.
  destruct Ip as (r & E), Iq as (r' & E'). rewrite Nl in E. rewrite Nm in E'. rewrite E in E'.
  assert (G : exists x, l = m ++ x).
  { clear -E' D. revert l D E'. induction m as [| a m IH]; intros [| b l] D E; cbn in *; try lia; [now exists (b :: l) |].
    injection E as -> E. destruct (IH l) as (x & ->); [lia | assumption | now exists x]. }
  destruct G as (x & ->). rewrite app_length in D. destruct x as [| a x]; [cbn in D; lia|].
  rewrite map_app, list_sum_app in L1. cbn [map] in L1. rewrite list_sum_cons in L1.
  apply Forall_app in Fl. destruct Fl as [_ Fl]. inv Fl. destruct a; [congruence|]. cbn [length] in L1. unfold str in *. lia.
Qed.

Section Roots.
  Variable path : str.
  Notation step := (root_step path).
  Definition held (folders : list (str * str)) (b : option (str * nat)) : Prop :=
    match b with
    | Some (u, n) => exists p, In (u, p) folders /\ inside path p /\ n = length p /\
                       forall u' p', In (u', p') folders -> inside path p' -> length p' <= length p
    | None => forall u' p', In (u', p') folders -> ~ inside path p'
    end.

  Lemma held_step fs b e : held fs b -> held (fs ++ [e]) (step b e).
  Proof.
    destruct e as [u p]. intros H. unfold root_step. cbn [fst snd]. destruct (path_starts_with path p) eqn:S.
    - assert (I := proj2 (inside_iff path p) S). destruct b as [[bu bn]|]; cbn [held] in *.
      + destruct H as (q & Hi & Hq & -> & Hm). destruct (Nat.ltb_spec (length q) (length p)) as [L | L]; cbn [held].
        * exists p. repeat split; [apply in_or_app; right; now left | assumption|]. intros u' p' Hi' I'.
          apply in_app_or in Hi'. destruct Hi' as [Hi' | [[= <- <-] | []]]; [|lia]. specialize (Hm _ _ Hi' I'). lia.
        * exists q. repeat split; [apply in_or_app; now left | assumption|]. intros u' p' Hi' I'.
          apply in_app_or in Hi'. destruct Hi' as [Hi' | [[= <- <-] | []]]; [|lia]. exact (Hm _ _ Hi' I').
      + exists p. repeat split; [apply in_or_app; right; now left | assumption|]. intros u' p' Hi' I'.
        apply in_app_or in Hi'. destruct Hi' as [Hi' | [[= <- <-] | []]]; [|lia]. elim (H _ _ Hi' I').
    - assert (I : ~ inside path p) by (rewrite inside_iff, S; discriminate).
      destruct b as [[bu bn]|]; cbn [held] in *.
      + destruct H as (q & Hi & Hq & -> & Hm). exists q. repeat split; [apply in_or_app; now left | assumption|]. intros u' p' Hi' I'.
        apply in_app_or in Hi'. destruct Hi' as [Hi' | [[= <- <-] | []]]; [|contradiction]. exact (Hm _ _ Hi' I').
      + intros u' p' Hi'. apply in_app_or in Hi'. destruct Hi' as [Hi' | [[= <- <-] | []]]; [now apply (H u') | assumption].
  Qed.

  Lemma held_fold l : forall fs b, held fs b -> held (fs ++ l) (fold_left step l b).
  Proof.
    induction l as [| e l IH]; intros fs b H; [now rewrite app_nil_r|]. cbn [fold_left].
    replace (fs ++ e :: l) with ((fs ++ [e]) ++ l) by now rewrite <- app_assoc. apply IH. now apply held_step.
  Qed.

  Lemma held_all l : held l (fold_left step l None).
  Proof. change l with ([] ++ l) at 1. apply held_fold. cbn. contradiction. Qed.
End Roots.

Lemma find_root_spec to_path folders uri path : to_path uri = Some path ->
  match find_root to_path folders uri with
  | Some u => exists p, In (u, p) folders /\ inside path p /\
                forall u' p', In (u', p') folders -> inside path p' -> length p' <= length p
  | None => forall u' p', In (u', p') folders -> ~ inside path p'
  end.
Proof.
  intros E. unfold find_root. rewrite E. assert (H := held_all path folders).
  destruct (fold_left (root_step path) folders None) as [[u n]|]; cbn [option_map fst held] in *; [|assumption].
  destruct H as (p & H1 & H2 & _ & H3). now exists p.
Qed.
