From Verif Require Import Base Utf8 LexModel TreeModel TreeSpec TreeProofs ParserModel ParserSpec
  ParserProofs PrattSpec PrattProofs ExprModel ExprSpec.

(** ** Trees *)
Section Trees.
  Variable T : optable.

  Definition bound (x : oper) : nat :=
    match x with
    | OBin o => match op_in T o with Some (p, ARight) => p | Some (p, _) => S p | None => 1 end
    | _ => oprec T x
    end.

  Lemma holds_bound : forall x y, holds T x y <-> oprec T y < bound x.
  Proof.
    intros x y. unfold holds, infix_oper, to_right. destruct x as [o|o|o|o]; unfold bound; try (intuition lia).
    generalize (oprec T y). intros v. cbn [oprec]. destruct (op_in T o) as [[p []]|]; intuition lia.
  Qed.
  Lemma inside_bound : forall x y, inside T x y <-> bound x <= oprec T y.
  Proof.
    intros x y. unfold inside, infix_oper, to_right. destruct x as [o|o|o|o]; unfold bound; try (intuition lia).
    generalize (oprec T y). intros v. cbn [oprec]. destruct (op_in T o) as [[p []]|]; intuition lia.
  Qed.

  Inductive pitem := IPost (o : nat) | IIndex (o : nat) (i : exp) (c : nat) | IBin (o : nat) (t : exp).
  Definition wrap (it : pitem) (e : exp) : exp :=
    match it with IPost o => EPost e o | IIndex o i c => EIndex e o i c | IBin o t => EBin o e t end.
  Definition iop (it : pitem) : oper :=
    match it with IPost o => OPost o | IIndex o _ _ => OIndex o | IBin o _ => OBin o end.
  Definition ispell (it : pitem) : list nat :=
    match it with IPost o => [o] | IIndex o i c => o :: spelled i ++ [c] | IBin o t => o :: spelled t end.
  Definition iok (it : pitem) : Prop :=
    match it with IPost _ => True | IIndex _ i _ => well T i | IBin _ t => well T t /\ left_edge t = [] end.
  Definition ilaw (it : pitem) : Prop :=
    match it with
    | IPost o => op_post T o <> None
    | IIndex o i c => op_post T o = None /\ (exists p, op_index T o = Some (p, c)) /\ no_operator T c /\ lawful T i
    | IBin o t => op_post T o = None /\ op_index T o = None /\ op_in T o <> None /\ lawful T t
    end.

  Definition accepts (e : exp) (y : oper) : bool := existsb (fun x => bound x <=? oprec T y) (right_edge e).

  Fixpoint ins (it : pitem) (e : exp) : exp :=
    if accepts e (iop it)
    then match e with
         | EPre o x => EPre o (ins it x)
         | EBin o l r => EBin o l (ins it r)
         | _ => wrap it e
         end
    else wrap it e.

  Lemma wrap_left : forall it e, left_edge (wrap it e) = iop it :: left_edge e.
  Proof. intros [o|o i c|o t] e; reflexivity. Qed.

  Lemma ins_left : forall it e, left_edge (ins it e) = if accepts e (iop it) then left_edge e else iop it :: left_edge e.
  Proof.
    intros it e. destruct e; cbn [ins];
      match goal with |- context [accepts ?a ?b] => destruct (accepts a b) eqn:A end;
      try apply wrap_left; try (cbn in A; discriminate A); reflexivity.
  Qed.

  Lemma not_accepts : forall e y, accepts e y = false -> Forall (fun x => holds T x y) (right_edge e).
  Proof.
    intros e y H. apply Forall_forall. intros x Hx. apply holds_bound.
    destruct (Nat.leb_spec (bound x) (oprec T y)) as [L|L]; [|exact L]. exfalso.
    assert (X : accepts e y = true) by (apply existsb_exists; exists x; split; [exact Hx | now apply Nat.leb_le]).
    congruence.
  Qed.

  Lemma wrap_well : forall it e, iok it -> well T e -> accepts e (iop it) = false -> well T (wrap it e).
  Proof.
    intros it e Hi He H. apply not_accepts in H. destruct it as [o|o i c|o t]; cbn in *; auto.
    destruct Hi as [H1 H2]. rewrite H2. auto.
  Qed.

  Lemma ins_inside : forall it r x, Forall (inside T x) (left_edge r) ->
    (accepts r (iop it) = false -> inside T x (iop it)) -> Forall (inside T x) (left_edge (ins it r)).
  Proof.
    intros it r x H1 H2. rewrite ins_left. destruct (accepts r (iop it)); [exact H1|]. constructor; auto.
  Qed.

  Lemma ins_well : forall it e, iok it -> well T e -> well T (ins it e).
  Proof.
    intros it e Hi. induction e as [k|o e IH c|o e IH|e IH o|e IHe o i IHi c|o l IHl r IHr]; intros H; cbn [ins];
      match goal with |- context [accepts ?a ?b] => destruct (accepts a b) eqn:A end;
      try (apply wrap_well; assumption); try (cbn in A; discriminate).
    - destruct H as [H1 H2]. cbn [well]. split; [auto|]. apply ins_inside; [exact H2|]. intros E.
      unfold accepts in *. cbn [right_edge existsb] in A. rewrite E, orb_false_r in A.
      apply inside_bound. now apply Nat.leb_le in A.
    - destruct H as (H1 & H2 & H3 & H4). cbn [well]. split; [exact H1|]. split; [auto|]. split; [exact H3|].
      apply ins_inside; [exact H4|]. intros E.
      unfold accepts in *. cbn [right_edge existsb] in A. rewrite E, orb_false_r in A.
      apply inside_bound. now apply Nat.leb_le in A.
  Qed.

  Lemma wrap_spell : forall it e, spelled (wrap it e) = spelled e ++ ispell it.
  Proof. intros [o|o i c|o t] e; reflexivity. Qed.
  Lemma ins_spell : forall it e, spelled (ins it e) = spelled e ++ ispell it.
  Proof.
    intros it e. induction e as [k|o e IH c|o e IH|e IH o|e IHe o i IHi c|o l IHl r IHr]; cbn [ins];
      match goal with |- context [accepts ?a ?b] => destruct (accepts a b) eqn:A end;
      try apply wrap_spell.
    - cbn [spelled app]. now rewrite IH.
    - cbn [spelled]. rewrite IHr, <- app_assoc. reflexivity.
  Qed.
  Lemma wrap_law : forall it e, ilaw it -> lawful T e -> lawful T (wrap it e).
  Proof. intros [o|o i c|o t] e; cbn; tauto. Qed.
  Lemma ins_law : forall it e, ilaw it -> lawful T e -> lawful T (ins it e).
  Proof.
    intros it e Hi. induction e as [k|o e IH c|o e IH|e IH o|e IHe o i IHi c|o l IHl r IHr]; intros H; cbn [ins];
      match goal with |- context [accepts ?a ?b] => destruct (accepts a b) eqn:A end;
      try (apply wrap_law; assumption).
    - cbn in *. tauto.
    - cbn in *. tauto.
  Qed.

  Definition ins_all (is : list pitem) (e : exp) : exp := fold_left (fun e it => ins it e) is e.

  Lemma ins_all_ok : forall is e, Forall iok is -> Forall ilaw is -> well T e -> lawful T e ->
    well T (ins_all is e) /\ lawful T (ins_all is e) /\ spelled (ins_all is e) = spelled e ++ concat (map ispell is).
  Proof.
    induction is as [|it is IH]; intros e H1 H2 H3 H4; cbn.
    - rewrite app_nil_r. auto.
    - inversion H1; inversion H2; subst. destruct (IH (ins it e)) as (A & B & C); auto using ins_well, ins_law.
      split; [exact A|]. split; [exact B|]. unfold ins_all in C. rewrite C, ins_spell, <- app_assoc. reflexivity.
  Qed.

  Fixpoint lin (e : exp) : exp * list pitem :=
    match e with
    | EAtom k => (EAtom k, [])
    | EGroup o x c => (EGroup o (ins_all (snd (lin x)) (fst (lin x))) c, [])
    | EPre o x => (EPre o (fst (lin x)), snd (lin x))
    | EPost x o => (fst (lin x), snd (lin x) ++ [IPost o])
    | EIndex x o i c => (fst (lin x), snd (lin x) ++ [IIndex o (ins_all (snd (lin i)) (fst (lin i))) c])
    | EBin o l r => (fst (lin l), snd (lin l) ++ IBin o (fst (lin r)) :: snd (lin r))
    end.
  Definition regroup (e : exp) : exp := ins_all (snd (lin e)) (fst (lin e)).

  Lemma lin_ok : forall e, lawful T e ->
    well T (fst (lin e)) /\ left_edge (fst (lin e)) = [] /\ lawful T (fst (lin e)) /\
    Forall iok (snd (lin e)) /\ Forall ilaw (snd (lin e)) /\
    spelled e = spelled (fst (lin e)) ++ concat (map ispell (snd (lin e))).
  Proof.
    induction e as [k|o e IH c|o e IH|e IH o|e IHe o i IHi c|o l IHl r IHr]; intros H; cbn [lawful] in H.
    - cbn. auto 10.
    - destruct H as (H1 & H2 & H3 & H4). destruct (IH H4) as (A & B & C & D & E & F).
      destruct (ins_all_ok _ _ D E A C) as (X & Y & Z). cbn. rewrite Z, F, app_nil_r. auto 10.
    - destruct H as (H1 & H2). destruct (IH H2) as (A & B & C & D & E & F).
      cbn. rewrite F, B. auto 10.
    - destruct H as (H1 & H2). destruct (IH H2) as (A & B & C & D & E & F). cbn [lin fst snd].
      split; [exact A|]. split; [exact B|]. split; [exact C|].
      split; [apply Forall_app; split; [exact D | constructor; [exact I | constructor]]|].
      split; [apply Forall_app; split; [exact E | constructor; [exact H1 | constructor]]|].
      rewrite map_app, concat_app, app_assoc, <- F. reflexivity.
    - destruct H as (H1 & H2 & H3 & H4 & H5). destruct (IHe H4) as (A & B & C & D & E & F).
      destruct (IHi H5) as (A' & B' & C' & D' & E' & F').
      destruct (ins_all_ok _ _ D' E' A' C') as (X & Y & Z). cbn [lin fst snd].
      split; [exact A|]. split; [exact B|]. split; [exact C|].
      split; [apply Forall_app; split; [exact D | constructor; [exact X | constructor]]|].
      split; [apply Forall_app; split; [exact E | constructor; [cbn; auto | constructor]]|].
      rewrite map_app, concat_app, app_assoc, <- F. cbn [map concat ispell]. rewrite Z, <- F', app_nil_r. reflexivity.
    - destruct H as (H1 & H2 & H3 & H4 & H5). destruct (IHl H4) as (A & B & C & D & E & F).
      destruct (IHr H5) as (A' & B' & C' & D' & E' & F'). cbn [lin fst snd].
      split; [exact A|]. split; [exact B|]. split; [exact C|].
      split; [apply Forall_app; split; [exact D | constructor; [split; assumption | exact D']]|].
      split; [apply Forall_app; split; [exact E | constructor; [cbn; auto | exact E']]|].
      rewrite map_app, concat_app, app_assoc, <- F. cbn [map concat ispell spelled]. rewrite F'. reflexivity.
  Qed.

  Lemma regroup_ok : forall e, lawful T e -> well T (regroup e) /\ lawful T (regroup e) /\ spelled (regroup e) = spelled e.
  Proof.
    intros e H. destruct (lin_ok e H) as (A & B & C & D & E & F).
    destruct (ins_all_ok _ _ D E A C) as (X & Y & Z). unfold regroup. rewrite Z, <- F. auto.
  Qed.
End Trees.

(** A green tree depicts at most one expression. *)
Lemma depicts_node : forall ign K g e, depicts ign K g e -> exists k n ch, g = GNode k n ch.
Proof. intros ign K g e []; eauto. Qed.

Lemma depicts_unique : forall ign K g e, depicts ign K g e -> forall e', depicts ign K g e' -> e = e'.
Proof.
  intros ign K g e H. induction H; intros e' H'; inversion H'; subst;
    repeat match goal with
    | A : solid ign ?ch = _, B : solid ign ?ch = _ |- _ => rewrite A in B; clear A; try discriminate B; injection B; clear B; intros; subst
    end;
    repeat match goal with
    | X : depicts ign K (GLeaf _ _ _) _ |- _ => now inversion X
    end; f_equal; auto.
Qed.

(** ** The parser *)
Section Parse.
  Variable (ign : nat -> bool) (T : optable) (K : exprkinds) (toks : list token).
  Hypothesis Hfit : lengths_fit toks.
  Hypothesis Htot : total_fits toks.
  Hypothesis Htop : below_top T.

  Notation dep := (depicts ign K).
  Notation okst := (fun s => good toks False s /\ settled ign s).
  Notation run := (parse_expr ign T K TakeLeft).
  Notation ahead := (kinds_to_come ign).

  Lemma close_node : forall s base l i k, okst s -> ps_sink s = base ++ l ->
    exists n s', finish_at s (i, length base) k = Some ((Some (ps_next s), GNode k n (map snd l)), s') /\
      okst s' /\ ps_sink s' = base ++ [(Some (ps_next s), GNode k n (map snd l))] /\
      ahead s' = ahead s /\ ps_errs s' = ps_errs s.
  Proof.
    intros s base l i k [G S] Hs.
    destruct (finish_some ign 0 toks Htot s (length base) k G) as [n F]; [rewrite Hs, app_length; lia|].
    destruct (finish_good ign toks Hfit False _ _ _ _ _ G F) as (G' & _).
    rewrite Hs, skipn_app_len, firstn_app_len in F, G'.
    eexists n, _. split; [|split; [split; [exact G' | exact S]|]].
    - unfold finish_at in *. cbn [snd] in *. exact F.
    - cbn [ps_sink ps_errs]. auto.
  Qed.

  Lemma expect_bump : forall k s, at_kind s k = true -> snd (expect ign k s) = bump ign s.
  Proof. intros k s H. unfold expect, eat. now rewrite H. Qed.

  Lemma before_last : forall s l id g, ps_sink s = l ++ [(Some id, g)] -> checkpoint_before s id = (0, length l).
  Proof. intros s l id g H. unfold checkpoint_before. rewrite H, (find_last_end ign). reflexivity. Qed.

  (** The precedence with which a token can continue an expression. *)
  Definition cont (k : nat) : option nat :=
    match op_post T k with
    | Some p => Some p
    | None => match op_index T k with
              | Some (p, _) => Some p
              | None => match op_in T k with Some (p, _) => Some p | None => None end
              end
    end.
  Definition stops (min : nat) (rest : list nat) : Prop :=
    match rest with k :: _ => match cont k with Some p => p < min | None => True end | [] => True end.

  Lemma no_op_stops : forall m k r, no_operator T k -> stops m (k :: r).
  Proof. intros m k r (A & B & C). unfold stops, cont. now rewrite A, B, C. Qed.

  Lemma next_stop : forall min s, okst s -> stops min (ahead s) -> next_operator T min s = NStop.
  Proof.
    intros min s O St. unfold next_operator. rewrite (peek_head ign toks Hfit s O). unfold stops in St.
    destruct (ahead s) as [|k r]; [reflexivity|]. unfold cont in St.
    destruct (op_post T k) as [p|]; [destruct (Nat.ltb_spec p min); [reflexivity | lia]|].
    destruct (op_index T k) as [[p c]|]; [destruct (Nat.ltb_spec p min); [reflexivity | lia]|].
    destruct (op_in T k) as [[p a]|]; [destruct (Nat.ltb_spec p min); [reflexivity | lia]|]. reflexivity.
  Qed.

  Lemma loop_stops : forall f it min s, okst s -> stops min (ahead s) -> run (S f) (Some it) min s = Some (it, s).
  Proof. intros f it min s O St. cbn [parse_expr]. now rewrite (next_stop min s O St). Qed.

  Lemma next_prec_bound : forall o p a, op_in T o = Some (p, a) -> next_prec p a = Some (bound T (OBin o)).
  Proof.
    intros o p a H. unfold bound, next_prec. rewrite H. destruct (Htop _ _ _ H) as [->|L]; [reflexivity|].
    destruct a; try reflexivity; destruct (Nat.ltb_spec p 255); (reflexivity || lia).
  Qed.

  Lemma dep_solid : forall g e, dep g e -> trivia ign g = false.
  Proof. intros g e []; reflexivity. Qed.

  Definition reached (e : exp) (min : nat) (s : pstate) (rest : list nat) : Prop :=
    exists n N g id s', (forall f, N <= f -> run (n + f) None min s = run f (Some (Some id, g)) min s') /\
      okst s' /\ ps_sink s' = ps_sink s ++ [(Some id, g)] /\ ahead s' = rest /\ dep g e /\ ps_errs s' = ps_errs s.

  (** A whole expression inside, read by a call that stops behind it. *)
  Lemma reached_run : forall e min s rest, reached e min s rest -> stops min rest ->
    exists N g id s', (forall f, N <= f -> run f None min s = Some ((Some id, g), s')) /\
      okst s' /\ ps_sink s' = ps_sink s ++ [(Some id, g)] /\ ahead s' = rest /\ dep g e /\ ps_errs s' = ps_errs s.
  Proof.
    intros e min s rest (n & N & g & id & s' & P & O & Sk & A & D & E) St.
    exists (n + N + 1), g, id, s'. split; [|auto 10]. intros f Hf.
    replace f with (n + S (f - n - 1)) by lia. rewrite P by lia. apply loop_stops; [exact O|]. now rewrite A.
  Qed.

  Lemma bound_le : forall x, oprec T x <= bound T x <= S (oprec T x).
  Proof. intros [o|o|o|o]; unfold bound; try lia. cbn. destruct (op_in T o) as [[p []]|]; lia. Qed.

  Lemma reaches : forall e min s rest, okst s -> ahead s = spelled e ++ rest -> well T e -> lawful T e ->
    Forall (fun y => min <= oprec T y) (left_edge e) -> Forall (fun x => stops (bound T x) rest) (right_edge e) ->
    reached e min s rest.
  Proof.
    induction e as [k|o e IH c|o e IH|e IH o|e IHe o i IHi c|o l IHl r IHr]; intros min s rest O A W L Hl Hr;
      cbn [spelled well lawful left_edge right_edge] in *.
    - destruct L as [L1 L2].
      destruct (primary_spec ign (ek_atom K) 0 toks Hfit Htot s k rest O A) as (g & s' & P & O' & Sk & A' & D & Er).
      exists 1, 0, g, (ps_next s), s'. split; [|repeat (split; [assumption|])].
      + intros f _. cbn [Nat.add parse_expr]. unfold next_prefix. rewrite (peek_head ign toks Hfit s O), A.
        cbn [app]. rewrite L1, L2, P. reflexivity.
      + split; [|exact Er]. inversion D; subst. econstructor. eassumption.
    - (* brackets *)
      destruct L as (L1 & L2 & L3 & L4). cbn [app] in A. rewrite <- app_assoc in A. cbn [app] in A.
      destruct (bump_detail ign toks Hfit s o _ O A) as (Ak & Ik & Pk & a & tr & Sk1 & Tr & A1 & O1 & _ & Er1).
      destruct (reached_run e 0 (bump ign s) (c :: rest)) as (N & g & id & s2 & P & O2 & Sk2 & A2 & D & Er2).
      { apply IH; auto; apply Forall_forall; intros; [lia | now apply no_op_stops]. }
      { now apply no_op_stops. }
      destruct (bump_detail ign toks Hfit s2 c _ O2 A2) as (Ak2 & Ik2 & Pk2 & b & tr2 & Sk3 & Tr2 & A3 & O3 & _ & Er3).
      assert (Hsk : ps_sink (bump ign s2) = ps_sink s ++ (None, GLeaf o a None) :: tr ++ (Some id, g) :: (None, GLeaf c b None) :: tr2).
      { rewrite Sk3, Sk2, Sk1. repeat (rewrite <- app_assoc; cbn [app]). reflexivity. }
      destruct (close_node _ _ _ (ps_index s) (ek_group K) O3 Hsk) as (n & s' & F & O' & Sk' & A' & Er').
      eexists 1, (S N), _, _, s'. split; [|split; [exact O'|]].
      + intros f Hf. cbn [Nat.add parse_expr]. unfold next_prefix. rewrite Pk, L1, L2. unfold checkpoint.
        rewrite P by lia. rewrite expect_bump by exact Ak2. rewrite F. reflexivity.
      + split; [exact Sk'|]. split; [congruence|]. split; [|congruence].
        apply PGroup with (a := a) (b := b) (g := g); [|exact D].
        pose proof (dep_solid _ _ D) as Dg. unfold solid in *. cbn [map snd filter trivia]. rewrite Ik. cbn [negb].
        rewrite map_app, filter_app, Tr. cbn [map snd filter app trivia]. rewrite Dg, Ik2. cbn [negb]. rewrite Tr2. reflexivity.
    - (* prefix *)
      destruct W as [W1 W2]. destruct L as [L1 L2]. cbn [app] in A.
      assert (Ho : exists p, op_pre T o = Some p) by (destruct (op_pre T o); [eauto | congruence]). destruct Ho as [p Ho].
      assert (Hp : bound T (OPre o) = p) by (cbn; now rewrite Ho).
      inversion Hr as [|x y Hr1 Hr2 E1]; subst x y.
      destruct (bump_detail ign toks Hfit s o _ O A) as (Ak & Ik & Pk & a & tr & Sk1 & Tr & A1 & O1 & _ & Er1).
      destruct (reached_run e p (bump ign s) rest) as (N & g & id & s2 & P & O2 & Sk2 & A2 & D & Er2).
      { apply IH; auto. eapply Forall_impl; [|exact W2]. intros y Hy. apply inside_bound in Hy. lia. }
      { now rewrite <- Hp. }
      assert (Hsk : ps_sink s2 = ps_sink s ++ (None, GLeaf o a None) :: tr ++ [(Some id, g)]).
      { rewrite Sk2, Sk1. rewrite <- !app_assoc. reflexivity. }
      destruct (close_node _ _ _ (ps_index s) (ek_pre K) O2 Hsk) as (n & s' & F & O' & Sk' & A' & Er').
      eexists 1, (S N), _, _, s'. split; [|split; [exact O'|]].
      + intros f Hf. cbn [Nat.add parse_expr]. unfold next_prefix. rewrite Pk, Ho. unfold checkpoint.
        rewrite expect_bump by exact Ak. rewrite P by lia. rewrite F. reflexivity.
      + split; [exact Sk'|]. split; [congruence|]. split; [|congruence].
        apply PPre with (a := a) (g := g); [|exact D].
        pose proof (dep_solid _ _ D) as Dg. unfold solid in *. cbn [map snd filter trivia]. rewrite Ik. cbn [negb].
        rewrite map_app, filter_app, Tr. cbn [map snd filter app]. now rewrite Dg.
    - (* postfix *)
      destruct W as [W1 W2]. destruct L as [L1 L2]. rewrite <- app_assoc in A. cbn [app] in A.
      assert (Ho : exists p, op_post T o = Some p) by (destruct (op_post T o); [eauto | congruence]). destruct Ho as [p Ho].
      assert (Hp : oprec T (OPost o) = p) by (cbn; now rewrite Ho).
      inversion Hl as [|x y Hl1 Hl2 E1]; subst x y.
      destruct (IH min s (o :: rest)) as (n1 & N1 & g & id & s1 & P1 & O1 & Sk1 & A1 & D & E1); auto.
      { eapply Forall_impl; [|exact W2]. intros x Hx. apply holds_bound in Hx. unfold stops, cont. rewrite Ho. lia. }
      destruct (bump_detail ign toks Hfit s1 o _ O1 A1) as (Ak & Ik & Pk & a & tr & Sk2 & Tr & A2 & O2 & _ & Er2).
      assert (Hsk : ps_sink (bump ign s1) = ps_sink s ++ (Some id, g) :: (None, GLeaf o a None) :: tr).
      { rewrite Sk2, Sk1. rewrite <- !app_assoc. reflexivity. }
      destruct (close_node _ _ _ 0 (ek_post K) O2 Hsk) as (n & s' & F & O' & Sk' & A' & Er').
      eexists (S n1), (S N1), _, _, s'. split; [|split; [exact O'|]].
      + intros f Hf. replace (S n1 + f) with (n1 + S f) by lia. rewrite P1 by lia. cbn [parse_expr].
        unfold next_operator. rewrite Pk, Ho. destruct (Nat.ltb_spec p min) as [X|_]; [lia|]. cbn [fst].
        rewrite (before_last _ _ _ _ Sk1), expect_bump by exact Ak. rewrite F. reflexivity.
      + split; [exact Sk'|]. split; [congruence|]. split; [|congruence].
        apply PPost with (a := a) (g := g); [|exact D].
        pose proof (dep_solid _ _ D) as Dg. unfold solid in *. cbn [map snd filter trivia]. rewrite Dg, Ik. cbn [negb]. now rewrite Tr.
    - (* subscript *)
      destruct W as (W1 & W2 & W3). destruct L as (L1 & (p & L2) & L3 & L4 & L5).
      rewrite <- app_assoc in A. cbn [app] in A. rewrite <- app_assoc in A. cbn [app] in A.
      assert (Hp : oprec T (OIndex o) = p) by (cbn; now rewrite L2).
      inversion Hl as [|x y Hl1 Hl2 E1]; subst x y.
      destruct (IHe min s (o :: spelled i ++ c :: rest)) as (n1 & N1 & g & id & s1 & P1 & O1 & Sk1 & A1 & D & E1); auto.
      { eapply Forall_impl; [|exact W3]. intros x Hx. apply holds_bound in Hx. unfold stops, cont. rewrite L1, L2. lia. }
      destruct (bump_detail ign toks Hfit s1 o _ O1 A1) as (Ak & Ik & Pk & a & tr & Sk2 & Tr & A2 & O2 & _ & Er2).
      destruct (reached_run i 0 (bump ign s1) (c :: rest)) as (N3 & h & id3 & s3 & P3 & O3 & Sk3 & A3 & D3 & Er3).
      { apply IHi; auto; apply Forall_forall; intros; [lia | now apply no_op_stops]. }
      { now apply no_op_stops. }
      destruct (bump_detail ign toks Hfit s3 c _ O3 A3) as (Ak4 & Ik4 & Pk4 & b & tr4 & Sk4 & Tr4 & A4 & O4 & _ & Er4).
      assert (Hsk : ps_sink (bump ign s3) = ps_sink s ++ (Some id, g) :: (None, GLeaf o a None) :: tr ++ (Some id3, h) :: (None, GLeaf c b None) :: tr4).
      { rewrite Sk4, Sk3, Sk2, Sk1. repeat (rewrite <- app_assoc; cbn [app]). reflexivity. }
      destruct (close_node _ _ _ 0 (ek_index K) O4 Hsk) as (n & s' & F & O' & Sk' & A' & Er').
      eexists (S n1), (S (N1 + N3)), _, _, s'. split; [|split; [exact O'|]].
      + intros f Hf. replace (S n1 + f) with (n1 + S f) by lia. rewrite P1 by lia. cbn [parse_expr].
        unfold next_operator. rewrite Pk, L1, L2. destruct (Nat.ltb_spec p min) as [X|_]; [lia|]. cbn [fst open_left].
        rewrite (before_last _ _ _ _ Sk1), expect_bump by exact Ak. rewrite P3 by lia.
        rewrite expect_bump by exact Ak4. rewrite F. reflexivity.
      + split; [exact Sk'|]. split; [congruence|]. split; [|congruence].
        apply PIndex with (a := a) (b := b) (g := g) (h := h); [|exact D | exact D3].
        pose proof (dep_solid _ _ D) as Dg. pose proof (dep_solid _ _ D3) as Dh. unfold solid in *.
        cbn [map snd filter trivia]. rewrite Dg, Ik. cbn [negb].
        rewrite map_app, filter_app, Tr. cbn [map snd filter app trivia]. rewrite Dh, Ik4. cbn [negb]. now rewrite Tr4.
    - (* infix *)
      destruct W as (W1 & W2 & W3 & W4). destruct L as (L1 & L2 & L3 & L4 & L5).
      rewrite <- app_assoc in A. cbn [app] in A.
      assert (Ho : exists p a, op_in T o = Some (p, a)) by (destruct (op_in T o) as [[]|]; [eauto | congruence]).
      destruct Ho as (p & a & Ho).
      assert (Hp : oprec T (OBin o) = p) by (cbn; now rewrite Ho).
      inversion Hl as [|x y Hl1 Hl2 E1]; subst x y. inversion Hr as [|x y Hr1 Hr2 E1]; subst x y.
      destruct (IHl min s (o :: spelled r ++ rest)) as (n1 & N1 & g & id & s1 & P1 & O1 & Sk1 & A1 & D & E1); auto.
      { eapply Forall_impl; [|exact W3]. intros x Hx. apply holds_bound in Hx. unfold stops, cont. rewrite L1, L2, Ho. lia. }
      destruct (bump_detail ign toks Hfit s1 o _ O1 A1) as (Ak & Ik & Pk & len & tr & Sk2 & Tr & A2 & O2 & _ & Er2).
      destruct (reached_run r (bound T (OBin o)) (bump ign s1) rest) as (N3 & h & id3 & s3 & P3 & O3 & Sk3 & A3 & D3 & Er3).
      { apply IHr; auto. eapply Forall_impl; [|exact W4]. intros y Hy. now apply inside_bound in Hy. }
      { exact Hr1. }
      assert (Hsk : ps_sink s3 = ps_sink s ++ (Some id, g) :: (None, GLeaf o len None) :: tr ++ [(Some id3, h)]).
      { rewrite Sk3, Sk2, Sk1. rewrite <- !app_assoc. reflexivity. }
      destruct (close_node _ _ _ 0 (ek_bin K) O3 Hsk) as (n & s' & F & O' & Sk' & A' & Er').
      eexists (S n1), (S (N1 + N3)), _, _, s'. split; [|split; [exact O'|]].
      + intros f Hf. replace (S n1 + f) with (n1 + S f) by lia. rewrite P1 by lia. cbn [parse_expr].
        unfold next_operator. rewrite Pk, L1, L2, Ho. destruct (Nat.ltb_spec p min) as [X|_]; [lia|]. cbn [fst].
        rewrite (before_last _ _ _ _ Sk1), expect_bump by exact Ak. rewrite (next_prec_bound _ _ _ Ho), P3 by lia.
        rewrite F. reflexivity.
      + split; [exact Sk'|]. split; [congruence|]. split; [|congruence].
        apply PBin with (a := len) (g := g) (h := h); [|exact D | exact D3].
        pose proof (dep_solid _ _ D) as Dg. pose proof (dep_solid _ _ D3) as Dh. unfold solid in *.
        cbn [map snd filter trivia]. rewrite Dg, Ik. cbn [negb].
        rewrite map_app, filter_app, Tr. cbn [map snd filter app trivia]. now rewrite Dh.
  Qed.

  Lemma parses : forall e rest s, okst s -> ahead s = spelled e ++ rest -> well T e -> lawful T e ->
    (rest = [] \/ exists k r, rest = k :: r /\ no_operator T k) ->
    exists N g id s', (forall f, N <= f -> run f None 0 s = Some ((Some id, g), s')) /\
      okst s' /\ ps_sink s' = ps_sink s ++ [(Some id, g)] /\ ahead s' = rest /\ dep g e /\ ps_errs s' = ps_errs s.
  Proof.
    intros e rest s O A W L R.
    assert (St : forall m, stops m rest).
    { intros m. destruct R as [->|(k & r & -> & N)]; [exact I | now apply no_op_stops]. }
    apply reached_run; [|apply St]. apply reaches; auto; apply Forall_forall; intros; [lia | apply St].
  Qed.

  (** Whatever the tokens, the parser comes to an end. *)
  Definition settles (left : option item) (min : nat) (base : list item) (s : pstate) : Prop :=
    exists N g id s' used, (forall f, N <= f -> run f left min s = Some ((Some id, g), s')) /\
      okst s' /\ ps_sink s' = base ++ [(Some id, g)] /\ ahead s = used ++ ahead s' /\
      stops min (ahead s') /\ (left = None -> ahead s <> [] -> used <> []).

  Lemma expect_any : forall k s, okst s -> exists tr used, okst (snd (expect ign k s)) /\
    ps_sink (snd (expect ign k s)) = ps_sink s ++ tr /\ ahead s = used ++ ahead (snd (expect ign k s)).
  Proof.
    intros k s O. unfold expect, eat. destruct (at_kind s k) eqn:E.
    - assert (X : exists r, ahead s = k :: r).
      { pose proof (peek_head ign toks Hfit s O) as P. unfold at_kind in E. rewrite P in E.
        destruct (ahead s) as [|k' r]; [discriminate|]. apply Nat.eqb_eq in E. subst k'. eauto. }
      destruct X as [r X]. destruct (bump_detail ign toks Hfit s k r O X) as (_ & _ & _ & len & tr & Sk & _ & A & O' & _).
      cbn [snd]. exists ((None, GLeaf k len None) :: tr), [k]. rewrite A, X. auto.
    - cbn [snd]. exists [], []. rewrite app_nil_r. split; [exact O | auto].
  Qed.

  Lemma expect_here : forall k r s, okst s -> ahead s = k :: r -> exists tr,
    okst (snd (expect ign k s)) /\ ps_sink (snd (expect ign k s)) = ps_sink s ++ tr /\ ahead (snd (expect ign k s)) = r.
  Proof.
    intros k r s O A. destruct (bump_detail ign toks Hfit s k r O A) as (Ak & _ & _ & len & tr & Sk & _ & A' & O' & _).
    rewrite expect_bump by exact Ak. eauto.
  Qed.

  Lemma settles_all : forall n, forall s, okst s -> length (ahead s) <= n ->
    (forall min, settles None min (ps_sink s) s) /\
    (forall min base id g, ps_sink s = base ++ [(Some id, g)] -> settles (Some (Some id, g)) min base s).
  Proof.
    induction n as [n IH] using lt_wf_ind. intros s O Hn.
    assert (LOOP : forall m s min base id g, m <= n -> okst s -> length (ahead s) <= m -> ps_sink s = base ++ [(Some id, g)] ->
              settles (Some (Some id, g)) min base s).
    { induction m as [m IHm] using lt_wf_ind. clear s O Hn. intros s min base id g Hm O Hn Sk.
      assert (Pk := peek_head ign toks Hfit s O).
      destruct (next_operator T min s) as [|k|k c|k p a] eqn:E.
      - exists 1, g, id, s, []. split; [|split; [exact O|]].
        + intros f Hf. destruct f as [|f]; [lia|]. cbn [parse_expr]. now rewrite E.
        + split; [exact Sk|]. split; [reflexivity|]. split; [|discriminate].
          unfold next_operator in E. rewrite Pk in E. unfold stops. destruct (ahead s) as [|k r]; [exact I|]. unfold cont.
          destruct (op_post T k) as [p|]; [destruct (Nat.ltb_spec p min); [assumption | discriminate]|].
          destruct (op_index T k) as [[p c]|]; [destruct (Nat.ltb_spec p min); [assumption | discriminate]|].
          destruct (op_in T k) as [[p a]|]; [destruct (Nat.ltb_spec p min); [assumption | discriminate]|]. exact I.
      - assert (H : exists r, ahead s = k :: r).
        { unfold next_operator in E. rewrite Pk in E. destruct (ahead s) as [|k' r]; [discriminate|].
          destruct (op_post T k') as [p'|]; [destruct (p' <? min); [discriminate|]; injection E as <-; eauto|].
          destruct (op_index T k') as [[p' c']|]; [destruct (p' <? min); discriminate|].
          destruct (op_in T k') as [[p' a']|]; [destruct (p' <? min); discriminate | discriminate]. }
        destruct H as [r H]. rewrite H in Hn. cbn in Hn.
        destruct (expect_here k r s O H) as (tr & O1 & Sk1 & A1).
        assert (Hsk : ps_sink (snd (expect ign k s)) = base ++ ((Some id, g) :: tr)) by (rewrite Sk1, Sk, <- app_assoc; reflexivity).
        destruct (close_node _ _ _ 0 (ek_post K) O1 Hsk) as (nn & s3 & F & O3 & Sk3 & A3 & _).
        destruct (IHm (length r)) with (s := s3) (min := min) (base := base) (3 := O3) (5 := Sk3)
          as (N & g' & id' & s' & used & P & O' & Sk' & A' & St & _); [lia | lia | rewrite A3, A1; lia |].
        exists (S N), g', id', s', (k :: used). split; [|split; [exact O'|]].
        + intros f Hf. destruct f as [|f]; [lia|]. cbn [parse_expr]. rewrite E. cbn [fst].
          rewrite (before_last _ _ _ _ Sk), F. apply P. lia.
        + split; [exact Sk'|]. split; [cbn; rewrite <- A', A3, A1; exact H|]. split; [exact St | discriminate].
      - assert (H : exists r, ahead s = k :: r).
        { unfold next_operator in E. rewrite Pk in E. destruct (ahead s) as [|k' r]; [discriminate|].
          destruct (op_post T k') as [p'|]; [destruct (p' <? min); discriminate|].
          destruct (op_index T k') as [[p' c']|]; [destruct (p' <? min); [discriminate|]; injection E as <- <-; eauto|].
          destruct (op_in T k') as [[p' a']|]; [destruct (p' <? min); discriminate | discriminate]. }
        destruct H as [r H]. rewrite H in Hn. cbn in Hn.
        destruct (expect_here k r s O H) as (tr & O1 & Sk1 & A1).
        destruct (IH (length r)) with (s := snd (expect ign k s)) (2 := O1) as [I1 _]; [lia | rewrite A1; lia |].
        destruct (I1 0) as (N2 & g2 & id2 & s2 & u2 & P2 & O2 & Sk2 & A2 & _ & _). clear I1.
        destruct (expect_any c s2 O2) as (tr3 & u3 & O3 & Sk3 & A3).
        assert (Hsk : ps_sink (snd (expect ign c s2)) = base ++ ((Some id, g) :: tr ++ (Some id2, g2) :: tr3)).
        { rewrite Sk3, Sk2, Sk1, Sk. repeat (rewrite <- app_assoc; cbn [app]). reflexivity. }
        destruct (close_node _ _ _ 0 (ek_index K) O3 Hsk) as (nn & s4 & F & O4 & Sk4 & A4 & _).
        assert (Hr : r = u2 ++ u3 ++ ahead s4) by (rewrite A4, <- A3, <- A2, A1; reflexivity).
        assert (Hl : length (ahead s4) <= length r) by (rewrite Hr, !app_length; lia).
        destruct (IHm (length r)) with (s := s4) (min := min) (base := base) (3 := O4) (5 := Sk4)
          as (N & g' & id' & s' & used & P & O' & Sk' & A' & St & _); [lia | lia | exact Hl |].
        exists (S (N2 + N)), g', id', s', (k :: u2 ++ u3 ++ used). split; [|split; [exact O'|]].
        + intros f Hf. destruct f as [|f]; [lia|]. cbn [parse_expr]. rewrite E. cbn [fst open_left].
          rewrite (before_last _ _ _ _ Sk), P2 by lia. rewrite F. apply P. lia.
        + split; [exact Sk'|]. split; [cbn; rewrite <- !app_assoc, <- A', <- Hr; exact H|]. split; [exact St | discriminate].
      - assert (H : (exists r, ahead s = k :: r) /\ op_in T k = Some (p, a)).
        { unfold next_operator in E. rewrite Pk in E. destruct (ahead s) as [|k' r]; [discriminate|].
          destruct (op_post T k') as [p'|]; [destruct (p' <? min); discriminate|].
          destruct (op_index T k') as [[p' c']|]; [destruct (p' <? min); discriminate|].
          destruct (op_in T k') as [[p' a']|] eqn:X; [destruct (p' <? min); [discriminate|] | discriminate].
          injection E as <- <- <-. eauto. }
        destruct H as [[r H] Ho]. rewrite H in Hn. cbn in Hn.
        destruct (expect_here k r s O H) as (tr & O1 & Sk1 & A1).
        destruct (IH (length r)) with (s := snd (expect ign k s)) (2 := O1) as [I1 _]; [lia | rewrite A1; lia |].
        destruct (I1 (bound T (OBin k))) as (N2 & g2 & id2 & s2 & u2 & P2 & O2 & Sk2 & A2 & _ & _). clear I1.
        assert (Hsk : ps_sink s2 = base ++ ((Some id, g) :: tr ++ [(Some id2, g2)])).
        { rewrite Sk2, Sk1, Sk, <- !app_assoc. reflexivity. }
        destruct (close_node _ _ _ 0 (ek_bin K) O2 Hsk) as (nn & s4 & F & O4 & Sk4 & A4 & _).
        assert (Hr : r = u2 ++ ahead s4) by (rewrite A4, <- A2, A1; reflexivity).
        assert (Hl : length (ahead s4) <= length r) by (rewrite Hr, !app_length; lia).
        destruct (IHm (length r)) with (s := s4) (min := min) (base := base) (3 := O4) (5 := Sk4)
          as (N & g' & id' & s' & used & P & O' & Sk' & A' & St & _); [lia | lia | exact Hl |].
        exists (S (N2 + N)), g', id', s', (k :: u2 ++ used). split; [|split; [exact O'|]].
        + intros f Hf. destruct f as [|f]; [lia|]. cbn [parse_expr]. rewrite E. cbn [fst].
          rewrite (before_last _ _ _ _ Sk), (next_prec_bound _ _ _ Ho), P2 by lia. rewrite F. apply P. lia.
        + split; [exact Sk'|]. split; [cbn; rewrite <- !app_assoc, <- A', <- Hr; exact H|]. split; [exact St | discriminate]. }
    split; [|intros min base id g Sk; now apply (LOOP n) with (s := s)].
    intros min. assert (Pk := peek_head ign toks Hfit s O).
    destruct (next_prefix T s) as [k p|c|] eqn:E.
    - assert (H : exists r, ahead s = k :: r).
      { unfold next_prefix in E. rewrite Pk in E. destruct (ahead s) as [|k' r]; [discriminate|].
        destruct (op_pre T k') as [p'|]; [injection E as <- <-; eauto|]. destruct (op_group T k'); discriminate. }
      destruct H as [r H]. rewrite H in Hn. cbn in Hn.
      destruct (expect_here k r s O H) as (tr & O1 & Sk1 & A1).
      destruct (IH (length r)) with (s := snd (expect ign k s)) (2 := O1) as [I1 _]; [lia | rewrite A1; lia |].
      destruct (I1 p) as (N2 & g2 & id2 & s2 & u2 & P2 & O2 & Sk2 & A2 & _ & _). clear I1.
      assert (Hsk : ps_sink s2 = ps_sink s ++ (tr ++ [(Some id2, g2)])).
      { rewrite Sk2, Sk1, <- !app_assoc. reflexivity. }
      destruct (close_node _ _ _ (ps_index s) (ek_pre K) O2 Hsk) as (nn & s4 & F & O4 & Sk4 & A4 & _).
      assert (Hr : r = u2 ++ ahead s4) by (rewrite A4, <- A2, A1; reflexivity).
      assert (Hl : length (ahead s4) <= length r) by (rewrite Hr, !app_length; lia).
      destruct (LOOP (length r)) with (s := s4) (min := min) (base := ps_sink s) (2 := O4) (4 := Sk4)
        as (N & g' & id' & s' & used & P & O' & Sk' & A' & St & _); [lia | exact Hl |].
      exists (S (N2 + N)), g', id', s', (k :: u2 ++ used). split; [|split; [exact O'|]].
      + intros f Hf. destruct f as [|f]; [lia|]. cbn [parse_expr]. rewrite E. unfold checkpoint.
        rewrite P2 by lia. rewrite F. apply P. lia.
      + split; [exact Sk'|]. split; [cbn; rewrite <- !app_assoc, <- A', <- Hr; exact H|]. split; [exact St | discriminate].
    - assert (H : exists k r, ahead s = k :: r).
      { unfold next_prefix in E. rewrite Pk in E. destruct (ahead s) as [|k' r]; [discriminate | eauto]. }
      destruct H as (k & r & H). rewrite H in Hn. cbn in Hn.
      destruct (bump_detail ign toks Hfit s k r O H) as (_ & _ & _ & len & tr & Sk1 & _ & A1 & O1 & _).
      destruct (IH (length r)) with (s := bump ign s) (2 := O1) as [I1 _]; [lia | rewrite A1; lia |].
      destruct (I1 0) as (N2 & g2 & id2 & s2 & u2 & P2 & O2 & Sk2 & A2 & _ & _). clear I1.
      destruct (expect_any c s2 O2) as (tr3 & u3 & O3 & Sk3 & A3).
      assert (Hsk : ps_sink (snd (expect ign c s2)) = ps_sink s ++ ((None, GLeaf k len None) :: tr ++ (Some id2, g2) :: tr3)).
      { rewrite Sk3, Sk2, Sk1. repeat (rewrite <- app_assoc; cbn [app]). reflexivity. }
      destruct (close_node _ _ _ (ps_index s) (ek_group K) O3 Hsk) as (nn & s4 & F & O4 & Sk4 & A4 & _).
      assert (Hr : r = u2 ++ u3 ++ ahead s4) by (rewrite A4, <- A3, <- A2, A1; reflexivity).
      assert (Hl : length (ahead s4) <= length r) by (rewrite Hr, !app_length; lia).
      destruct (LOOP (length r)) with (s := s4) (min := min) (base := ps_sink s) (2 := O4) (4 := Sk4)
        as (N & g' & id' & s' & used & P & O' & Sk' & A' & St & _); [lia | exact Hl |].
      exists (S (N2 + N)), g', id', s', (k :: u2 ++ u3 ++ used). split; [|split; [exact O'|]].
      + intros f Hf. destruct f as [|f]; [lia|]. cbn [parse_expr]. rewrite E. unfold checkpoint.
        rewrite P2 by lia. rewrite F. apply P. lia.
      + split; [exact Sk'|]. split; [cbn; rewrite <- !app_assoc, <- A', <- Hr; exact H|]. split; [exact St | discriminate].
    - assert (H : exists tr used, okst (bump ign s) /\ ps_sink (bump ign s) = ps_sink s ++ tr /\
                    ahead s = used ++ ahead (bump ign s) /\ (ahead s <> [] -> used <> [])).
      { destruct (ahead s) as [|k r] eqn:A.
        - exists [], []. unfold bump. unfold peek_kind in Pk. destruct (ps_current s); [discriminate|].
          rewrite app_nil_r, A. auto.
        - destruct (bump_detail ign toks Hfit s k r O A) as (_ & _ & _ & len & tr & Sk1 & _ & A1 & O1 & _).
          exists ((None, GLeaf k len None) :: tr), [k]. rewrite A1. split; [exact O1|]. split; [exact Sk1|]. split; [reflexivity | discriminate]. }
      destruct H as (tr & u1 & O1 & Sk1 & A1 & Hu).
      destruct (close_node _ _ _ (ps_index s) (ek_atom K) O1 Sk1) as (nn & s4 & F & O4 & Sk4 & A4 & _).
      destruct (LOOP n) with (s := s4) (min := min) (base := ps_sink s) (2 := O4) (4 := Sk4)
        as (N & g' & id' & s' & used & P & O' & Sk' & A' & St & _); [lia | rewrite A4; rewrite A1, app_length in Hn; lia |].
      exists (S N), g', id', s', (u1 ++ used). split; [|split; [exact O'|]].
      + intros f Hf. destruct f as [|f]; [lia|]. cbn [parse_expr]. rewrite E. unfold primary, checkpoint. rewrite F. apply P. lia.
      + split; [exact Sk'|]. split; [rewrite <- !app_assoc, <- A', A4; exact A1|]. split; [exact St|].
        intros _ Hne X. apply app_eq_nil in X. now apply Hu.
  Qed.
End Parse.
