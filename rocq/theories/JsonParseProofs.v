(** The JSON parser accepts the token grammar. *)
From Verif Require Import Base Utf8 EditModel LexModel TreeModel TreeSpec TreeProofs ParserModel ParserSpec ParserProofs.
From Verif Require Import JsonSpec JsonModel JsonLangSpec.

(** ** Reference: the parser on kinds of tokens.  Whether it succeeds, the errors, what is left. *)
Definition res := option (bool * list nat * list nat).

Section Reference.
  Variable (cfg : json_config).

  Fixpoint aloop (close : nat) (item : list nat -> res) (fuel : nat) (first : bool) (ks : list nat) : res :=
    match fuel with
    | O => None
    | S f =>
        match ks with
        | [] => Some (true, [], [])
        | k :: r =>
            if k =? close then Some (true, [], ks)
            else if k =? KEof then Some (false, [3], ks)
            else
              let next ks2 :=
                match item ks2 with
                | None => None
                | Some (false, e, r3) => Some (false, e, r3)
                | Some (true, e, r3) =>
                    match aloop close item f false r3 with Some (b, e', r4) => Some (b, e ++ e', r4) | None => None end
                end in
              if first then next ks
              else if k =? KComma then
                if match hd_error r with Some k2 => k2 =? close | None => false end then
                  if jc_trailing cfg then Some (true, [], r) else Some (false, [2], r)
                else next r
              else Some (true, [0], ks)
        end
    end.

  Definition aitems (n open close : nat) (item : list nat -> res) (ks : list nat) : res :=
    match ks with
    | k :: r =>
        if k =? open then
          match aloop close item n true r with
          | None => None
          | Some (false, e, r2) => Some (false, e, r2)
          | Some (true, e, r2) =>
              match r2 with
              | k2 :: r3 => if k2 =? close then Some (true, e, r3) else Some (false, e ++ [if k2 =? KEof then 3 else 0], r2)
              | [] => Some (false, e ++ [3], [])
              end
          end
        else Some (false, [0], ks)
    | [] => Some (false, [0], [])
    end.

  Definition akey (k : nat) : bool := (k =? KStringLit) || (jc_bare cfg && (k =? KBareKey)).
  Definition aentry (value : list nat -> res) (ks : list nat) : res :=
    match ks with
    | k :: r =>
        if akey k then
          match r with
          | k2 :: r2 =>
              if k2 =? KColon then value r2
              else match value r with Some (b, e, r3) => Some (b, 0 :: e, r3) | None => None end
          | [] => match value r with Some (b, e, r3) => Some (b, 0 :: e, r3) | None => None end
          end
        else Some (false, [0], ks)
    | [] => Some (false, [0], [])
    end.

  Fixpoint avalue (n fuel : nat) (ks : list nat) : res :=
    match fuel with
    | O => None
    | S f =>
        match ks with
        | [] => Some (false, [3], [])
        | k :: r =>
            if k =? KEof then Some (false, [3], ks)
            else match value_kind k with
                 | None => Some (false, [1], ks)
                 | Some v =>
                     if v =? KObject then aitems n KLBrace KRBrace (aentry (avalue n f)) ks
                     else if v =? KArray then aitems n KLBracket KRBracket (avalue n f) ks
                     else Some (true, [], r)
                 end
        end
    end.
End Reference.

(** ** The parser follows the reference *)
Section Follow.
  Variable (cfg : json_config) (toks : list token).
  Hypothesis Hfit : lengths_fit toks.
  Hypothesis Hsum : (Z.of_nat (list_sum (map (fun t => snd (tok_yield t)) toks)) < 2 ^ 32)%Z.

  Definition ok (s : pstate) : Prop := good toks True s /\ settled ignored s /\ ps_inc s = None.
  Definition rest (s : pstate) : list nat := kinds (to_come s).

  Definition goes (s s' : pstate) (e : list nat) (r : list nat) : Prop :=
    ok s' /\ rest s' = r /\ (exists l, ps_sink s' = ps_sink s ++ l) /\ map fst (ps_errs s') = map fst (ps_errs s) ++ e.

  Lemma goes_refl s : ok s -> goes s s [] (rest s).
  Proof. intros H. split; [assumption|]. split; [reflexivity|]. split; [exists []; now rewrite app_nil_r | now rewrite app_nil_r]. Qed.
  Lemma goes_trans a b c e1 e2 r1 r2 : goes a b e1 r1 -> goes b c e2 r2 -> goes a c (e1 ++ e2) r2.
  Proof.
    intros (_ & _ & (l1 & L1) & E1) (O & R & (l2 & L2) & E2). split; [assumption|]. split; [assumption|]. split; [exists (l1 ++ l2); now rewrite L2, L1, app_assoc | now rewrite E2, E1, app_assoc].
  Qed.

  Lemma kinds_trivia seg : Forall (fun t => ignored (tk_kind t) = true) seg -> kinds seg = [].
  Proof. unfold kinds. induction 1 as [| t r H _ IH]; [reflexivity|]. cbn. now rewrite H. Qed.
  Lemma kinds_app a b : kinds (a ++ b) = kinds a ++ kinds b.
  Proof. unfold kinds. now rewrite map_app, filter_app. Qed.

  Lemma current_rest s : settled ignored s -> match ps_current s with Some t => exists r, rest s = tk_kind t :: r /\ ignored (tk_kind t) = false | None => rest s = [] end.
  Proof.
    intros S'. unfold rest, settled, to_come in *. destruct (ps_current s) as [t|] eqn:E; unfold ps_current in E.
    - rewrite (skipn_nth _ _ _ E) in *. unfold kinds. cbn [map filter]. rewrite S'. cbn [negb]. eexists. now split.
    - apply nth_error_None in E. now rewrite skipn_all2.
  Qed.

  Lemma at_kind_rest s k : settled ignored s -> at_kind s k = match hd_error (rest s) with Some k' => k' =? k | None => false end.
  Proof.
    intros S'. pose proof (current_rest s S') as C. unfold at_kind, peek_kind. destruct (ps_current s) as [t|]; [destruct C as (r & -> & _) | rewrite C]; reflexivity.
  Qed.
  Lemma end_rest s : settled ignored s -> ps_not_at_end s = match rest s with [] => false | _ => true end.
  Proof.
    intros S'. pose proof (current_rest s S') as C. unfold ps_not_at_end. destruct (ps_current s) as [t|] eqn:E; unfold ps_current in E.
    - destruct C as (r & -> & _). apply Nat.ltb_lt, nth_error_Some. congruence.
    - rewrite C. apply Nat.ltb_ge, nth_error_None. assumption.
  Qed.
  Lemma skip_rest s : settled ignored s -> json_skip s = s.
  Proof.
    intros S'. pose proof (current_rest s S') as C. unfold json_skip. destruct (length (ps_toks s) - ps_index s); [reflexivity|]. cbn [skip_loop]. destruct (ps_current s) as [t|]; [|reflexivity]. destruct C as (r & _ & ->). reflexivity.
  Qed.

  Lemma bump_goes s k r : ok s -> rest s = k :: r -> goes s (bump ignored s) [] r.
  Proof.
    intros (G & S' & I') R. pose proof (current_rest s S') as C. destruct (ps_current s) as [t|] eqn:E; [|congruence]. destruct C as (r' & C & _). rewrite R in C. injection C as -> <-.
    destruct (bump_push ignored s) as (l & L & Er & _ & In1 & Tk & _). split; [|split; [|split; [now exists l | now rewrite Er, app_nil_r]]].
    - split; [now apply bump_good|]. split; [now apply bump_settled | congruence].
    - unfold bump. rewrite E. assert (Hf : lengths_fit (ps_toks (push_leaf s t))) by (change (lengths_fit (ps_toks s)); rewrite (proj1 G); exact Hfit). destruct (advance_exact ignored (push_leaf s t) t Hf E) as (seg & A & B & _).
      change (to_come (push_leaf s t)) with (to_come s) in A. unfold rest in *. rewrite A in R. change (t :: seg ++ to_come (ps_advance ignored (push_leaf s t))) with ([t] ++ seg ++ to_come (ps_advance ignored (push_leaf s t))) in R.
      rewrite !kinds_app, (kinds_trivia seg B) in R. cbn [app] in R. unfold kinds at 1 in R. cbn [map filter] in R. destruct (negb (ignored (tk_kind t))) eqn:En; [now injection R as R|]. exfalso. unfold settled in S'. rewrite A in S'. now rewrite S' in En.
  Qed.

  Lemma error_goes s tag off : ok s -> goes s (push_error s tag off) [tag] (rest s).
  Proof. intros O. split; [exact O|]. split; [reflexivity|]. split; [exists []; now rewrite app_nil_r|]. cbn. now rewrite map_app. Qed.

  Lemma eat_goes s k : ok s -> match rest s with k' :: r => if k' =? k then eat ignored k s = (true, bump ignored s) /\ goes s (bump ignored s) [] r else eat ignored k s = (false, s) | [] => eat ignored k s = (false, s) end.
  Proof.
    intros O. pose proof (at_kind_rest s k (proj1 (proj2 O))) as A. unfold eat. rewrite A. destruct (rest s) as [| k' r] eqn:R; cbn [hd_error]; [reflexivity|]. destruct (k' =? k); [split; [reflexivity|]; now apply (bump_goes s k') | reflexivity].
  Qed.

  Definition follows (P : parsing) (A : list nat -> res) : Prop :=
    forall s b e r, ok s -> A (rest s) = Some (b, e, r) -> exists s', P s = Some (b, s') /\ goes s s' e r.

  Lemma node_follows kind P A : follows P A -> follows (node kind P) A.
  Proof.
    intros H s b e r O E. unfold node, try_reuse. rewrite (proj2 (proj2 O)). destruct (H s b e r O E) as (s2 & -> & O2 & R2 & (l & L2) & E2).
    destruct O2 as (G2 & S2 & I2). pose proof G2 as (Tk & Ix & Bt & Wd & Yd).
    assert (N : exists g, new_node kind (map snd (skipn (length (ps_sink s)) (ps_sink s2))) = Some g).
    { unfold new_node. rewrite L2, skipn_app, skipn_all, Nat.sub_diag. cbn [app skipn]. unfold sink_trees in *. rewrite L2, map_app in Bt, Wd. rewrite map_app, list_sum_app in Wd. apply Forall_app in Bt as [_ Bt]. rewrite sum_len_width by assumption.
      assert (F : list_sum (map (fun t => snd (tok_yield t)) (firstn (ps_index s2) toks)) <= list_sum (map (fun t => snd (tok_yield t)) toks)) by (rewrite <- (firstn_skipn (ps_index s2) toks) at 2; rewrite map_app, list_sum_app; lia).
      unfold fits_u32. destruct (N.ltb_spec (N.of_nat (list_sum (map width (map snd l)))) 4294967296); [eexists; reflexivity|]. exfalso. clear - Wd F Hsum H0. lia. }
    destruct N as (g & N). unfold finish_at. cbn [checkpoint snd]. assert (length (ps_sink s2) <? length (ps_sink s) = false) as -> by (apply Nat.ltb_ge; rewrite L2, app_length; lia). rewrite N.
    eexists. split; [reflexivity|]. assert (F : finish_at s2 (0, length (ps_sink s)) kind = Some ((Some (ps_next s2), g), PState (ps_toks s2) (ps_index s2) (firstn (length (ps_sink s)) (ps_sink s2) ++ [(Some (ps_next s2), g)]) (S (ps_next s2)) (ps_errs s2) (ps_srclen s2) (ps_inc s2))).
    { unfold finish_at. cbn [snd]. assert (length (ps_sink s2) <? length (ps_sink s) = false) as -> by (apply Nat.ltb_ge; rewrite L2, app_length; lia). now rewrite N. }
    destruct (finish_good ignored toks Hfit True s2 _ _ _ _ G2 F) as (G3 & _). split; [split; [exact G3|]; split; [exact S2 | exact I2]|]. split; [exact R2|]. split; [|exact E2].
    eexists. cbn [ps_sink]. rewrite L2, firstn_app, firstn_all, Nat.sub_diag. cbn [firstn]. now rewrite app_nil_r.
  Qed.

  Lemma loop_follows close item A : follows item A -> forall fuel first, follows (items_loop cfg close item fuel first) (aloop cfg close A fuel first).
  Proof.
    intros F. induction fuel as [| f IH]; intros first s b e r O E; [discriminate|]. cbn [items_loop aloop] in *. pose proof (proj1 (proj2 O)) as S'. rewrite (end_rest s S'). pose proof (eat_goes s KComma O) as Ec. pose proof (at_kind_rest s close S') as Ak. pose proof (at_kind_rest s KEof S') as Ae. pose proof (goes_refl s O) as Gr. pose proof (error_goes s 3 (ps_srclen s) O) as G3. pose proof (error_goes s 0 (current_offset s) O) as G0.
    assert (Next : forall s2 e0 ks2, goes s s2 e0 ks2 -> forall b e r, match A ks2 with None => None | Some (false, e, r3) => Some (false, e, r3) | Some (true, e, r3) => match aloop cfg close A f false r3 with Some (b, e', r4) => Some (b, e ++ e', r4) | None => None end end = Some (b, e, r) ->
      exists s', match item s2 with None => None | Some (false, s3) => Some (false, s3) | Some (true, s3) => items_loop cfg close item f false (json_skip s3) end = Some (b, s') /\ goes s s' (e0 ++ e) r).
    { intros s2 e0 ks2 G2 b' e' r' E'. destruct G2 as (O2 & R2 & X2). destruct (A ks2) as [[[bi ei] ri]|] eqn:Ea; [|discriminate]. rewrite <- R2 in Ea. destruct (F s2 bi ei ri O2 Ea) as (s3 & -> & G3'). destruct bi.
      - destruct (aloop cfg close A f false ri) as [[[b4 e4] r4]|] eqn:El; [|discriminate]. injection E' as <- <- <-. rewrite (skip_rest s3 (proj1 (proj2 (proj1 G3')))). destruct G3' as (O3 & R3 & X3). rewrite <- R3 in El. destruct (IH false s3 b4 e4 r4 O3 El) as (s' & -> & G4). exists s'. split; [reflexivity|]. apply (goes_trans s s2 s' e0 (ei ++ e4) ks2 r4); [now split|]. apply (goes_trans s2 s3 s' ei e4 ri r4); [now split | assumption].
      - injection E' as <- <- <-. exists s3. split; [reflexivity|]. apply (goes_trans s s2 s3 e0 ei ks2 ri); [now split | assumption]. }
    rewrite (skip_rest s S'). cbv zeta in *. rewrite Ak, Ae. destruct (rest s) as [| k rr] eqn:R; cbn [hd_error] in *.
    - injection E as <- <- <-. exists s. now split.
    - destruct (k =? close). { injection E as <- <- <-. exists s. now split. }
      destruct (k =? KEof). { injection E as <- <- <-. eexists. split; [reflexivity|]. exact G3. }
      destruct first; [exact (Next s [] (k :: rr) Gr b e r E)|].
      destruct (k =? KComma).
      + destruct Ec as [-> Gb]. cbn zeta iota. pose proof Gb as (Ob & Rb & Xb). pose proof (proj1 (proj2 Ob)) as Sb. rewrite (skip_rest _ Sb), (at_kind_rest _ close Sb), Rb. destruct (match hd_error rr with Some k2 => k2 =? close | None => false end).
        * destruct (jc_trailing cfg); injection E as <- <- <-; [eexists; split; [reflexivity | exact Gb]|]. eexists. split; [reflexivity|]. pose proof (error_goes _ 2 (current_offset (bump ignored s)) Ob) as G2. rewrite Rb in G2. exact (goes_trans _ _ _ [] [2] _ _ Gb G2).
        * exact (Next _ [] rr Gb b e r E).
      + rewrite Ec. injection E as <- <- <-. eexists. split; [reflexivity | exact G0].
  Qed.

  Lemma items_follows n open close item A : S (length toks) = n -> follows item A -> follows (items cfg open close item) (aitems cfg n open close A).
  Proof.
    intros Hn F s b e r O E. unfold items, aitems in *. pose proof (eat_goes s open O) as Eo. pose proof (error_goes s 0 (current_offset s) O) as G0. destruct (rest s) as [| k rr] eqn:R.
    { rewrite Eo. injection E as <- <- <-. eexists. split; [reflexivity | exact G0]. }
    destruct (k =? open); [|rewrite Eo; injection E as <- <- <-; eexists; split; [reflexivity | exact G0]].
    destruct Eo as [-> Gb]. pose proof Gb as (Ob & Rb & Xb). replace (S (length (ps_toks (bump ignored s)))) with n by (rewrite (proj1 (proj1 Ob)); congruence).
    destruct (aloop cfg close A n true rr) as [[[bl el] rl]|] eqn:El; [|discriminate]. rewrite <- Rb in El. destruct (loop_follows close item A F n true _ _ _ _ Ob El) as (s2 & -> & G2). pose proof (goes_trans _ _ _ _ _ _ _ Gb G2) as G. cbn [app] in G. destruct bl; [|injection E as <- <- <-; exists s2; now split].
    destruct G2 as (O2 & R2 & _). pose proof (eat_goes s2 close O2) as Ec. pose proof (proj1 (proj2 O2)) as S2. pose proof (at_kind_rest s2 KEof S2) as Ae. pose proof (end_rest s2 S2) as En. rewrite R2 in *. destruct rl as [| k2 r3]; cbn [hd_error] in *.
    - rewrite Ec, Ae, En. cbn [orb negb]. injection E as <- <- <-. eexists. split; [reflexivity|]. pose proof (error_goes s2 3 (ps_srclen s2) O2) as G3. rewrite R2 in G3. exact (goes_trans _ _ _ _ _ _ _ G G3).
    - destruct (k2 =? close).
      + destruct Ec as [-> Gc]. injection E as <- <- <-. eexists. split; [reflexivity|]. rewrite <- (app_nil_r el). exact (goes_trans _ _ _ _ _ _ _ G Gc).
      + rewrite Ec, Ae, En. cbn [negb]. rewrite orb_false_r. destruct (k2 =? KEof); injection E as <- <- <-; (eexists; split; [reflexivity|]).
        * pose proof (error_goes s2 3 (ps_srclen s2) O2) as G3. rewrite R2 in G3. exact (goes_trans _ _ _ _ _ _ _ G G3).
        * pose proof (error_goes s2 0 (current_offset s2) O2) as G3. rewrite R2 in G3. exact (goes_trans _ _ _ _ _ _ _ G G3).
  Qed.

  Lemma entry_follows value A : follows value A -> follows (entry cfg value) (aentry cfg A).
  Proof.
    intros F. apply node_follows. intros s b e r O E. unfold aentry in E. pose proof (proj1 (proj2 O)) as S'. rewrite !(at_kind_rest s _ S'). pose proof (error_goes s 0 (current_offset s) O) as G0. destruct (rest s) as [| k rr] eqn:R; cbn [hd_error].
    { rewrite andb_false_r. cbn [orb]. injection E as <- <- <-. eexists. split; [reflexivity | exact G0]. }
    fold (akey cfg k). destruct (akey cfg k); [|injection E as <- <- <-; eexists; split; [reflexivity | exact G0]].
    pose proof (bump_goes s k rr O R) as Gb. pose proof Gb as (Ob & Rb & Xb). rewrite (skip_rest _ (proj1 (proj2 Ob))). cbv zeta. pose proof (eat_goes (bump ignored s) KColon Ob) as Ec. rewrite Rb in Ec.
    assert (Miss : eat ignored KColon (bump ignored s) = (false, bump ignored s) -> match A rr with Some (b, e, r3) => Some (b, 0 :: e, r3) | None => None end = Some (b, e, r) ->
      exists s', (let '(colon, s2) := eat ignored KColon (bump ignored s) in value (json_skip (if colon then s2 else expected_error s2))) = Some (b, s') /\ goes s s' e r).
    { intros -> E'. pose proof (error_goes _ 0 (current_offset (bump ignored s)) Ob) as Ge. rewrite Rb in Ge. pose proof (goes_trans _ _ _ _ _ _ _ Gb Ge) as G. cbn [app] in G. pose proof G as (Oe & Re & _). destruct (A rr) as [[[ba ea] ra]|] eqn:Ea; [|discriminate]. injection E' as <- <- <-.
      change (expected_error (bump ignored s)) with (push_error (bump ignored s) 0 (current_offset (bump ignored s))). rewrite (skip_rest _ (proj1 (proj2 Oe))). rewrite <- Re in Ea. destruct (F _ _ _ _ Oe Ea) as (s' & -> & G'). exists s'. split; [reflexivity|]. exact (goes_trans _ _ _ _ _ _ _ G G'). }
    destruct rr as [| k2 r2]; [exact (Miss Ec E)|]. destruct (k2 =? KColon); [|exact (Miss Ec E)].
    destruct Ec as [-> Gc]. pose proof (goes_trans _ _ _ _ _ _ _ Gb Gc) as G. pose proof G as (Oc & Rc & _). cbn [app] in G. rewrite (skip_rest _ (proj1 (proj2 Oc))). rewrite <- Rc in E. destruct (F _ _ _ _ Oc E) as (s' & -> & G'). exists s'. split; [reflexivity|]. exact (goes_trans _ _ _ _ _ _ _ G G').
  Qed.

  Lemma value_follows n : S (length toks) = n -> forall fuel, follows (parse_value cfg fuel) (avalue cfg n fuel).
  Proof.
    intros Hn. induction fuel as [| f IH]; intros s b e r O E; [discriminate|]. cbn [parse_value avalue] in *. pose proof (proj1 (proj2 O)) as S'. rewrite (skip_rest s S'). pose proof (current_rest s S') as C. cbv zeta. pose proof (error_goes s 3 (ps_srclen s) O) as G3. destruct (ps_current s) as [t|].
    - destruct C as (rr & R & _). rewrite R in E, G3. destruct (tk_kind t =? KEof); [injection E as <- <- <-; eexists; split; [reflexivity | exact G3]|]. destruct (value_kind (tk_kind t)) as [v|].
      + apply (node_follows v _ (fun ks => match ks with k :: r => if v =? KObject then aitems cfg n KLBrace KRBrace (aentry cfg (avalue cfg n f)) ks else if v =? KArray then aitems cfg n KLBracket KRBracket (avalue cfg n f) ks else Some (true, [], r) | [] => None end)); [|assumption | now rewrite R].
        intros s2 b2 e2 r2 O2 E2. destruct (rest s2) as [| k r3] eqn:R2; [discriminate|]. destruct (v =? KObject); [|destruct (v =? KArray)].
        * rewrite <- R2 in E2. exact (items_follows n _ _ _ _ Hn (entry_follows _ _ IH) s2 b2 e2 r2 O2 E2).
        * rewrite <- R2 in E2. exact (items_follows n _ _ _ _ Hn IH s2 b2 e2 r2 O2 E2).
        * injection E2 as <- <- <-. eexists. split; [reflexivity|]. exact (bump_goes s2 k r3 O2 R2).
      + injection E as <- <- <-. eexists. split; [reflexivity|]. rewrite <- R. exact (error_goes s 1 (current_offset s) O).
    - rewrite C in E, G3. injection E as <- <- <-. eexists. split; [reflexivity | exact G3].
  Qed.
End Follow.

(** ** What the reference accepts *)
Section Accept.
  Variable (cfg : json_config).

  Inductive seps (G : list nat -> Prop) : list nat -> Prop :=
  | SepOne v : G v -> seps G v
  | SepMore v s : G v -> seps G s -> seps G (v ++ KComma :: s).
  Inductive more (G : list nat -> Prop) : list nat -> Prop :=
  | MoreNil : more G []
  | MoreTrail : jc_trailing cfg = true -> more G [KComma]
  | MoreCons v u : G v -> more G u -> more G (KComma :: v ++ u).

  Lemma more_seps G u : more G u -> forall v, G v -> exists s t, seps G s /\ ttrail cfg t /\ v ++ u = s ++ t.
  Proof.
    induction 1 as [| T | w u Hw _ IH]; intros v Hv.
    - exists v, []. split; [now constructor|]. split; [constructor | reflexivity].
    - exists v, [KComma]. split; [now constructor|]. split; [now constructor | reflexivity].
    - destruct (IH w Hw) as (s & t & Hs & Ht & E). exists (v ++ KComma :: s), t. split; [now constructor|]. split; [assumption|]. rewrite E, <- app_assoc. reflexivity.
  Qed.

  Definition member (u : list nat) : Prop := exists k v, u = k :: KColon :: v /\ tkey cfg k /\ tvalue cfg v.
  Lemma seps_values s : seps (tvalue cfg) s <-> tvalues cfg s.
  Proof. split; induction 1; now constructor. Qed.
  Lemma seps_members s : seps member s <-> tmembers cfg s.
  Proof.
    split.
    - induction 1 as [v (k & w & -> & Hk & Hw) | v s (k & w & -> & Hk & Hw) _ IH]; [now constructor|]. change ((k :: KColon :: w) ++ KComma :: s) with (k :: KColon :: w ++ KComma :: s). now constructor.
    - induction 1 as [k s Hk Hs | k s r Hk Hs _ IH]; [constructor; now exists k, s|]. change (k :: KColon :: s ++ KComma :: r) with ((k :: KColon :: s) ++ KComma :: r). constructor; [now exists k, s | assumption].
  Qed.

  (** Soundness of a step: total, consumes a prefix, fails only with an error, and without errors consumed something of [G]. *)
  Definition sound (m : nat) (G : list nat -> Prop) (A : list nat -> res) : Prop :=
    forall ks, length ks <= m -> exists b e r u, A ks = Some (b, e, r) /\ ks = u ++ r /\ (b = false -> e <> []) /\ (b = true -> u <> []) /\ (e = [] -> G u).

  Lemma aloop_sound m G A close : sound m G A -> forall fuel first ks, length ks < fuel -> length ks <= m ->
    exists b e r u, aloop cfg close A fuel first ks = Some (b, e, r) /\ ks = u ++ r /\ (b = false -> e <> []) /\
      (e = [] -> if first then u = [] \/ (exists v w, u = v ++ w /\ G v /\ more G w) else more G u).
  Proof.
    intros HA. induction fuel as [| f IH]; intros first ks L M; [lia|]. cbn [aloop]. destruct ks as [| k r].
    { exists true, [], [], []. split; [reflexivity|]. split; [reflexivity|]. split; [discriminate|]. intros _. destruct first; [now left | constructor]. }
    destruct (k =? close). { exists true, [], (k :: r), []. split; [reflexivity|]. split; [reflexivity|]. split; [discriminate|]. intros _. destruct first; [now left | constructor]. }
    destruct (k =? KEof). { exists false, [3], (k :: r), []. split; [reflexivity|]. split; [reflexivity|]. split; [discriminate | discriminate]. }
    assert (Next : forall ks2, length ks2 <= length (k :: r) -> exists b e r4 u, match A ks2 with None => None | Some (false, e, r3) => Some (false, e, r3) | Some (true, e, r3) => match aloop cfg close A f false r3 with Some (b, e', r4) => Some (b, e ++ e', r4) | None => None end end = Some (b, e, r4) /\
      ks2 = u ++ r4 /\ (b = false -> e <> []) /\ (e = [] -> exists v w, u = v ++ w /\ G v /\ more G w)).
    { intros ks2 L2. destruct (HA ks2) as (b & e & r3 & u & -> & E & Hf & Ht & Hg); [lia|]. destruct b.
      - destruct (IH false r3) as (b' & e' & r4 & u' & -> & E' & Hf' & Hg'); [rewrite E, app_length in L2; specialize (Ht eq_refl); destruct u; [contradiction|]; cbn [length] in *; lia | rewrite E, app_length in L2; lia|].
        exists b', (e ++ e'), r4, (u ++ u'). split; [reflexivity|]. split; [rewrite E, E'; now rewrite app_assoc|]. split; [intros Hb Hn; apply app_eq_nil in Hn as [_ Hn]; now apply Hf'|]. intros Hn. apply app_eq_nil in Hn as [Hn1 Hn2]. exists u, u'. split; [reflexivity|]. split; [now apply Hg | now apply Hg'].
      - exists false, e, r3, u. split; [reflexivity|]. split; [assumption|]. split; [assumption|]. intros Hn. now destruct (Hf eq_refl). }
    cbv zeta. destruct first.
    - destruct (Next (k :: r)) as (b & e & r4 & u & -> & E & Hf & Hg); [lia|]. exists b, e, r4, u. split; [reflexivity|]. split; [assumption|]. split; [assumption|]. intros Hn. right. now apply Hg.
    - destruct (Nat.eqb_spec k KComma) as [-> | N].
      + destruct (match hd_error r with Some k2 => k2 =? close | None => false end).
        * destruct (jc_trailing cfg) eqn:Et; [exists true, [], r, [KComma] | exists false, [2], r, [KComma]]; (split; [reflexivity|]; split; [reflexivity|]; split; [discriminate|]); [intros _; now constructor | discriminate].
        * destruct (Next r) as (b & e & r4 & u & -> & E & Hf & Hg); [cbn [length]; lia|]. exists b, e, r4, (KComma :: u). split; [reflexivity|]. split; [cbn [app]; now rewrite <- E|]. split; [assumption|]. intros Hn. destruct (Hg Hn) as (v & w & -> & Hv & Hw). now constructor.
      + exists true, [0], (k :: r), []. split; [reflexivity|]. split; [reflexivity|]. split; discriminate.
  Qed.

  Lemma aitems_sound m n G A open close : sound m G A -> m < n -> sound (S m) (fun u => u = [open; close] \/ exists s t, seps G s /\ ttrail cfg t /\ u = open :: s ++ t ++ [close]) (aitems cfg n open close A).
  Proof.
    intros HA Hn ks L. unfold aitems. destruct ks as [| k r]; [exists false, [0], [], []; split; [reflexivity|]; split; [reflexivity|]; split; [discriminate|]; split; discriminate|].
    destruct (Nat.eqb_spec k open) as [-> | N]; [|exists false, [0], (k :: r), []; split; [reflexivity|]; split; [reflexivity|]; split; [discriminate|]; split; discriminate].
    cbn [length] in L. destruct (aloop_sound m G A close HA n true r) as (b & e & r2 & u & -> & E & Hf & Hg); [lia | lia|]. destruct b.
    2:{ exists false, e, r2, (open :: u). split; [reflexivity|]. split; [cbn [app]; now rewrite <- E|]. split; [assumption|]. split; [discriminate|]. intros Hn'. now destruct (Hf eq_refl). }
    destruct r2 as [| k2 r3]. { exists false, (e ++ [3]), [], (open :: u). split; [reflexivity|]. split; [cbn [app]; now rewrite <- E|]. split; [intros _ Hn'; now apply app_eq_nil in Hn' as [_ Hn']|]. split; [discriminate|]. intros Hn'. now apply app_eq_nil in Hn' as [_ Hn']. }
    destruct (Nat.eqb_spec k2 close) as [-> | N2].
    2:{ exists false, (e ++ [if k2 =? KEof then 3 else 0]), (k2 :: r3), (open :: u). split; [reflexivity|]. split; [cbn [app]; now rewrite <- E|]. split; [intros _ Hn'; now apply app_eq_nil in Hn' as [_ Hn']|]. split; [discriminate|]. intros Hn'. now apply app_eq_nil in Hn' as [_ Hn']. }
    exists true, e, r3, (open :: u ++ [close]). split; [reflexivity|]. split; [cbn [app]; rewrite <- app_assoc; cbn [app]; now rewrite <- E|]. split; [discriminate|]. split; [discriminate|]. intros Hn'. destruct (Hg Hn') as [-> | (v & w & -> & Hv & Hw)]; [now left|]. right.
    destruct (more_seps G w Hw v Hv) as (s & t & Hs & Ht & ->). exists s, t. split; [assumption|]. split; [assumption|]. now rewrite <- app_assoc.
  Qed.

  Lemma akey_key k : akey cfg k = true <-> tkey cfg k.
  Proof.
    unfold akey. rewrite orb_true_iff, andb_true_iff, !Nat.eqb_eq. split; [intros [-> | [H ->]]; now constructor | intros [|]; [now left | right; now split]].
  Qed.

  Lemma aentry_sound m A : sound m (tvalue cfg) A -> sound (S m) member (aentry cfg A).
  Proof.
    intros HA ks L. unfold aentry. destruct ks as [| k r]; [exists false, [0], [], []; split; [reflexivity|]; split; [reflexivity|]; split; [discriminate|]; split; discriminate|].
    destruct (akey cfg k) eqn:Ek; [|exists false, [0], (k :: r), []; split; [reflexivity|]; split; [reflexivity|]; split; [discriminate|]; split; discriminate]. cbn [length] in L.
    assert (Miss : exists b e r3 u, match A r with Some (b, e, r3) => Some (b, 0 :: e, r3) | None => None end = Some (b, e, r3) /\ k :: r = u ++ r3 /\ (b = false -> e <> []) /\ (b = true -> u <> []) /\ (e = [] -> member u)).
    { destruct (HA r) as (b & e & r3 & u & -> & E & Hf & Ht & Hg); [lia|]. exists b, (0 :: e), r3, (k :: u). split; [reflexivity|]. split; [cbn [app]; now rewrite <- E|]. split; [discriminate|]. split; discriminate. }
    destruct r as [| k2 r2]; [exact Miss|]. destruct (Nat.eqb_spec k2 KColon) as [-> | N]; [|exact Miss]. clear Miss. cbn [length] in L.
    destruct (HA r2) as (b & e & r3 & u & -> & E & Hf & Ht & Hg); [lia|]. exists b, e, r3, (k :: KColon :: u). split; [reflexivity|]. split; [cbn [app]; now rewrite <- E|]. split; [assumption|]. split; [discriminate|]. intros Hn. exists k, u. split; [reflexivity|]. split; [now apply akey_key | now apply Hg].
  Qed.

  Lemma sound_weaken m m' (G G' : list nat -> Prop) A : m' <= m -> (forall u, G u -> G' u) -> sound m G A -> sound m' G' A.
  Proof. intros L H HA ks Lk. destruct (HA ks) as (b & e & r & u & ? & ? & ? & ? & ?); [lia|]. exists b, e, r, u. auto 10. Qed.

  Lemma avalue_sound n : forall fuel m, m < fuel -> m <= n -> sound m (tvalue cfg) (avalue cfg n fuel).
  Proof.
    induction fuel as [| f IH]; intros m L Ln; [lia|]. intros ks Lk. cbn [avalue]. destruct ks as [| k r]; [exists false, [3], [], []; split; [reflexivity|]; split; [reflexivity|]; split; [discriminate|]; split; discriminate|].
    destruct (k =? KEof); [exists false, [3], (k :: r), []; split; [reflexivity|]; split; [reflexivity|]; split; [discriminate|]; split; discriminate|].
    destruct (value_kind k) as [v|] eqn:Ev; [|exists false, [1], (k :: r), []; split; [reflexivity|]; split; [reflexivity|]; split; [discriminate|]; split; discriminate].
    cbn [length] in Lk. destruct m as [| m]; [lia|]. specialize (IH m ltac:(lia) ltac:(lia)).
    destruct (v =? KObject) eqn:Eo.
    { apply (sound_weaken (S m) (S m) (fun u => u = [KLBrace; KRBrace] \/ exists s t, seps member s /\ ttrail cfg t /\ u = KLBrace :: s ++ t ++ [KRBrace])); [lia| | |cbn [length]; lia].
      - intros u [-> | (s & t & Hs & Ht & ->)]; [constructor|]. constructor; [now apply seps_members | assumption].
      - apply aitems_sound; [|lia]. apply (sound_weaken (S m) m member); [lia | auto|]. now apply aentry_sound. }
    destruct (v =? KArray) eqn:Ea.
    { apply (sound_weaken (S m) (S m) (fun u => u = [KLBracket; KRBracket] \/ exists s t, seps (tvalue cfg) s /\ ttrail cfg t /\ u = KLBracket :: s ++ t ++ [KRBracket])); [lia| | |cbn [length]; lia].
      - intros u [-> | (s & t & Hs & Ht & ->)]; [constructor|]. constructor; [now apply seps_values | assumption].
      - apply aitems_sound; [assumption | lia]. }
    exists true, [], r, [k]. split; [reflexivity|]. split; [reflexivity|]. split; [discriminate|]. split; [discriminate|]. intros _. unfold value_kind in Ev.
    destruct (Nat.eqb_spec k KLBrace); [injection Ev as <-; discriminate|]. destruct (Nat.eqb_spec k KLBracket); [injection Ev as <-; discriminate|].
    constructor. cbn [In]. destruct (Nat.eqb_spec k KStringLit); [auto|]. destruct (Nat.eqb_spec k KNumberLit); [auto|]. destruct (Nat.eqb_spec k KBooleanLit); [auto|]. destruct (Nat.eqb_spec k KNullLit); [auto | discriminate].
  Qed.

  (** ** Completeness *)
  Definition complete (m : nat) (G : list nat -> Prop) (A : list nat -> res) : Prop := forall v r, G v -> length v <= m -> A (v ++ r) = Some (true, [], r).
  Definition begins (close : nat) (G : list nat -> Prop) : Prop := forall v, G v -> exists k r, v = k :: r /\ k <> close /\ k <> KEof.

  Lemma seps_length (G : list nat -> Prop) s : seps G s -> forall close, begins close G -> 0 < length s.
  Proof. intros H close B. destruct H as [v Hv | v s Hv _]; destruct (B v Hv) as (k & r & -> & _); cbn; lia. Qed.

  Lemma aloop_complete m G A close t r : complete m G A -> begins close G -> close <> KComma -> ttrail cfg t -> forall s, seps G s -> length s <= m -> forall fuel, length s < fuel ->
    aloop cfg close A fuel true (s ++ t ++ close :: r) = Some (true, [], close :: r) /\ aloop cfg close A fuel false (KComma :: s ++ t ++ close :: r) = Some (true, [], close :: r).
  Proof.
    intros HA HB Nc Ht.
    assert (Last : forall f, 0 < f -> aloop cfg close A f false (t ++ close :: r) = Some (true, [], close :: r)).
    { intros [| f] Lf; [lia|]. destruct Ht as [| Ht]; cbn [app aloop]; [now rewrite Nat.eqb_refl|]. destruct (Nat.eqb_spec KComma close); [congruence|]. cbn [Nat.eqb KComma KEof hd_error]. rewrite Nat.eqb_refl, Ht. reflexivity. }
    intros s Hs. induction Hs as [v Hv | v s Hv Hs IH]; intros Lm fuel Lf; (destruct fuel as [| f]; [lia|]); destruct (HB v Hv) as (k & w & Ek & N1 & N2).
    - assert (Next : match A (v ++ t ++ close :: r) with None => None | Some (false, e, r3) => Some (false, e, r3) | Some (true, e, r3) => match aloop cfg close A f false r3 with Some (b, e', r4) => Some (b, e ++ e', r4) | None => None end end = Some (true, [], close :: r)).
      { rewrite (HA v _ Hv Lm), Last; [reflexivity|]. rewrite Ek in Lf. cbn in Lf. lia. }
      split.
      + rewrite Ek in *. cbn [app] in *. cbn [aloop]. destruct (Nat.eqb_spec k close); [contradiction|]. destruct (Nat.eqb_spec k KEof); [contradiction|]. exact Next.
      + cbn [aloop]. destruct (Nat.eqb_spec KComma close); [congruence|]. change (KComma =? KEof) with false. rewrite Nat.eqb_refl. cbv zeta iota. rewrite Ek in *. cbn [app hd_error] in *. destruct (Nat.eqb_spec k close); [contradiction|]. exact Next.
    - rewrite app_length in Lm, Lf. cbn [length] in Lm, Lf. assert (Next : match A ((v ++ KComma :: s) ++ t ++ close :: r) with None => None | Some (false, e, r3) => Some (false, e, r3) | Some (true, e, r3) => match aloop cfg close A f false r3 with Some (b, e', r4) => Some (b, e ++ e', r4) | None => None end end = Some (true, [], close :: r)).
      { rewrite <- app_assoc, (HA v _ Hv ltac:(lia)). cbn [app]. destruct (IH ltac:(lia) f ltac:(lia)) as [_ ->]. reflexivity. }
      split.
      + rewrite Ek in *. cbn [app] in *. cbn [aloop]. destruct (Nat.eqb_spec k close); [contradiction|]. destruct (Nat.eqb_spec k KEof); [contradiction|]. exact Next.
      + cbn [aloop]. destruct (Nat.eqb_spec KComma close); [congruence|]. change (KComma =? KEof) with false. rewrite Nat.eqb_refl. cbv zeta iota. rewrite Ek in *. cbn [app hd_error] in *. destruct (Nat.eqb_spec k close); [contradiction|]. exact Next.
  Qed.

  Lemma value_begins close : close = KRBrace \/ close = KRBracket -> begins close (tvalue cfg).
  Proof.
    intros Hc v Hv. assert (H : exists k r, v = k :: r /\ existsb (Nat.eqb k) [KStringLit; KNumberLit; KBooleanLit; KNullLit; KLBracket; KLBrace] = true).
    { destruct Hv as [k Hk | | s t Hs Ht | | s t Hs Ht]; eexists; eexists; (split; [reflexivity|]); try reflexivity. apply existsb_exists. exists k. split; [cbn in Hk |- *; tauto | apply Nat.eqb_refl]. }
    destruct H as (k & r & -> & H). exists k, r. split; [reflexivity|]. split; intros ->; [destruct Hc; subst close|]; discriminate.
  Qed.
  Lemma member_begins : begins KRBrace member.
  Proof. intros v (k & w & -> & Hk & _). exists k, (KColon :: w). split; [reflexivity|]. destruct Hk; split; discriminate. Qed.

  Lemma avalue_complete n : forall fuel m, m < fuel -> m <= n -> complete m (tvalue cfg) (avalue cfg n fuel).
  Proof.
    induction fuel as [| f IH]; intros m L Ln; [lia|]. intros v r Hv Lv. destruct m as [| m]. { destruct Hv as [k Hk | | s t Hs Ht | | s t Hs Ht]; cbn in Lv; lia. }
    specialize (IH m ltac:(lia) ltac:(lia)).
    assert (IE : complete m member (aentry cfg (avalue cfg n f))).
    { intros u r' (k & w & -> & Hk & Hw) Lu. cbn [length] in Lu. cbn [app]. unfold aentry. rewrite (proj2 (akey_key k) Hk), Nat.eqb_refl. apply IH; [assumption | lia]. }
    destruct Hv as [k Hk | | s t Hs Ht | | s t Hs Ht].
    - cbn [app]. cbn [In] in Hk. destruct Hk as [<- | [<- | [<- | [<- | []]]]]; reflexivity.
    - cbn [app avalue]. cbn. destruct n; [lia|]. reflexivity.
    - cbn [app]. cbn [length] in Lv. rewrite !app_length in Lv. cbn [length] in Lv. cbn [avalue]. change (KLBracket =? KEof) with false. cbn [value_kind]. unfold value_kind. cbn [Nat.eqb KLBracket KLBrace KObject KArray]. unfold aitems. rewrite Nat.eqb_refl.
      destruct (aloop_complete m (tvalue cfg) (avalue cfg n f) KRBracket t r IH (value_begins _ (or_intror eq_refl)) ltac:(discriminate) Ht s (proj2 (seps_values s) Hs) ltac:(lia) n ltac:(lia)) as [E _]. rewrite <- !app_assoc. cbn [app]. rewrite E. reflexivity.
    - cbn [app avalue]. cbn. destruct n; [lia|]. reflexivity.
    - cbn [app]. cbn [length] in Lv. rewrite !app_length in Lv. cbn [length] in Lv. cbn [avalue]. change (KLBrace =? KEof) with false. unfold value_kind. cbn [Nat.eqb KLBrace KObject]. unfold aitems. rewrite Nat.eqb_refl.
      destruct (aloop_complete m member (aentry cfg (avalue cfg n f)) KRBrace t r IE member_begins ltac:(discriminate) Ht s (proj2 (seps_members s) Hs) ltac:(lia) n ltac:(lia)) as [E _]. rewrite <- !app_assoc. cbn [app]. rewrite E. reflexivity.
  Qed.
End Accept.

(** ** Whole parses *)
Lemma skipn_add {A} a b (l : list A) : skipn a (skipn b l) = skipn (b + a) l.
Proof. revert l. induction b as [| b IH]; intros l; [reflexivity|]. destruct l; cbn [Nat.add skipn]; [now rewrite !skipn_nil | apply IH]. Qed.
Lemma filter_shorter {A} (p : A -> bool) l : length (filter p l) <= length l.
Proof. induction l as [| x r IH]; [reflexivity|]. cbn. destruct (p x); cbn; lia. Qed.

Lemma run_parser_spec cfg toks n : lengths_fit toks -> (Z.of_nat (list_sum (map (fun t => snd (tok_yield t)) toks)) < 2 ^ 32)%Z ->
  exists root errs lead used left, run_parser cfg (ps_new ignored toks n []) = Some (root, errs) /\ toks = lead ++ used ++ left /\
    Forall (fun t => ignored (tk_kind t) = true) lead /\ match left with [] => True | t :: _ => ignored (tk_kind t) = false end /\ match used ++ left with [] => True | t :: _ => ignored (tk_kind t) = false end /\
    built root /\ yield root = map tok_yield used /\ (exists ch, root = GNode KRoot (width root) ch) /\
    (errs = [] -> tvalue cfg (kinds used)) /\ (forall v r, kinds toks = v ++ r -> tvalue cfg v -> errs = [] /\ kinds used = v).
Proof.
  intros Hf Hs. unfold run_parser, ps_new. set (s0 := PState toks 0 [] 0 [] n None).
  assert (G0 : good toks True s0). { split; [reflexivity|]. split; [cbn; lia|]. split; [constructor|]. split; [reflexivity | intros _; reflexivity]. }
  destruct (skip_loop_exact ignored (length (ps_toks s0) - ps_index s0) s0 Hf (le_n _)) as (lead & T0 & Fl & Y0 & I0). destruct (skip_loop_push ignored (length (ps_toks s0) - ps_index s0) s0) as (l0 & L0 & E0 & _ & N0 & Tk0 & _).
  set (s := skip_trivia ignored s0). change (skip_trivia_loop ignored (length (ps_toks s0) - ps_index s0) s0) with s in *.
  assert (O : ok toks s). { split; [now apply skip_good|]. split; [apply skip_settled | exact N0]. }
  rewrite Tk0. change (ps_toks s0) with toks in *. cbn [s0 ps_index] in I0. change (to_come s0) with toks in T0.
  assert (Lr : length (rest s) <= length toks). { rewrite T0, app_length. unfold rest, kinds. pose proof (filter_shorter (fun k => negb (ignored k)) (map tk_kind (to_come s))). rewrite map_length in *. lia. }
  destruct (avalue_sound cfg (S (length toks)) (S (length toks)) (length toks) ltac:(lia) ltac:(lia) (rest s) Lr) as (b & e & r & u & A & Eu & _ & _ & Hg).
  destruct (value_follows cfg toks Hf Hs (S (length toks)) eq_refl (S (length toks)) s b e r O A) as (s1 & -> & G1). destruct G1 as (O1 & R1 & (l1 & L1) & E1). rewrite (skip_rest s1 (proj1 (proj2 O1))).
  assert (F : exists root, new_node KRoot (map snd (skipn (length (ps_sink s)) (ps_sink s1))) = Some root /\ width root = list_sum (map width (map snd l1)) /\ yield root = flat_map yield (map snd l1) /\ built root /\ (exists ch, root = GNode KRoot (width root) ch)).
  { destruct O1 as ((Tk & Ix & Bt & Wd & Yd) & _). unfold new_node. rewrite L1, skipn_app, skipn_all, Nat.sub_diag. cbn [app skipn]. unfold sink_trees in *. rewrite L1, map_app in Bt, Wd. rewrite map_app, list_sum_app in Wd. apply Forall_app in Bt as [_ Bt]. pose proof (sum_len_width _ Bt) as Sw.
    assert (F : list_sum (map (fun t => snd (tok_yield t)) (firstn (ps_index s1) toks)) <= list_sum (map (fun t => snd (tok_yield t)) toks)) by (rewrite <- (firstn_skipn (ps_index s1) toks) at 2; rewrite map_app, list_sum_app; lia).
    destruct (fits_u32 (sum_len (map snd l1))) eqn:Ef.
    - eexists. split; [reflexivity|]. split; [reflexivity|]. split; [reflexivity|]. split; [apply (BNode KRoot (map snd l1)); [assumption|]; unfold new_node; now rewrite Ef|]. eexists. cbn [width]. now rewrite Sw.
    - exfalso. unfold fits_u32 in Ef. rewrite Sw in Ef. clear - Ef Wd F Hs. lia. }
  destruct F as (root & Fn & Fw & Fy & Fb & Fc). unfold finish_at. cbn [checkpoint snd]. assert (length (ps_sink s1) <? length (ps_sink s) = false) as -> by (apply Nat.ltb_ge; rewrite L1, app_length; lia). rewrite Fn. cbn [ps_errs].
  assert (Es : ps_errs s = []) by exact E0. rewrite Es in E1. cbn [map app] in E1.
  assert (Ix : ps_index s <= ps_index s1 /\ map tok_yield (firstn (ps_index s1) toks) = map tok_yield lead ++ flat_map yield (map snd l1)).
  { assert (Y1 : in_tree s1 = in_tree s ++ flat_map yield (map snd l1)) by (unfold in_tree, sink_trees; now rewrite L1, map_app, flat_map_app).
    pose proof (proj2 (proj2 (proj2 (proj2 (proj1 O1)))) I) as Y1'. rewrite Y1, Y0 in Y1'. cbn [in_tree sink_trees s0 ps_sink map flat_map app] in Y1'. split; [|now symmetry].
    apply (f_equal (@length _)) in Y1'. rewrite app_length, !map_length, firstn_length in Y1'. destruct O1 as ((_ & Ix & _) & _). lia. }
  destruct Ix as [Ix Iy]. rewrite I0 in Ix. cbn [Nat.add] in Ix, I0.
  assert (Ts : exists used, to_come s = used ++ to_come s1 /\ firstn (ps_index s1) toks = lead ++ used).
  { exists (firstn (ps_index s1 - length lead) (to_come s)). split.
    - rewrite <- (firstn_skipn (ps_index s1 - length lead) (to_come s)) at 1. f_equal. unfold to_come. rewrite (proj1 (proj1 O1)), Tk0, skipn_add, I0. f_equal. lia.
    - rewrite T0 at 1. rewrite firstn_app. f_equal. apply firstn_all2. lia. }
  destruct Ts as (used & Ts & Tf). exists root, (ps_errs s1), lead, used, (to_come s1). split; [reflexivity|]. split; [now rewrite <- Ts|]. split; [assumption|].
  split; [exact (proj1 (proj2 O1))|]. split; [rewrite <- Ts; exact (proj1 (proj2 O))|]. split; [assumption|]. split; [rewrite Tf, map_app in Iy; apply app_inv_head in Iy; congruence|]. split; [assumption|].
  assert (Ku : kinds used = u). { unfold rest in *. rewrite Ts, kinds_app, R1 in Eu. now apply app_inv_tail in Eu. }
  assert (Ee : ps_errs s1 = [] <-> e = []) by (destruct (ps_errs s1), e; split; intros; try reflexivity; discriminate).
  split; [rewrite Ku, Ee; exact Hg|]. intros v r' Ek Hv. rewrite T0, kinds_app, (kinds_trivia lead Fl) in Ek. cbn [app] in Ek. fold (rest s) in Ek.
  pose proof (avalue_complete cfg (S (length toks)) (S (length toks)) (length toks) ltac:(lia) ltac:(lia) v r' Hv) as C. rewrite <- Ek in C. rewrite C in A by (rewrite Ek, app_length in Lr; lia). injection A as <- <- <-. split; [now apply Ee|]. rewrite Ku. rewrite Ek in Eu. now apply app_inv_tail in Eu.
Qed.
