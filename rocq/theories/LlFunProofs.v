(** Printing and building of LLVM IR functions. *)
From Verif Require Import Base Utf8 Utf8Facts ScanSpec CursorModel CursorSpec CursorProofs RopeModel LexModel LexSpec TreeModel TreeSpec TreeProofs VfsModel ParserModel ParserSpec ParserProofs.
From Verif Require Import JsonLangSpec LangModel LangSpec LangLexProofs LangParseProofs IniModel LlModel LlSpec LlLexProofs LlBuildSpec LlBuildProofs.
From Verif Require JsonAstBuildProofs LlProofs.

(** ** Runs of the parser *)
Section Runs.
  Variable (toks : list token).
  Hypothesis Hfit : (Z.of_nat (toklen toks) < 2 ^ 32)%Z.
  Notation sees := (sees toks).

  Lemma no_trivia_split bt tl : (forall t, hd_error tl = Some t -> ll_ignored (tk_kind t) = false) -> exists w bt', bt = w ++ bt' /\ no_trivia ll_ignored (bt ++ tl) = bt' ++ tl /\ trivia ll_ignored (bt ++ tl) = w /\
    match bt' with t :: _ => ll_ignored (tk_kind t) = false | [] => True end.
  Proof.
    intros H. induction bt as [| t bt (w & bt' & E & N & T & K)].
    - exists [], []. cbn [app]. destruct tl as [| t tl]; [now repeat split|]. cbn [no_trivia trivia]. rewrite (H t eq_refl). now repeat split.
    - cbn [app no_trivia trivia]. destruct (ll_ignored (tk_kind t)) eqn:I.
      + exists (t :: w), bt'. rewrite E at 1. split; [reflexivity|]. split; [exact N|]. split; [now rewrite T | exact K].
      + exists [], (t :: bt). now repeat split.
  Qed.

  (** A loop that takes tokens while their kind is one of some *)
  Section Loop.
    Variables (go : pstate -> bool) (body : pstate -> pstate) (goK : nat -> bool) (Q : token -> Prop).
    Hypothesis Hgo : forall s t r trees, sees s (t :: r) trees -> go s = goK (tk_kind t).
    Hypothesis Hbody : forall s t r trees, sees s (t :: r) trees -> (forall u, hd_error (no_trivia ll_ignored r) = Some u -> Q u) -> body s = ll_bump s.
    Lemma run_to : forall n bt tl s trees, sees s (bt ++ tl) trees -> Forall (fun t => goK (tk_kind t) = true /\ Q t) bt -> match bt with t :: _ => ll_ignored (tk_kind t) = false | [] => True end ->
      (forall t, hd_error tl = Some t -> ll_ignored (tk_kind t) = false /\ goK (tk_kind t) = false /\ Q t) -> length bt <= n ->
      sees (ll_while go body n s) tl (trees ++ map tokleaf bt) /\ ps_errs (ll_while go body n s) = ps_errs s.
    Proof.
      induction n as [| n IH]; intros bt tl s trees V F K H L.
      - destruct bt; [|cbn in L; lia]. cbn [ll_while map]. rewrite app_nil_r. now split.
      - destruct bt as [| t bt].
        + cbn [app map] in *. rewrite app_nil_r. rewrite while_stop; [now split|]. rewrite (sees_end _ _ _ _ V). destruct tl as [| t tl]; [reflexivity|]. rewrite (Hgo _ _ _ _ V). destruct (H t eq_refl) as (_ & -> & _). reflexivity.
        + cbn [app] in V. cbn [ll_while]. assert (G : ps_not_at_end s && go s = true) by (rewrite (sees_end _ _ _ _ V), (Hgo _ _ _ _ V); apply Forall_inv in F; destruct F as [-> _]; reflexivity).
          rewrite G. pose proof (sees_bump ll_ignored toks Hfit s t (bt ++ tl) trees V) as V1. destruct (no_trivia_split bt tl) as (w & bt' & E & N & T & K'); [intros u Hu; now apply H|].
          assert (F' : Forall (fun t => goK (tk_kind t) = true /\ Q t) bt') by (apply Forall_inv_tail in F; rewrite E in F; apply Forall_app in F; apply F).
          assert (B : body s = ll_bump s). { apply (Hbody s t (bt ++ tl) trees V). rewrite N. intros u Hu. destruct bt' as [| x bt']; [now apply H|]. cbn in Hu. injection Hu as <-. apply Forall_inv in F'. apply F'. }
          rewrite B. rewrite N, T in V1. change (bump ll_ignored s) with (ll_bump s) in V1. cbn [length] in L. rewrite E, app_length in L. destruct (IH bt' tl (ll_bump s) _ V1 F' K' H ltac:(lia)) as [V2 E2]. split; [|rewrite E2; apply bump_err].
          rewrite <- app_assoc in V2. cbn [app] in V2. rewrite E. cbn [map]. rewrite map_app. exact V2.
    Qed.
    Lemma loop_to bt tl s trees : sees s (bt ++ tl) trees -> Forall (fun t => goK (tk_kind t) = true /\ Q t) bt -> match bt with t :: _ => ll_ignored (tk_kind t) = false | [] => True end ->
      (forall t, hd_error tl = Some t -> ll_ignored (tk_kind t) = false /\ goK (tk_kind t) = false /\ Q t) ->
      sees (ll_loop go body s) tl (trees ++ map tokleaf bt) /\ ps_errs (ll_loop go body s) = ps_errs s.
    Proof. intros V F K H. apply run_to; try assumption. rewrite (sees_length _ _ _ _ V), app_length. lia. Qed.
  End Loop.

  Definition gapK (k : nat) : bool := (k =? LvWhitespace) || (k =? LvNewline) || (k =? LvComment).
  Lemma skip_to bt tl s trees : sees s (bt ++ tl) trees -> Forall (fun t => gapK (tk_kind t) = true) bt -> match bt with t :: _ => ll_ignored (tk_kind t) = false | [] => True end ->
    (forall t, hd_error tl = Some t -> gapless (tk_kind t)) -> sees (ll_skip s) tl (trees ++ map tokleaf bt) /\ ps_errs (ll_skip s) = ps_errs s.
  Proof.
    intros V F K H. apply (loop_to at_gap ll_bump gapK (fun _ => True)); try assumption.
    - intros s' t r tr V'. unfold at_gap, gapK. now rewrite !(sees_at _ _ _ _ _ V').
    - reflexivity.
    - eapply Forall_impl; [|exact F]. intros t Ht. now split.
    - intros t Ht. destruct (H t Ht) as (A & B & C). split; [now apply not_ign|]. split; [|exact I]. unfold gapK. apply Nat.eqb_neq in A, B, C. now rewrite A, B, C.
  Qed.
  (** A bump over a token and the blanks behind it *)
  Lemma bump_ws s t ws u r trees : sees s (t :: ws ++ u :: r) trees -> Forall (fun t => tk_kind t = LvWhitespace) ws -> ll_ignored (tk_kind u) = false -> sees (ll_bump s) (u :: r) (trees ++ map tokleaf (t :: ws)).
  Proof.
    intros V W K. pose proof (sees_bump ll_ignored toks Hfit s t (ws ++ u :: r) trees V) as V1.
    assert (E : no_trivia ll_ignored (ws ++ u :: r) = u :: r /\ trivia ll_ignored (ws ++ u :: r) = ws).
    { clear V V1. induction W as [| w ws Hw _ [IH1 IH2]]; cbn [app no_trivia trivia]; [rewrite K; now split|]. rewrite Hw. cbn [ll_ignored LvWhitespace Nat.eqb orb]. rewrite IH1, IH2. now split. }
    destruct E as [E1 E2]. rewrite E1, E2 in V1. exact V1.
  Qed.
  Lemma expect_at s k t ws u r trees : sees s (t :: ws ++ u :: r) trees -> tk_kind t = k -> Forall (fun t => tk_kind t = LvWhitespace) ws -> ll_ignored (tk_kind u) = false ->
    ll_expect k s = Some (true, ll_bump s) /\ sees (ll_bump s) (u :: r) (trees ++ map tokleaf (t :: ws)).
  Proof. intros V E W K. split; [|now apply bump_ws with (u := u)]. unfold ll_expect, expect, eat. rewrite (sees_at _ _ _ _ _ V), E, Nat.eqb_refl. reflexivity. Qed.
  Lemma finish_to s rest pre ch i kind : sees s rest (pre ++ ch) -> exists s', ll_finish (i, length pre) kind s = Some (true, s') /\ sees s' rest (pre ++ [gnode kind ch]) /\ ps_errs s' = ps_errs s.
  Proof. intros V. destruct (sees_finish ll_ignored toks Hfit s rest pre ch i kind V) as (m & s' & E & V' & Er). exists s'. unfold ll_finish. rewrite E. split; [reflexivity|]. split; [exact V' | exact Er]. Qed.
  Lemma checkpoint_at s rest trees : sees s rest trees -> exists i, checkpoint s = (i, length trees).
  Proof. intros (_ & _ & _ & Sk & _). eexists. unfold checkpoint. f_equal. now rewrite <- Sk, map_length. Qed.
End Runs.

(** ** The body of a function *)
Inductive tentry := TLab (tk tc : token) (sep : list token) | TIns (bt sep : list token).
Definition tok_entry (e : tentry) : list token := match e with TLab tk tc sep => tk :: tc :: sep | TIns bt sep => bt ++ sep end.
Definition sep_ok (sep : list token) : Prop := exists n ws, sep = n :: ws /\ tk_kind n = LvNewline /\ Forall (fun t => tk_kind t = LvWhitespace) ws.
Definition entry_ok (e : tentry) : Prop :=
  match e with
  | TLab tk tc sep => tk_kind tk = LvKeyword /\ tk_kind tc = LvColon /\ sep_ok sep
  | TIns bt sep => sep_ok sep /\ Forall (fun t => tk_kind t <> LvNewline /\ tk_kind t <> LvRBrace) bt /\
      exists t u r, bt = t :: u :: r /\ (tk_kind t = LvLocalVar \/ tk_kind t = LvKeyword) /\ tk_kind u <> LvColon
  end.
Definition entry_trees (e : tentry) : list green := match e with TLab tk tc sep => map tokleaf (tk :: tc :: sep) | TIns bt sep => gnode LvInstruction (map tokleaf bt) :: map tokleaf sep end.
Fixpoint grow (es : list tentry) (st : list green * list green * bool) : list green * list green * bool :=
  let '(pre, cur, flag) := st in
  match es with
  | [] => st
  | (TLab _ _ _) as e :: r => grow r (if flag then pre ++ [gnode LvBlock cur] else pre, entry_trees e, true)
  | (TIns _ _) as e :: r => grow r (pre, cur ++ entry_trees e, true)
  end.

Section Body.
  Variable (toks : list token).
  Hypothesis Hfit : (Z.of_nat (toklen toks) < 2 ^ 32)%Z.
  Notation sees := (sees toks).

  Lemma next_gapless es te tl : Forall entry_ok es -> tk_kind te = LvRBrace -> exists u r, flat_map tok_entry es ++ te :: tl = u :: r /\ gapless (tk_kind u).
  Proof.
    intros F K. destruct F as [| e es He _]; [exists te, tl; split; [reflexivity | rewrite K; repeat split; discriminate]|]. destruct e as [tk tc sep | bt sep].
    - destruct He as (K1 & _). eexists _, _. split; [reflexivity|]. rewrite K1. repeat split; discriminate.
    - destruct He as (_ & _ & t & u & r & -> & [K1 | K1] & _); (eexists _, _; split; [reflexivity|]; rewrite K1; repeat split; discriminate).
  Qed.
  Lemma gapless_plain k : gapless k -> ll_ignored k = false.
  Proof. intros (A & B & C). now apply not_ign. Qed.
  Lemma skip_sep s sep rest trees : sees s (sep ++ rest) trees -> sep_ok sep -> (exists u r, rest = u :: r /\ gapless (tk_kind u)) -> sees (ll_skip s) rest (trees ++ map tokleaf sep) /\ ps_errs (ll_skip s) = ps_errs s.
  Proof.
    intros V (n & ws & -> & Kn & W) (u & r & -> & G). apply skip_to; try assumption.
    - constructor; [now rewrite Kn|]. eapply Forall_impl; [|exact W]. intros t ->. reflexivity.
    - now rewrite Kn.
    - intros t [= <-]. exact G.
  Qed.

  Lemma body_run : forall es pre cur flag block s fuel te tl, Forall entry_ok es -> tk_kind te = LvRBrace -> sees s (flat_map tok_entry es ++ te :: tl) (pre ++ cur) ->
    (flag = false -> cur = []) -> snd (fst block) = length pre -> snd block = flag -> length es < fuel ->
    exists block' s', ll_body fuel block s = Some (block', s') /\ let '(pre', cur', flag') := grow es (pre, cur, flag) in
      sees s' (te :: tl) (pre' ++ cur') /\ (flag' = false -> cur' = []) /\ snd (fst block') = length pre' /\ snd block' = flag' /\ ps_errs s' = ps_errs s.
  Proof.
    induction es as [| e es IH]; intros pre cur flag block s fuel te tl F Kte V Hc Hb Hf L; (destruct fuel as [| fuel]; [cbn in L; lia|]).
    - cbn [flat_map app] in V. cbn [ll_body grow]. rewrite (sees_end _ _ _ _ V), (sees_at _ _ _ _ _ V), Kte, Nat.eqb_refl. cbn [negb andb]. exists block, s. split; [reflexivity|]. split; [exact V|]. split; [exact Hc|]. split; [exact Hb|]. now split.
    - apply Forall_cons_iff in F. destruct F as [He F]. destruct (next_gapless es te tl F Kte) as (u & r & Er & Gu). cbn [flat_map] in V. rewrite <- app_assoc in V. cbn [length] in L. destruct e as [tk tc sep | bt sep].
      + destruct He as (K1 & K2 & Sp). cbn [tok_entry app] in V. cbn [ll_body]. rewrite (sees_end _ _ _ _ V), !(sees_at _ _ _ _ _ V), K1. change (LvKeyword =? LvRBrace) with false. change (LvKeyword =? LvKeyword) with true. cbn [negb andb].
        assert (Nx : nth_error (ps_toks s) (S (ps_index s)) = Some tc).
        { destruct V as (T & _ & R & _). rewrite T. replace (S (ps_index s)) with (ps_index s + 1) by lia. rewrite <- nth_error_skipn, R. reflexivity. }
        rewrite Nx, K2, Nat.eqb_refl.
        assert (Fin : exists s1, (if snd block then ll_finish (fst block) LvBlock s else Some (true, s)) = Some (true, s1) /\ sees s1 (tk :: tc :: sep ++ flat_map tok_entry es ++ te :: tl) (if flag then pre ++ [gnode LvBlock cur] else pre) /\ ps_errs s1 = ps_errs s).
        { rewrite Hf. destruct flag; [|exists s; rewrite (Hc eq_refl), app_nil_r in V; split; [reflexivity|]; split; [exact V | reflexivity]].
          destruct block as [[i j] b]. cbn [fst snd] in *. subst j. exact (finish_to toks Hfit s _ pre cur i LvBlock V). }
        destruct Fin as (s1 & -> & V1 & Er1). set (pre' := if flag then pre ++ [gnode LvBlock cur] else pre) in *.
        pose proof (bump_ws toks Hfit s1 tk [] tc _ pre' V1 (Forall_nil _) ltac:(now rewrite K2)) as V2. pose proof Sp as Sp'. destruct Sp' as (n & ws & En & Kn & W). rewrite En in V2. cbn [app] in V2.
        pose proof (bump_ws toks Hfit _ tc [] n _ _ V2 (Forall_nil _) ltac:(now rewrite Kn)) as V3. change (n :: ws ++ flat_map tok_entry es ++ te :: tl) with ((n :: ws) ++ flat_map tok_entry es ++ te :: tl) in V3. rewrite <- En in V3.
        destruct (skip_sep _ sep _ _ V3 Sp) as [V4 Er4]; [exists u, r; now split|]. destruct (checkpoint_at toks s1 _ _ V1) as (i & Ei). rewrite Ei.
        rewrite <- !app_assoc in V4. cbn [map app] in V4.
        destruct (IH pre' (entry_trees (TLab tk tc sep)) true ((i, length pre'), true) (ll_skip (ll_bump (ll_bump s1))) fuel te tl F Kte V4 ltac:(discriminate) eq_refl eq_refl ltac:(lia)) as (block' & s' & E' & R). exists block', s'. split; [exact E'|].
        cbn [grow]. fold pre'. destruct (grow es (pre', entry_trees (TLab tk tc sep), true)) as [[p' c'] f']. destruct R as (R1 & R2 & R3 & R4 & R5). split; [exact R1|]. split; [exact R2|]. split; [exact R3|]. split; [exact R4|]. rewrite R5, Er4, !bump_err. exact Er1.
      + destruct He as (Sp & Fb & t & v & b & Eb & Kt & Kv). cbn [tok_entry] in V. rewrite <- app_assoc in V. pose proof V as V0. rewrite Eb in V0. cbn [app] in V0. cbn [ll_body]. rewrite (sees_end _ _ _ _ V0), !(sees_at _ _ _ _ _ V0).
        assert (Nx : nth_error (ps_toks s) (S (ps_index s)) = Some v).
        { destruct V0 as (T & _ & R & _). rewrite T. replace (S (ps_index s)) with (ps_index s + 1) by lia. rewrite <- nth_error_skipn, R. reflexivity. }
        rewrite Nx. apply Nat.eqb_neq in Kv. rewrite Kv, andb_false_r.
        assert (Nr : (tk_kind t =? LvRBrace) = false /\ (tk_kind t =? LvLocalVar) || (tk_kind t =? LvKeyword) = true /\ ll_ignored (tk_kind t) = false) by (destruct Kt as [-> | ->]; now repeat split).
        destruct Nr as (Nr & Nk & Ni). rewrite Nr, Nk. cbn [negb andb]. destruct (checkpoint_at toks s _ _ V) as (i & Ei). rewrite Ei.
        pose proof Sp as Sp'. destruct Sp' as (n & ws & En & Kn & W).
        destruct (loop_to toks Hfit (fun s => negb (at_kind s LvNewline) && negb (at_kind s LvRBrace)) ll_bump (fun k => negb (k =? LvNewline) && negb (k =? LvRBrace)) (fun _ => True)
          (fun s t r trees V => ltac:(cbv beta; rewrite !(sees_at _ _ _ _ _ V); reflexivity)) (fun _ _ _ _ _ _ => eq_refl) bt (sep ++ flat_map tok_entry es ++ te :: tl) s (pre ++ cur) V) as [V1 E1].
        { eapply Forall_impl; [|exact Fb]. intros x [A B]. apply Nat.eqb_neq in A, B. rewrite A, B. now split. }
        { now rewrite Eb. }
        { rewrite En. intros x [= <-]. rewrite Kn. now repeat split. }
        set (s1 := ll_loop _ ll_bump s) in *. destruct (finish_to toks Hfit s1 _ (pre ++ cur) (map tokleaf bt) i LvInstruction V1) as (s2 & E2 & V2 & Er2). rewrite E2.
        destruct (skip_sep _ sep _ _ V2 Sp) as [V3 Er3]; [exists u, r; now split|]. rewrite <- !app_assoc in V3. cbn [app] in V3.
        set (block0 := if snd block then block else ((i, length (pre ++ cur)), true)) in *.
        assert (B0 : snd (fst block0) = length pre /\ snd block0 = true). { unfold block0. rewrite Hf. destruct flag; [now split|]. cbn [fst snd]. rewrite (Hc eq_refl), app_nil_r. now split. }
        destruct (IH pre (cur ++ entry_trees (TIns bt sep)) true block0 (ll_skip s2) fuel te tl F Kte V3 ltac:(discriminate) (proj1 B0) (proj2 B0) ltac:(lia)) as (block' & s' & E' & R). exists block', s'. split; [exact E'|].
        cbn [grow]. destruct (grow es (pre, cur ++ entry_trees (TIns bt sep), true)) as [[p' c'] f']. destruct R as (R1 & R2 & R3 & R4 & R5). split; [exact R1|]. split; [exact R2|]. split; [exact R3|]. split; [exact R4|]. rewrite R5, Er3, Er2. exact E1.
  Qed.
End Body.

(** ** A whole function *)
Lemma grow_prefix a : forall es pre cur flag, grow es (a ++ pre, cur, flag) = let '(p, c, f) := grow es (pre, cur, flag) in (a ++ p, c, f).
Proof.
  induction es as [| e es IH]; intros pre cur flag; [reflexivity|]. destruct e; cbn [grow]; [|apply IH]. destruct flag; [|apply IH]. rewrite <- app_assoc. apply IH.
Qed.
Definition blocks_of (es : list tentry) : list green := let '(p, c, f) := grow es ([], [], false) in if f then p ++ [gnode LvBlock c] else p.

Definition par_ok (bt : list token) : Prop := Forall (fun t => tk_kind t <> LvComma /\ tk_kind t <> LvRParen) bt /\ exists t r, bt = t :: r /\ gapless (tk_kind t).
Fixpoint pars_ok (ps : list (list token * list token)) : Prop :=
  match ps with
  | [] => True
  | (bt, sep) :: r => par_ok bt /\ match r with [] => sep = [] | _ => exists c ws, sep = c :: ws /\ tk_kind c = LvComma /\ Forall (fun t => tk_kind t = LvWhitespace) ws end /\ pars_ok r
  end.
Definition par_toks (p : list token * list token) : list token := fst p ++ snd p.
Definition par_trees (p : list token * list token) : list green := gnode LvParameter (map tokleaf (fst p)) :: map tokleaf (snd p).

Section Function.
  Variable (text : str) (toks : list token).
  Hypothesis Hfit : (Z.of_nat (toklen toks) < 2 ^ 32)%Z.
  Notation sees := (sees toks).

  Lemma params_run tr tl : tk_kind tr = LvRParen -> forall ps s trees fuel, pars_ok ps -> sees s (flat_map par_toks ps ++ tr :: tl) trees -> length ps < fuel ->
    exists s', ll_parameters fuel s = Some (true, s') /\ sees s' (tr :: tl) (trees ++ flat_map par_trees ps) /\ ps_errs s' = ps_errs s.
  Proof.
    intros Kr. induction ps as [| [bt sep] ps IH]; intros s trees fuel P V L; (destruct fuel as [| fuel]; [cbn in L; lia|]); cbn [ll_parameters flat_map app] in *.
    - rewrite (sees_end _ _ _ _ V), (sees_at _ _ _ _ _ V), Kr, Nat.eqb_refl. cbn [negb andb]. exists s. split; [reflexivity|]. rewrite app_nil_r. now split.
    - destruct P as ((Fb & t & b & Eb & Gt) & Sp & P). unfold par_toks at 1 in V. cbn [fst snd] in V. rewrite <- !app_assoc in V. pose proof V as V0. rewrite Eb in V0. cbn [app] in V0. rewrite (sees_end _ _ _ _ V0), (sees_at _ _ _ _ _ V0).
      assert (Nr : tk_kind t <> LvRParen) by (rewrite Eb in Fb; apply Forall_inv in Fb; apply Fb). apply Nat.eqb_neq in Nr. rewrite Nr. cbn [negb andb]. unfold andthen at 1, ll_parameter. cbv zeta.
      destruct (loop_to toks Hfit (fun s => negb (at_kind s LvComma) && negb (at_kind s LvRParen)) ll_bump (fun k => negb (k =? LvComma) && negb (k =? LvRParen)) (fun _ => True)
          (fun s t r trees V => ltac:(cbv beta; rewrite !(sees_at _ _ _ _ _ V); reflexivity)) (fun _ _ _ _ _ _ => eq_refl) bt (sep ++ flat_map par_toks ps ++ tr :: tl) s trees V) as [V1 E1].
      { eapply Forall_impl; [|exact Fb]. intros x [A B]. apply Nat.eqb_neq in A, B. rewrite A, B. now split. }
      { rewrite Eb. now apply gapless_plain. }
      { destruct ps as [| p ps]; [subst sep; cbn [app flat_map]; intros x [= <-]; rewrite Kr; now repeat split|]. destruct Sp as (c & ws & -> & Kc & _). intros x [= <-]. rewrite Kc. now repeat split. }
      set (s1 := ll_loop _ ll_bump s) in *. destruct (checkpoint_at toks s _ _ V) as (i & Ei). rewrite Ei. destruct (finish_to toks Hfit s1 _ trees (map tokleaf bt) i LvParameter V1) as (s2 & E2 & V2 & Er2). unfold andthen at 1. rewrite E2.
      assert (Nx : exists s3, (if at_kind s2 LvComma then ll_skip (ll_bump s2) else s2) = s3 /\ sees s3 (flat_map par_toks ps ++ tr :: tl) ((trees ++ [gnode LvParameter (map tokleaf bt)]) ++ map tokleaf sep) /\ ps_errs s3 = ps_errs s2).
      { destruct ps as [| [bt' sep'] ps].
        - subst sep. cbn [app flat_map map] in *. rewrite (sees_at _ _ _ _ _ V2), Kr. change (LvRParen =? LvComma) with false. exists s2. rewrite app_nil_r. split; [reflexivity|]. split; [exact V2 | reflexivity].
        - destruct Sp as (c & ws & -> & Kc & W). destruct P as ((_ & t' & b' & Eb' & Gt') & _). cbn [flat_map] in *. unfold par_toks at 1 in V2. unfold par_toks at 1. cbn [fst snd] in *. rewrite Eb' in *. cbn [app] in *. rewrite (sees_at _ _ _ _ _ V2), Kc, Nat.eqb_refl.
          pose proof (bump_ws toks Hfit s2 c ws t' _ _ V2 W (gapless_plain _ Gt')) as V3. rewrite (gap_none _ _ _ _ _ V3 Gt'). exists (ll_bump s2). split; [reflexivity|]. split; [exact V3 | apply bump_err]. }
      destruct Nx as (s3 & -> & V3 & Er3). destruct (IH s3 _ fuel P V3 ltac:(cbn [length] in L; lia)) as (s' & E' & V' & Er'). exists s'. split; [exact E'|]. split; [|congruence].
      unfold par_trees at 1. cbn [fst snd app]. rewrite <- !app_assoc in V'. exact V'.
  Qed.

  Definition ret_ok (rt : list token) : Prop := Forall (fun t => tk_kind t <> LvGlobalVar /\ tk_kind t <> LvNewline /\ tk_kind t <> LvComment) rt /\ exists t r, rt = t :: r /\ gapless (tk_kind t).
  Definition fun_tree (td : token) (ws0 rt : list token) (tg tlp : token) (ps : list (list token * list token)) (tr : token) (ws1 : list token) (tb : token) (sep0 : list token) (es : list tentry) (te : token) : green :=
    gnode LvFunction (map tokleaf (td :: ws0) ++ gnode LvIdentifier (map tokleaf rt) :: tokleaf tg :: gnode LvParameter (tokleaf tlp :: flat_map par_trees ps ++ map tokleaf (tr :: ws1)) :: map tokleaf (tb :: sep0) ++ blocks_of es ++ [tokleaf te]).

  Lemma function_run s td ws0 rt tg tlp ps tr ws1 tb sep0 es te u tl trees :
    sees s (td :: ws0 ++ rt ++ tg :: tlp :: flat_map par_toks ps ++ tr :: ws1 ++ tb :: sep0 ++ flat_map tok_entry es ++ te :: u :: tl) trees ->
    tk_kind td = LvKeyword -> Forall (fun t => tk_kind t = LvWhitespace) ws0 -> ret_ok rt -> tk_kind tg = LvGlobalVar -> tk_kind tlp = LvLParen -> pars_ok ps -> tk_kind tr = LvRParen ->
    Forall (fun t => tk_kind t = LvWhitespace) ws1 -> tk_kind tb = LvLBrace -> sep_ok sep0 -> Forall entry_ok es -> tk_kind te = LvRBrace -> ll_ignored (tk_kind u) = false ->
    exists s', ll_function s = Some (true, s') /\ sees s' (u :: tl) (trees ++ [fun_tree td ws0 rt tg tlp ps tr ws1 tb sep0 es te]) /\ ps_errs s' = ps_errs s.
  Proof.
    intros V Kd W0 (Fr & r0 & rr & Er & Gr) Kg Kl P Kr W1 Kb Sp Fe Ke Ku. unfold ll_function. cbv zeta. destruct (checkpoint_at toks s _ _ V) as (i & Ei). rewrite Ei.
    pose proof V as V0. rewrite Er in V0. cbn [app] in V0. destruct (expect_at toks Hfit s LvKeyword td ws0 r0 _ trees V0 Kd W0 (gapless_plain _ Gr)) as [E1 V1]. unfold andthen at 1. rewrite E1. rewrite (gap_none _ _ _ _ _ V1 Gr). clear V0.
    change (r0 :: rr ++ ?x) with ((r0 :: rr) ++ x) in V1. rewrite <- Er in V1. set (s1 := ll_bump s) in *. destruct (checkpoint_at toks s1 _ _ V1) as (j & Ej). rewrite Ej.
    assert (Bd : forall s t r trees, sees s (t :: r) trees -> (forall u, hd_error (no_trivia ll_ignored r) = Some u -> tk_kind u <> LvNewline /\ tk_kind u <> LvComment) -> ll_skip (ll_bump s) = ll_bump s).
    { intros s2 t r tr' Vs Hq. pose proof (sees_bump ll_ignored toks Hfit s2 t r tr' Vs) as Vb. change (bump ll_ignored s2) with (ll_bump s2) in Vb. destruct (no_trivia ll_ignored r) as [| x y] eqn:En; [apply (gap_end _ _ _ Vb)|].
      apply (gap_none _ _ _ _ _ Vb). destruct (Hq x eq_refl) as [A B]. split; [|now split]. intros Kw. assert (Hx : forall l, match no_trivia ll_ignored l with z :: _ => ll_ignored (tk_kind z) = false | [] => True end) by (induction l as [| z l IHl]; cbn [no_trivia]; [exact I | destruct (ll_ignored (tk_kind z)) eqn:Ez; [exact IHl | exact Ez]]).
      specialize (Hx r). rewrite En, Kw in Hx. discriminate. }
    destruct (loop_to toks Hfit (fun s => negb (at_kind s LvGlobalVar)) (fun s => ll_skip (ll_bump s)) (fun k => negb (k =? LvGlobalVar)) (fun t => tk_kind t <> LvNewline /\ tk_kind t <> LvComment)
      (fun s t r trees V => ltac:(cbv beta; rewrite !(sees_at _ _ _ _ _ V); reflexivity)) Bd rt (tg :: tlp :: flat_map par_toks ps ++ tr :: ws1 ++ tb :: sep0 ++ flat_map tok_entry es ++ te :: u :: tl) s1 _ V1) as [V2 Er2].
    { eapply Forall_impl; [|exact Fr]. intros x (A & B & C). apply Nat.eqb_neq in A. rewrite A. now repeat split. }
    { rewrite Er. now apply gapless_plain. }
    { intros x [= <-]. rewrite Kg. repeat split; discriminate. }
    set (s2 := ll_loop _ _ s1) in *. destruct (finish_to toks Hfit s2 _ _ (map tokleaf rt) j LvIdentifier V2) as (s3 & E3 & V3 & Er3). unfold andthen at 1. rewrite E3.
    destruct (expect_at toks Hfit s3 LvGlobalVar tg [] tlp _ _ V3 Kg (Forall_nil _) ltac:(now rewrite Kl)) as [E4 V4]. unfold andthen at 1. rewrite E4. assert (Gl : gapless (tk_kind tlp)) by (rewrite Kl; repeat split; discriminate). rewrite (gap_none _ _ _ _ _ V4 Gl). set (s4 := ll_bump s3) in *.
    unfold andthen at 1. rewrite (sees_at _ _ _ _ _ V4), Kl, Nat.eqb_refl. destruct (checkpoint_at toks s4 _ _ V4) as (k & Ek). rewrite Ek. set (tr4 := (((trees ++ map tokleaf (td :: ws0)) ++ [gnode LvIdentifier (map tokleaf rt)]) ++ map tokleaf [tg])) in *.
    assert (Np : exists x y, flat_map par_toks ps ++ tr :: ws1 ++ tb :: sep0 ++ flat_map tok_entry es ++ te :: u :: tl = x :: y /\ gapless (tk_kind x)).
    { destruct ps as [| [bt sep] ps]; [exists tr; eexists; split; [reflexivity | rewrite Kr; repeat split; discriminate]|]. destruct P as ((_ & t & b & Eb & Gt) & _). exists t. eexists. split; [cbn [flat_map]; unfold par_toks at 1; cbn [fst snd]; rewrite Eb; reflexivity | exact Gt]. }
    destruct Np as (x & y & Exy & Gx). pose proof V4 as V4'. rewrite Exy in V4'. pose proof (bump_ws toks Hfit s4 tlp [] x y _ V4' (Forall_nil _) (gapless_plain _ Gx)) as V5. rewrite <- Exy in V5. set (s5 := ll_bump s4) in *.
    unfold andthen at 1. destruct (params_run tr (ws1 ++ tb :: sep0 ++ flat_map tok_entry es ++ te :: u :: tl) Kr ps s5 _ (S (length (ps_toks s5))) P V5) as (s6 & E6 & V6 & Er6).
    { pose proof (sees_length _ _ _ _ V5) as Ln. rewrite app_length in Ln. assert (Lp : length ps <= length (flat_map par_toks ps)). { clear - P. induction ps as [| [bt sep] ps IH]; [cbn; lia|]. destruct P as ((_ & t & b & -> & _) & _ & P). specialize (IH P). cbn [flat_map]. rewrite app_length. unfold par_toks at 1. cbn [fst snd app length]. lia. } lia. }
    rewrite E6. unfold andthen at 1. assert (Gb : gapless (tk_kind tb)) by (rewrite Kb; repeat split; discriminate). destruct (expect_at toks Hfit s6 LvRParen tr ws1 tb _ _ V6 Kr W1 (gapless_plain _ Gb)) as [E7 V7]. rewrite E7. set (s7 := ll_bump s6) in *.
    rewrite <- !app_assoc in V7. cbn [map app] in V7.
    assert (V7' : sees s7 (tb :: sep0 ++ flat_map tok_entry es ++ te :: u :: tl) (tr4 ++ (tokleaf tlp :: flat_map par_trees ps ++ map tokleaf (tr :: ws1)))).
    { cbn [map]. exact V7. }
    destruct (finish_to toks Hfit s7 _ tr4 _ k LvParameter V7') as (s8 & E8 & V8 & Er8). rewrite E8. rewrite (gap_none _ _ _ _ _ V8 Gb). unfold andthen at 1. rewrite (sees_at _ _ _ _ _ V8), Kb, Nat.eqb_refl.
    pose proof Sp as Sp'. destruct Sp' as (n & ws & En & Kn & Wn). pose proof V8 as V8'. rewrite En in V8'. cbn [app] in V8'. pose proof (bump_ws toks Hfit s8 tb [] n _ _ V8' (Forall_nil _) ltac:(now rewrite Kn)) as V9.
    change (n :: ws ++ flat_map tok_entry es ++ te :: u :: tl) with ((n :: ws) ++ flat_map tok_entry es ++ te :: u :: tl) in V9. rewrite <- En in V9. destruct (next_gapless es te (u :: tl) Fe Ke) as (x' & y' & Ex' & Gx').
    destruct (skip_sep toks Hfit _ sep0 _ _ V9 Sp) as [V10 Er10]; [exists x', y'; now split|]. set (s10 := ll_skip (ll_bump s8)) in *. destruct (checkpoint_at toks s10 _ _ V10) as (q & Eq). rewrite Eq.
    match type of V10 with sees _ _ ?t => set (tr10 := t) in * end. pose proof V10 as V10'. rewrite <- (app_nil_r tr10) in V10'.
    assert (Lf : length es < S (length (ps_toks s8))). { pose proof (sees_length _ _ _ _ V8) as Ln. cbn [length] in Ln. rewrite !app_length in Ln. assert (Le : length es <= length (flat_map tok_entry es)). { clear - Fe. induction Fe as [| e es He _ IH]; [cbn; lia|]. cbn [flat_map]. rewrite app_length. destruct e as [a b c | bt c]; [cbn [tok_entry length]; lia|]. destruct He as (_ & _ & t & v & r & -> & _). cbn [tok_entry app length]. lia. } lia. }
    destruct (body_run toks Hfit es tr10 [] false ((q, length tr10), false) s10 (S (length (ps_toks s8))) te (u :: tl) Fe Ke V10' (fun _ => eq_refl) eq_refl eq_refl Lf) as (block & s11 & E11 & R). rewrite E11.
    rewrite <- (app_nil_r tr10) in R. rewrite grow_prefix in R. unfold blocks_of, fun_tree. unfold blocks_of. destruct (grow es ([], [], false)) as [[p c] f]. destruct R as (R1 & R2 & R3 & R4 & R5).
    assert (Cl : exists s12, (if snd block then ll_finish (fst block) LvBlock s11 else Some (true, s11)) = Some (true, s12) /\ sees s12 (te :: u :: tl) (tr10 ++ (if f then p ++ [gnode LvBlock c] else p)) /\ ps_errs s12 = ps_errs s11).
    { rewrite R4. destruct f; [|exists s11; rewrite (R2 eq_refl), app_nil_r in R1; split; [reflexivity|]; split; [exact R1 | reflexivity]]. destruct block as [[a b] fl]. cbn [fst snd] in *. subst b. rewrite app_assoc. exact (finish_to toks Hfit s11 _ (tr10 ++ p) c a LvBlock R1). }
    destruct Cl as (s12 & E12 & V12 & Er12). unfold andthen at 1. rewrite E12. destruct (expect_at toks Hfit s12 LvRBrace te [] u tl _ V12 Ke (Forall_nil _) Ku) as [E13 V13]. rewrite E13.
    unfold tr10, tr4 in V13. rewrite <- !app_assoc in V13. cbn [map app] in V13.
    match type of V13 with sees _ _ (trees ++ ?ch) => destruct (finish_to toks Hfit _ _ trees ch i LvFunction V13) as (s14 & E14 & V14 & Er14) end.
    rewrite E14. exists s14. split; [reflexivity|]. split.
    - cbn [map app]. rewrite <- ?app_assoc in V14 |- *. cbn [app] in V14 |- *. exact V14.
    - rewrite Er14, bump_err, Er12, R5, Er10, bump_err, Er8. unfold s7. rewrite bump_err, Er6. unfold s5, s4. rewrite !bump_err, Er3, Er2. apply bump_err.
  Qed.
End Function.
