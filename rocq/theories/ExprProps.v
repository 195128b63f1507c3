From Verif Require Import Base Utf8 LexModel TreeModel TreeSpec TreeProofs ParserModel ParserSpec
  ParserProofs ParserProps PrattSpec PrattProofs ExprModel ExprSpec ExprProofs.

(** ** C138 Prefix, postfix and infix operators, brackets and subscripts *)
Lemma start_ok : forall ign toks srclen diags, lengths_fit toks ->
  good toks False (ps_new ign toks srclen diags) /\ settled ign (ps_new ign toks srclen diags).
Proof.
  intros ign toks srclen diags Hf. split; [|apply skip_settled]. apply skip_good; [exact Hf|].
  split; [reflexivity|]. split; [cbn; lia|]. split; [constructor|]. split; [reflexivity | tauto].
Qed.

Theorem expressions_parse_partial : forall ign T K toks srclen diags e0 rest,
  lengths_fit toks -> total_fits toks -> below_top T ->
  let s := ps_new ign toks srclen diags in
  kinds_to_come ign s = spelled e0 ++ rest -> lawful T e0 ->
  (rest = [] \/ exists k r, rest = k :: r /\ no_operator T k) ->
  exists e, (spelled e = spelled e0 /\ lawful T e /\ well T e) /\
    (forall e', spelled e' = spelled e0 -> lawful T e' -> well T e' -> e' = e) /\
    exists N g id s', (forall fuel, N <= fuel -> parse_expr ign T K TakeLeft fuel None 0 s = Some ((Some id, g), s')) /\
      depicts ign K g e /\ kinds_to_come ign s' = rest /\
      ps_sink s' = ps_sink s ++ [(Some id, g)] /\ ps_errs s' = ps_errs s.
Proof.
  intros ign T K toks srclen diags e0 rest Hf Ht Hm s A L R.
  assert (O := start_ok ign toks srclen diags Hf). fold s in O.
  destruct (regroup_ok T e0 L) as (W' & L' & S').
  exists (regroup T e0). split; [auto|].
  assert (P : forall e, spelled e = spelled e0 -> lawful T e -> well T e ->
    exists N g id s', (forall f, N <= f -> parse_expr ign T K TakeLeft f None 0 s = Some ((Some id, g), s')) /\
      depicts ign K g e /\ kinds_to_come ign s' = rest /\ ps_sink s' = ps_sink s ++ [(Some id, g)] /\ ps_errs s' = ps_errs s).
  { intros e Es Le We. rewrite <- Es in A.
    destruct (parses ign T K toks Hf Ht Hm e rest s O A We Le R) as (N & g & id & s' & P & _ & Sk & A' & D & E).
    exists N, g, id, s'. auto 10. }
  split; [|apply P; assumption].
  intros e' Es Le We. destruct (P e' Es Le We) as (N1 & g1 & id1 & s1 & P1 & D1 & _).
  destruct (P _ S' L' W') as (N2 & g2 & id2 & s2 & P2 & D2 & _).
  specialize (P1 (N1 + N2) ltac:(lia)). specialize (P2 (N1 + N2) ltac:(lia)). rewrite P1 in P2.
  injection P2 as _ <- _. eapply depicts_unique; eassumption.
Qed.
Print Assumptions expressions_parse_partial.

(** Prefix: - 45 (5), ~ 126 (2).  Infix: + 43 (3, left), * 42 (4, left), ^ 94 (6, right), = 61 (1, right).
    Postfix: ! 33 (7), ? 63 (2).  Brackets: ( 40 with ) 41.  Subscript: [ 91 (8) with ] 93. *)
Definition calc : optable := OpTable
  (fun k => match k with 45 => Some 5 | 126 => Some 2 | _ => None end)
  (fun k => match k with 43 => Some (3, ALeft) | 42 => Some (4, ALeft) | 94 => Some (6, ARight) | 61 => Some (1, ARight) | 45 => Some (3, ALeft) | _ => None end)
  (fun k => match k with 33 => Some 7 | 63 => Some 2 | _ => None end)
  (fun k => match k with 40 => Some 41 | _ => None end)
  (fun k => match k with 91 => Some (8, 93) | _ => None end).
Definition calc_kinds : exprkinds := ExprKinds 200 201 202 203 204 205.
Definition run_calc (m : subscript) (text : str) : option (item * pstate) :=
  parse_expr blank calc calc_kinds m 100 None 0 (ps_new blank (lex_bytes text) (length text) []).

(** -a^b * ~c+d[i] - e!  as the table groups it: (-(a^b)) * (~((c+(d[i])) - (e!))) *)
Definition calc_tree : exp :=
  EBin 42 (EPre 45 (EBin 94 (EAtom 97) (EAtom 98)))
    (EPre 126 (EBin 45 (EBin 43 (EAtom 99) (EIndex (EAtom 100) 91 (EAtom 105) 93)) (EPost (EAtom 101) 33))).

Example calc_case :
  let s := ps_new blank (lex_bytes (lit "-a^b * ~c+d[i] - e!;")) 20 [] in
  kinds_to_come blank s = spelled calc_tree ++ [59] /\ lawful calc calc_tree /\ well calc calc_tree /\
  no_operator calc 59 /\ below_top calc /\ lengths_fit (lex_bytes (lit "-a^b * ~c+d[i] - e!;")) /\
  total_fits (lex_bytes (lit "-a^b * ~c+d[i] - e!;")).
Proof.
  cbv zeta. split; [vm_compute; reflexivity|].
  split. { unfold calc_tree. cbn. unfold no_operator. cbn. repeat (split; try discriminate; try reflexivity; eauto). }
  split. { unfold calc_tree. cbn. unfold holds, inside. cbn. repeat split; repeat constructor; cbn; try lia; right; intuition lia. }
  split. { unfold no_operator. cbn. auto. }
  split.
  { intros o p a H. cbn in H. do 95 (destruct o as [|o]; [try discriminate; injection H as <- <-; auto; right; lia|]). discriminate. }
  split; [|vm_compute; reflexivity]. repeat (constructor; [vm_compute; reflexivity|]). constructor.
Qed.

Example calc_results :
  (exists g s', run_calc TakeLeft (lit "~a+b") = Some ((Some 3, g), s') /\
     depicts blank calc_kinds g (EPre 126 (EBin 43 (EAtom 97) (EAtom 98)))) /\
  (exists id g s', run_calc TakeLeft (lit "-a+b") = Some ((Some id, g), s') /\
     depicts blank calc_kinds g (EBin 43 (EPre 45 (EAtom 97)) (EAtom 98))) /\
  (exists id g s', run_calc TakeLeft (lit "a+b?") = Some ((Some id, g), s') /\
     depicts blank calc_kinds g (EPost (EBin 43 (EAtom 97) (EAtom 98)) 63)) /\
  (exists id g s', run_calc TakeLeft (lit "-a!") = Some ((Some id, g), s') /\
     depicts blank calc_kinds g (EPre 45 (EPost (EAtom 97) 33))).
Proof.
  split; [eexists _, _; split; [vm_compute; reflexivity|]; repeat (econstructor; try (vm_compute; reflexivity))|].
  split; [eexists _, _, _; split; [vm_compute; reflexivity|]; repeat (econstructor; try (vm_compute; reflexivity))|].
  split; eexists _, _, _; (split; [vm_compute; reflexivity|]); repeat (econstructor; try (vm_compute; reflexivity)).
Qed.

(** ** C139 On any tokens at all *)
Theorem expression_total_partial : forall ign T K toks srclen diags min,
  lengths_fit toks -> total_fits toks -> below_top T ->
  let s := ps_new ign toks srclen diags in
  exists N g id s' used,
    (forall fuel, N <= fuel -> parse_expr ign T K TakeLeft fuel None min s = Some ((Some id, g), s')) /\
    kinds_to_come ign s = used ++ kinds_to_come ign s' /\ (kinds_to_come ign s <> [] -> used <> []) /\
    ps_sink s' = ps_sink s ++ [(Some id, g)] /\
    list_sum (map (fun it => width (snd it)) (ps_sink s')) =
      list_sum (map (fun t => snd (tok_yield t)) (firstn (ps_index s') toks)) /\
    match kinds_to_come ign s' with
    | [] => True
    | k :: _ => match op_post T k, op_index T k, op_in T k with
                | Some p, _, _ | None, Some (p, _), _ | None, None, Some (p, _) => p < min
                | None, None, None => True
                end
    end.
Proof.
  intros ign T K toks srclen diags min Hf Ht Hm s.
  assert (O := start_ok ign toks srclen diags Hf). fold s in O.
  destruct (settles_all ign T K toks Hf Ht Hm _ s O (le_n _)) as [H _].
  destruct (H min) as (N & g & id & s' & used & P & [G _] & Sk & A & St & U).
  exists N, g, id, s', used. split; [exact P|]. split; [exact A|]. split; [auto|]. split; [exact Sk|]. split.
  - destruct G as (_ & _ & _ & Hw & _). rewrite <- Hw. unfold sink_trees. now rewrite map_map.
  - unfold stops, cont in St. destruct (kinds_to_come ign s') as [|k r]; [exact I|].
    destruct (op_post T k) as [p|]; [exact St|]. destruct (op_index T k) as [[p c]|]; [exact St|].
    destruct (op_in T k) as [[p a]|]; exact St.
Qed.
Print Assumptions expression_total_partial.

(** Tokens that are not an expression. *)
Example calc_nonsense : exists id g s',
  run_calc TakeLeft (lit "a+)*~(-") = Some ((Some id, g), s') /\ width g = 7 /\ kinds_to_come blank s' = [].
Proof. eexists _, _, _. split; [vm_compute; reflexivity|]. split; vm_compute; reflexivity. Qed.

(** With [checkpoint] and [push_child] the operand is in the tree twice. *)
Theorem subscript_text_refuted : exists text id g s',
  kinds_to_come blank (ps_new blank (lex_bytes text) (length text) []) = spelled (EIndex (EAtom 97) 91 (EAtom 105) 93) /\
  run_calc PushLeft text = Some ((Some id, g), s') /\
  list_sum (map (fun it => width (snd it)) (ps_sink s')) = S (length text) /\
  length (ps_sink s') = 2 /\
  (exists g' s'', run_calc TakeLeft text = Some ((Some id, g'), s'') /\ g' = g /\
     list_sum (map (fun it => width (snd it)) (ps_sink s'')) = length text).
Proof.
  exists (lit "a[i]"). eexists _, _, _. split; [vm_compute; reflexivity|]. split; [vm_compute; reflexivity|].
  split; [vm_compute; reflexivity|]. split; [reflexivity|].
  eexists _, _. split; [vm_compute; reflexivity|]. split; vm_compute; reflexivity.
Qed.
Print Assumptions subscript_text_refuted.
