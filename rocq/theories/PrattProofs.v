From Verif Require Import Base Utf8 LexModel TreeModel TreeSpec TreeProofs ParserModel ParserSpec
  ParserProofs PrattSpec.

(** ** Trees *)
Section Trees.
  Variable table : nat -> option (nat * assoc).
  Notation prec := (prec table).

  (** What the right operand must reach. *)
  Definition nxt (o : nat) : nat :=
    match table o with Some (p, ARight) => p | Some (p, _) => S p | None => 1 end.

  Lemma nxt_prec : forall o, prec o <= nxt o <= S (prec o).
  Proof. intros o. unfold prec, PrattSpec.prec, nxt. destruct (table o) as [[p []]|]; lia. Qed.

  Definition lok (o : nat) (l : expr) : Prop := match root_op l with Some o1 => prec o < nxt o1 | None => True end.
  Definition rok (o : nat) (r : expr) : Prop := match root_op r with Some o2 => nxt o <= prec o2 | None => True end.

  Fixpoint gr (e : expr) : Prop :=
    match e with Atom _ => True | Bin o l r => gr l /\ gr r /\ lok o l /\ rok o r end.

  Lemma grouped_gr : forall e, grouped table e <-> gr e.
  Proof.
    induction e as [k|o l IHl r IHr]; [tauto|]. cbn [grouped gr]. rewrite IHl, IHr.
    assert (A : match root_op l with Some o1 => prec o < prec o1 \/ prec o = prec o1 /\ ~ right_assoc table o1 | None => True end
                <-> lok o l).
    { unfold lok. destruct (root_op l) as [o1|]; [|tauto]. unfold right_assoc, nxt, PrattSpec.prec.
      destruct (table o1) as [[p []]|]; destruct (table o) as [[q []]|]; lia || intuition lia. }
    assert (B : match root_op r with Some o2 => prec o < prec o2 \/ prec o = prec o2 /\ right_assoc table o | None => True end
                <-> rok o r).
    { unfold rok. destruct (root_op r) as [o1|]; [|tauto]. unfold right_assoc, nxt, PrattSpec.prec.
      destruct (table o1) as [[p []]|]; destruct (table o) as [[q []]|]; lia || intuition lia. }
    tauto.
  Qed.

  Fixpoint ins (e : expr) (o a : nat) : expr :=
    match e with
    | Bin o1 l r => if nxt o1 <=? prec o then Bin o1 l (ins r o a) else Bin o e (Atom a)
    | Atom _ => Bin o e (Atom a)
    end.

  Lemma ins_root : forall e o a, root_op (ins e o a) = Some o \/ (root_op (ins e o a) = root_op e /\ root_op e <> None).
  Proof.
    intros [k|o1 l r] o a; cbn; [auto|]. destruct (nxt o1 <=? prec o); cbn; [right; split; congruence | auto].
  Qed.

  Lemma ins_gr : forall e o a, gr e -> gr (ins e o a).
  Proof.
    induction e as [k|o1 l IHl r IHr]; intros o a H; cbn [ins].
    - cbn. unfold lok, rok. cbn. auto.
    - destruct H as (H1 & H2 & H3 & H4). destruct (Nat.leb_spec (nxt o1) (prec o)) as [L|L].
      + cbn [gr]. split; [exact H1|]. split; [now apply IHr|]. split; [exact H3|].
        unfold rok. destruct (ins_root r o a) as [->|[-> _]]; [exact L | exact H4].
      + cbn [gr]. split; [cbn; auto|]. split; [exact I|]. split; [|exact I]. unfold lok. cbn. exact L.
  Qed.

  Lemma ins_reading : forall e o a, reading (ins e o a) = reading e ++ [o; a].
  Proof.
    induction e as [k|o1 l IHl r IHr]; intros o a; cbn [ins]; [reflexivity|].
    destruct (nxt o1 <=? prec o); cbn [reading]; [|reflexivity]. rewrite IHr, <- app_assoc. reflexivity.
  Qed.

  Lemma ins_known : forall e o a, operators_known table e -> table o <> None -> operators_known table (ins e o a).
  Proof.
    induction e as [k|o1 l IHl r IHr]; intros o a H Ho; cbn [ins].
    - cbn. auto.
    - destruct (nxt o1 <=? prec o); cbn in *; intuition auto.
  Qed.

  Definition fold_ins (e : expr) (ps : list (nat * nat)) : expr := fold_left (fun e p => ins e (fst p) (snd p)) ps e.

  Fixpoint flat (ps : list (nat * nat)) : list nat := match ps with [] => [] | (o, a) :: r => o :: a :: flat r end.

  Lemma fold_ins_ok : forall ps e, gr e -> operators_known table e -> Forall (fun p => table (fst p) <> None) ps ->
    gr (fold_ins e ps) /\ operators_known table (fold_ins e ps) /\ reading (fold_ins e ps) = reading e ++ flat ps.
  Proof.
    induction ps as [|[o a] ps IH]; intros e H1 H2 H3; cbn.
    - rewrite app_nil_r. auto.
    - inversion H3; subst. destruct (IH (ins e o a)) as (A & B & C); auto using ins_gr, ins_known.
      split; [exact A|]. split; [exact B|]. unfold fold_ins in C. cbn [fst snd]. rewrite C, ins_reading, <- app_assoc. reflexivity.
  Qed.

  Fixpoint first (e : expr) : nat := match e with Atom k => k | Bin _ l _ => first l end.
  Fixpoint pairs (e : expr) : list (nat * nat) :=
    match e with Atom _ => [] | Bin o l r => pairs l ++ (o, first r) :: pairs r end.

  Lemma flat_app : forall a b, flat (a ++ b) = flat a ++ flat b.
  Proof. induction a as [|[x y] a IH]; intros b; cbn; [reflexivity|]. now rewrite IH. Qed.

  Lemma reading_pairs : forall e, reading e = first e :: flat (pairs e).
  Proof.
    induction e as [k|o l IHl r IHr]; [reflexivity|]. cbn [reading first pairs].
    rewrite IHl, IHr, flat_app. reflexivity.
  Qed.

  Lemma flat_inj : forall a b, flat a = flat b -> a = b.
  Proof.
    induction a as [|[x y] a IH]; intros [|[u v] b] H; cbn in H; try discriminate; [reflexivity|].
    injection H as -> -> H. f_equal. now apply IH.
  Qed.

  Lemma gr_above : forall e m, gr e -> match root_op e with Some o => m <= prec o | None => True end ->
    Forall (fun p => m <= prec (fst p)) (pairs e).
  Proof.
    induction e as [k|o l IHl r IHr]; intros m H Hr; [constructor|]. cbn [pairs root_op gr] in *.
    destruct H as (H1 & H2 & H3 & H4). apply Forall_app. split; [|constructor; [exact Hr|]].
    - apply IHl; [exact H1|]. unfold lok in H3. destruct (root_op l) as [o1|]; [|exact I]. pose proof (nxt_prec o1). lia.
    - apply IHr; [exact H2|]. unfold rok in H4. destruct (root_op r) as [o1|]; [|exact I]. pose proof (nxt_prec o). lia.
  Qed.

  Lemma fold_ins_right : forall ps o l x, Forall (fun p => nxt o <= prec (fst p)) ps ->
    fold_ins (Bin o l x) ps = Bin o l (fold_ins x ps).
  Proof.
    induction ps as [|[o' a] ps IH]; intros o l x H; [reflexivity|]. inversion H; subst. cbn [fst] in *.
    unfold fold_ins. cbn [fold_left fst snd ins].
    destruct (Nat.leb_spec (nxt o) (prec o')) as [_|L]; [|lia]. apply IH. assumption.
  Qed.

  Lemma canonical : forall e, gr e -> fold_ins (Atom (first e)) (pairs e) = e.
  Proof.
    induction e as [k|o l IHl r IHr]; intros H; [reflexivity|]. destruct H as (H1 & H2 & H3 & H4).
    cbn [first pairs]. unfold fold_ins. rewrite fold_left_app. cbn [fold_left fst snd].
    fold (fold_ins (Atom (first l)) (pairs l)). rewrite IHl by assumption.
    assert (E : ins l o (first r) = Bin o l (Atom (first r))).
    { destruct l as [|o1 l1 r1]; [reflexivity|]. cbn [ins]. unfold lok in H3. cbn in H3.
      destruct (Nat.leb_spec (nxt o1) (prec o)); [lia | reflexivity]. }
    rewrite E. fold (fold_ins (Bin o l (Atom (first r))) (pairs r)). rewrite fold_ins_right; [now rewrite IHr|].
    apply gr_above; [exact H2|]. unfold rok in H4. destruct (root_op r); [exact H4 | exact I].
  Qed.

  Lemma grouped_unique : forall e e', grouped table e -> grouped table e' -> reading e = reading e' -> e = e'.
  Proof.
    intros e e' H H' E. apply grouped_gr in H, H'. rewrite !reading_pairs in E. injection E as E1 E2.
    apply flat_inj in E2. rewrite <- (canonical e H), <- (canonical e' H'), E1, E2. reflexivity.
  Qed.

  Lemma alternating_pairs : forall n ks, length ks <= n -> alternating table ks ->
    exists a ps, ks = a :: flat ps /\ Forall (fun p => table (fst p) <> None) ps.
  Proof.
    induction n as [|n IH]; intros ks Hn H; destruct ks as [|a [|o r]]; cbn in *; try tauto; try lia.
    - exists a, []. auto.
    - destruct H as [Ho H]. destruct (IH r) as (a' & ps & -> & F); [lia | exact H |].
      exists a, ((o, a') :: ps). split; [reflexivity|]. constructor; auto.
  Qed.

  Lemma grouped_exists : forall ks, alternating table ks ->
    exists e, reading e = ks /\ grouped table e /\ operators_known table e.
  Proof.
    intros ks H. destruct (alternating_pairs _ _ (le_n _) H) as (a & ps & -> & F).
    destruct (fold_ins_ok ps (Atom a)) as (A & B & C); cbn; auto.
    exists (fold_ins (Atom a) ps). split; [exact C|]. split; [now apply grouped_gr | exact B].
  Qed.
End Trees.

(** ** The parser *)
Section Parse.
  Variable (ign : nat -> bool) (table : nat -> option (nat * assoc)) (atom ek : nat) (toks : list token).
  Hypothesis Hfit : lengths_fit toks.
  Hypothesis Htot : total_fits toks.
  Hypothesis Hmax : below_max table.

  Notation den := (denotes ign atom ek).
  Notation okst := (fun s => good toks False s /\ settled ign s).

  Lemma sink_fits : forall s i, good toks False s -> fits_u32 (sum_len (map snd (skipn i (ps_sink s)))) = true.
  Proof.
    intros s i (_ & _ & Hb & Hw & _). unfold fits_u32. apply N.ltb_lt. unfold sink_trees in *.
    assert (S1 : sum_len (map snd (skipn i (ps_sink s))) <= list_sum (map width (map snd (ps_sink s)))).
    { rewrite <- (firstn_skipn i (ps_sink s)) at 2. rewrite !map_app, list_sum_app.
      rewrite sum_len_width; [lia|]. rewrite <- (firstn_skipn i (ps_sink s)), map_app, Forall_app in Hb. tauto. }
    assert (S2 : list_sum (map (fun t => snd (tok_yield t)) (firstn (ps_index s) toks)) <=
                 list_sum (map (fun t => snd (tok_yield t)) toks)).
    { rewrite <- (firstn_skipn (ps_index s) toks) at 2. rewrite map_app, list_sum_app. lia. }
    unfold total_fits in Htot. lia.
  Qed.

  Lemma finish_some : forall s i k, good toks False s -> i <= length (ps_sink s) ->
    exists n, finish_at s (0, i) k =
      Some ((Some (ps_next s), GNode k n (map snd (skipn i (ps_sink s)))),
            PState (ps_toks s) (ps_index s)
              (firstn i (ps_sink s) ++ [(Some (ps_next s), GNode k n (map snd (skipn i (ps_sink s))))])
              (S (ps_next s)) (ps_errs s) (ps_srclen s) (ps_inc s)).
  Proof.
    intros s i k G Hi. unfold finish_at. cbn [snd].
    destruct (Nat.ltb_spec (length (ps_sink s)) i); [lia|].
    unfold new_node. rewrite sink_fits by assumption. eexists. reflexivity.
  Qed.

  (** [bump] in detail. *)
  Lemma filter_nil : forall (l : list token), Forall (fun t => ign (tk_kind t) = true) l ->
    filter (fun t => negb (ign (tk_kind t))) l = [].
  Proof. induction 1; [reflexivity|]. cbn. now rewrite H. Qed.

  Lemma skip_loop_solid : forall n s, exists l, ps_sink (skip_trivia_loop ign n s) = ps_sink s ++ l /\
    solid ign (map snd l) = [].
  Proof.
    induction n as [|n IH]; intros s; cbn [skip_trivia_loop].
    - exists []. now rewrite app_nil_r.
    - destruct (ps_current s) as [t|]; [|exists []; now rewrite app_nil_r].
      destruct (ign (tk_kind t)) eqn:E; [|exists []; now rewrite app_nil_r].
      destruct (IH (set_index (push_leaf s t) (S (ps_index (push_leaf s t))))) as (l & A & B).
      rewrite A. unfold set_index, push_leaf, set_sink. cbn. rewrite <- app_assoc. eexists. split; [reflexivity|].
      cbn. rewrite E. exact B.
  Qed.

  Lemma bump_detail : forall s k rest, okst s -> kinds_to_come ign s = k :: rest ->
    at_kind s k = true /\ ign k = false /\ peek_kind s = Some k /\
    exists len tr, ps_sink (bump ign s) = ps_sink s ++ (None, GLeaf k len None) :: tr /\
      solid ign (map snd tr) = [] /\ kinds_to_come ign (bump ign s) = rest /\
      okst (bump ign s) /\ ps_next (bump ign s) = ps_next s /\ ps_errs (bump ign s) = ps_errs s.
  Proof.
    intros s k rest [G S] K. assert (Ht : ps_toks s = toks) by apply G.
    unfold kinds_to_come in K.
    destruct (ps_current s) as [t|] eqn:E.
    2:{ unfold ps_current in E. apply nth_error_None in E. unfold to_come in K. rewrite skipn_all2 in K by lia. discriminate. }
    assert (Hk : ign (tk_kind t) = false /\ tk_kind t = k).
    { rewrite (to_come_cons _ _ E) in K. unfold settled in S. rewrite (to_come_cons _ _ E) in S.
      cbn in K. rewrite S in K. cbn in K. injection K as <- _. split; [exact S | reflexivity]. }
    destruct Hk as [Hi <-].
    split; [unfold at_kind, peek_kind; rewrite E; cbn; apply Nat.eqb_refl|].
    split; [exact Hi|]. split; [unfold peek_kind; now rewrite E|].
    destruct (bump_push ign s) as [_ (_ & B1 & _ & _ & _ & B2)].
    assert (G2 : okst (bump ign s)) by (split; [now apply bump_good | now apply bump_settled]).
    destruct (advance_exact ign (push_leaf s t) t) as (seg & A & F & _ & _); [cbn; now rewrite Ht | exact E |].
    change (to_come (push_leaf s t)) with (to_come s) in A.
    unfold bump in *. rewrite E in *. unfold ps_advance, skip_trivia in *.
    match goal with |- context [skip_trivia_loop ign ?n ?st] => destruct (skip_loop_solid n st) as (l & C & D) end.
    eexists _, l. rewrite C. split; [unfold set_index, push_leaf, set_sink; cbn; rewrite <- app_assoc; reflexivity|].
    split; [exact D|]. split; [|auto].
    unfold kinds_to_come. rewrite A in K. cbn [filter] in K. rewrite Hi in K. cbn [negb map] in K.
    injection K as K. rewrite filter_app, (filter_nil seg F) in K. exact K.
  Qed.

  Lemma skipn_app_len : forall {A} (a b : list A), skipn (length a) (a ++ b) = b.
  Proof. induction a; cbn; auto. Qed.
  Lemma firstn_app_len : forall {A} (a b : list A), firstn (length a) (a ++ b) = a.
  Proof. induction a; cbn; intros; [reflexivity|]. now rewrite IHa. Qed.

  Lemma primary_spec : forall s k rest, okst s -> kinds_to_come ign s = k :: rest ->
    exists g s', primary ign atom s = Some ((Some (ps_next s), g), s') /\ okst s' /\
      ps_sink s' = ps_sink s ++ [(Some (ps_next s), g)] /\ kinds_to_come ign s' = rest /\ den g (Atom k) /\
      ps_errs s' = ps_errs s.
  Proof.
    intros s k rest O K. destruct (bump_detail s k rest O K) as (_ & _ & _ & len & tr & Sk & Tr & Kr & [G S] & Nx & Er).
    unfold primary, checkpoint.
    destruct (finish_some (bump ign s) (length (ps_sink s)) atom G) as [n F].
    { rewrite Sk, app_length. lia. }
    unfold finish_at in F |- *. cbn [snd] in *. rewrite F. rewrite Nx. rewrite Sk. rewrite skipn_app_len, firstn_app_len.
    eexists _, _. split; [reflexivity|].
    assert (G' : good toks False (PState (ps_toks (bump ign s)) (ps_index (bump ign s))
       (ps_sink s ++ [(Some (ps_next s), GNode atom n (map snd ((None, GLeaf k len None) :: tr)))])
       (Datatypes.S (ps_next s)) (ps_errs (bump ign s)) (ps_srclen (bump ign s)) (ps_inc (bump ign s)))).
    { destruct (finish_some (bump ign s) (length (ps_sink s)) atom G) as [n' F']; [rewrite Sk, app_length; lia|].
      destruct (finish_good ign toks Hfit False _ _ _ _ _ G F') as [G' _].
      unfold finish_at in F'. cbn [snd] in F'. rewrite F in F'. injection F' as <-.
      rewrite Nx, Sk, skipn_app_len, firstn_app_len in G'. exact G'. }
    split; [split; [exact G' | exact S]|]. split; [reflexivity|]. split; [exact Kr|].
    split; [|exact Er]. eapply DAtom. destruct (bump_detail s k rest O K) as (_ & Ik & _).
    cbn [map snd solid filter trivia]. rewrite Ik. cbn. unfold solid in Tr. rewrite Tr. reflexivity.
  Qed.

  Lemma find_last_end : forall l i id g, find_last id (l ++ [(Some id, g)]) i = Some (i + length l).
  Proof.
    induction l as [|[o x] l IH]; intros i id g; cbn [app find_last].
    - rewrite Nat.eqb_refl. f_equal. cbn. lia.
    - rewrite IH. f_equal. cbn. lia.
  Qed.

  Definition stops (min : nat) (rest : list nat) : Prop :=
    match rest with
    | k :: _ => match table k with Some (p, _) => p < min | None => True end
    | [] => True
    end.

  Lemma peek_head : forall s, okst s -> peek_kind s = match kinds_to_come ign s with [] => None | k :: _ => Some k end.
  Proof.
    intros s O. destruct (kinds_to_come ign s) as [|k r] eqn:E.
    - unfold kinds_to_come in E. unfold peek_kind.
      destruct (ps_current s) as [t|] eqn:C; [|reflexivity]. exfalso.
      destruct O as [_ S]. unfold settled in S. rewrite (to_come_cons _ _ C) in *. cbn in E. rewrite S in E. discriminate.
    - now destruct (bump_detail s k r O E) as (_ & _ & P & _).
  Qed.

  Lemma loop_stops : forall f it min s, okst s -> stops min (kinds_to_come ign s) ->
    pratt ign table atom ek (S f) (Some it) min s = Some (it, s).
  Proof.
    intros f it min s O St. cbn [pratt]. rewrite (peek_head s O). unfold stops in St.
    destruct (kinds_to_come ign s) as [|k r]; [reflexivity|].
    destruct (table k) as [[p a]|]; [|reflexivity]. destruct (Nat.ltb_spec p min); [reflexivity | lia].
  Qed.

  Lemma next_prec_nxt : forall o p a, table o = Some (p, a) -> next_prec p a = Some (nxt table o).
  Proof.
    intros o p a H. unfold nxt, next_prec. rewrite H. destruct (Hmax _ _ _ H) as [->|L]; [reflexivity|].
    destruct a; try reflexivity; destruct (Nat.ltb_spec p 255); (reflexivity || lia).
  Qed.

  Lemma pratt_reaches : forall e min s rest, okst s -> kinds_to_come ign s = reading e ++ rest ->
    gr table e -> operators_known table e ->
    match root_op e with Some o => min <= prec table o /\ stops (nxt table o) rest | None => True end ->
    exists n N g id s', (forall f, N <= f ->
        pratt ign table atom ek (n + f) None min s = pratt ign table atom ek f (Some (Some id, g)) min s') /\
      okst s' /\ ps_sink s' = ps_sink s ++ [(Some id, g)] /\ kinds_to_come ign s' = rest /\ den g e /\
      ps_errs s' = ps_errs s.
  Proof.
    induction e as [k|o l IHl r IHr]; intros min s rest O K G Kn R.
    - cbn in K. destruct (primary_spec s k rest O K) as (g & s' & P & O' & Sk & K' & D & Er).
      exists 1, 0, g, (ps_next s), s'. split; [|auto 10]. intros f _. cbn [Nat.add pratt]. now rewrite P.
    - cbn [reading root_op gr operators_known] in *. destruct G as (Gl & Gr & Lo & Ro).
      destruct Kn as (Ko & Kl & Kr). destruct R as [Rm Rs].
      rewrite <- app_assoc in K. cbn [app] in K.
      assert (To : exists p a, table o = Some (p, a)) by (destruct (table o) as [[p a]|]; [eauto | congruence]).
      destruct To as (p & a & To).
      assert (Hp : prec table o = p) by (unfold prec; now rewrite To).
      destruct (IHl min s (o :: reading r ++ rest) O K Gl Kl) as (n1 & N1 & gl & idl & s1 & P1 & O1 & Sk1 & K1 & D1 & E1).
      { unfold lok in Lo. destruct (root_op l) as [o1|]; [|exact I]. unfold stops. rewrite To, <- Hp.
        pose proof (nxt_prec table o1). lia. }
      destruct (bump_detail s1 o (reading r ++ rest) O1 K1) as (Ak & Ik & Pk & len & tr & Sk2 & Tr & K2 & O2 & _ & Er2).
      destruct (IHr (nxt table o) (bump ign s1) rest O2 K2 Gr Kr) as (n3 & N3 & g3 & id3 & s3 & P3 & O3 & Sk3 & K3 & D3 & E3).
      { unfold rok in Ro. destruct (root_op r) as [o2|]; [|exact I]. split; [exact Ro|].
        unfold stops in *. destruct rest as [|k rest']; [exact I|]. destruct (table k) as [[q b]|]; [|exact I].
        pose proof (nxt_prec table o2). lia. }
      assert (Hsk : ps_sink s3 = ps_sink s ++ (Some idl, gl) :: (None, GLeaf o len None) :: tr ++ [(Some id3, g3)]).
      { rewrite Sk3, Sk2, Sk1. rewrite <- !app_assoc. reflexivity. }
      destruct O3 as [G3 S3].
      destruct (finish_some s3 (length (ps_sink s)) ek G3) as [nn F]; [rewrite Hsk, app_length; lia|].
      destruct (finish_good ign toks Hfit False _ _ _ _ _ G3 F) as (G4 & _).
      rewrite Hsk, skipn_app_len, firstn_app_len in F, G4.
      eexists (S n1), (n3 + N3 + N1 + 1), _, _, _. split; [|split; [split; [exact G4 | exact S3]|]].
      + intros f Hf. replace (S n1 + f) with (n1 + S f) by lia. rewrite P1 by lia.
        remember f as ff eqn:Eff. cbn [pratt]. rewrite Pk, To.
        destruct (Nat.ltb_spec p min) as [L|_]; [lia|]. cbn [fst].
        unfold checkpoint_before. rewrite Sk1, find_last_end. cbn [Nat.add].
        unfold expect, eat. rewrite Ak. cbn [snd]. rewrite (next_prec_nxt _ _ _ To).
        replace ff with (n3 + S (ff - n3 - 1)) at 1 by lia. rewrite P3 by lia.
        rewrite loop_stops; [|split; assumption|rewrite K3; exact Rs].
        rewrite F. reflexivity.
      + cbn [ps_sink]. split; [reflexivity|]. split; [exact K3|]. split; [|cbn; congruence].
        eapply DBin; [|exact D1|exact D3]. cbn [map snd]. rewrite map_app. cbn [map snd].
        assert (Hn : forall g x, den g x -> trivia ign g = false) by (intros g x Hd; destruct Hd; reflexivity).
        unfold solid in *. cbn [filter]. rewrite (Hn _ _ D1). cbn [negb trivia]. rewrite Ik. cbn [negb].
        rewrite filter_app, Tr. cbn [app filter]. rewrite (Hn _ _ D3). reflexivity.
  Qed.

  Lemma pratt_parses : forall ks rest s, okst s -> kinds_to_come ign s = ks ++ rest -> alternating table ks ->
    stops 0 rest \/ rest = [] \/ (exists k r, rest = k :: r /\ table k = None) ->
    exists e, reading e = ks /\ grouped table e /\ operators_known table e /\
    exists N g id s', (forall f, N <= f -> pratt ign table atom ek f None 0 s = Some ((Some id, g), s')) /\
      den g e /\ kinds_to_come ign s' = rest /\ ps_sink s' = ps_sink s ++ [(Some id, g)] /\
      okst s' /\ ps_errs s' = ps_errs s.
  Proof.
    intros ks rest s O K A R. destruct (grouped_exists table ks A) as (e & E1 & E2 & E3).
    exists e. split; [exact E1|]. split; [exact E2|]. split; [exact E3|].
    assert (St : forall m, stops m rest).
    { intros m. destruct R as [R|[->|(k & r & -> & T)]]; unfold stops in *; try exact I.
      - destruct rest as [|k r]; [exact I|]. destruct (table k) as [[p a]|]; [lia | exact I].
      - now rewrite T. }
    rewrite <- E1 in K.
    destruct (pratt_reaches e 0 s rest O K) as (n & N & g & id & s' & P & O' & Sk & K' & D & Er).
    { now apply grouped_gr. } { exact E3. }
    { destruct (root_op e); [|exact I]. split; [lia | apply St]. }
    exists (n + N + 1), g, id, s'. split; [|auto 10].
    intros f Hf. replace f with (n + S (f - n - 1)) by lia. rewrite P by lia. apply loop_stops; [exact O'|].
    rewrite K'. apply St.
  Qed.
End Parse.

(** A non-associative operator is parsed as a left-associative one. *)
Definition as_left (table : nat -> option (nat * assoc)) (k : nat) : option (nat * assoc) :=
  match table k with
  | Some (p, ANone) => Some (p, ALeft)
  | x => x
  end.

Lemma none_is_left : forall ign table atom ek f left min s,
  pratt ign table atom ek f left min s = pratt ign (as_left table) atom ek f left min s.
Proof.
  intros ign table atom ek. induction f as [|f IH]; intros left min s; [reflexivity|].
  cbn [pratt]. destruct left as [l|].
  2:{ destruct (primary ign atom s) as [[l s1]|]; [apply IH | reflexivity]. }
  destruct (peek_kind s) as [k|]; [|reflexivity]. unfold as_left at 1.
  destruct (table k) as [[p a]|]; [|reflexivity].
  assert (E : next_prec p a = next_prec p (match a with ANone => ALeft | x => x end)) by (destruct a; reflexivity).
  destruct a; cbv beta iota in E |- *;
    (destruct (p <? min); [reflexivity|]); (destruct (fst l) as [id|]; [|reflexivity]);
    rewrite ?E;
    (match goal with |- context [next_prec p ?a] => destruct (next_prec p a) as [np|] end; [|reflexivity]);
    rewrite <- (IH None np);
    (match goal with |- context [pratt ?a ?b ?c ?d ?e None ?g ?h] => destruct (pratt a b c d e None g h) as [[x y]|] end; [|reflexivity]);
    (match goal with |- context [finish_at ?a ?b ?c] => destruct (finish_at a b c) as [[x' y']|] end; [apply IH | reflexivity]).
Qed.
