(** From the grammar of LuaAstSpec.v to the trees of the parser and the values of the builder: tools. *)
From Verif Require Import Base Utf8 Utf8Facts RopeModel LexModel LexSpec TreeModel TreeSpec TreeProofs ParserModel ParserSpec ParserProofs CursorModel JsonLangSpec LangModel LangSpec LangLexProofs LangParseProofs LuaModel LuaSpec LuaAstModel LuaAstSpec.
From Verif Require LuaLexProofs LuaProofs JsonAstBuildProofs.

(** ** Pieces *)
Definition Y (e : list piece) : list (nat * nat) := flat_map piece_yield e.
Definition next (ys : list (nat * nat)) : nat := match ys with y :: _ => fst y | [] => UEof end.
Definition quiet (ys : list (nat * nat)) : Prop := lua_ign (next ys) = false.
Definition headed (e : list piece) : Prop := match e with [] => True | (Some k, _) :: _ => lua_ign k = false | _ => False end.
Definition plen (e : list piece) : nat := length (encode (text_of_pieces e)).

Lemma Y_app a b : Y (a ++ b) = Y a ++ Y b.
Proof. apply flat_map_app. Qed.
Lemma plen_app a b : plen (a ++ b) = plen a + plen b.
Proof. unfold plen, text_of_pieces. now rewrite flat_map_app, encode_app, app_length. Qed.
Lemma headed_app a b : headed a -> headed b -> headed (a ++ b).
Proof. now destruct a as [| [[k|] s] a]. Qed.
Lemma first_app a b k : headed a -> first (a ++ b) k = first a (first b k).
Proof. now destruct a as [| [[x|] s] a]. Qed.
Lemma next_Y e ys : headed e -> next (Y e ++ ys) = first e (next ys).
Proof. destruct e as [| [[k|] s] e]; [reflexivity | reflexivity | contradiction]. Qed.
Lemma quiet_Y e ys : headed e -> quiet ys -> quiet (Y e ++ ys).
Proof. destruct e as [| [[k|] s] e]; [exact (fun _ H => H) | exact (fun H _ => H) | contradiction]. Qed.

Lemma tok_headed k s e : tok k s e -> lua_ign k = false -> headed e.
Proof. intros (w & -> & _) H. exact H. Qed.
Lemma tok_first k s e x : tok k s e -> first e x = k.
Proof. now intros (w & -> & _). Qed.
Lemma names_shape sep e vs : names sep e vs -> exists s r, e = (Some UIdentifier, s) :: r.
Proof. destruct 1 as [e s (w & -> & _) | e c r s x vs (w & -> & _) _ _]; now do 2 eexists. Qed.
Lemma names_headed sep e vs : names sep e vs -> headed e.
Proof. intros H. destruct (names_shape _ _ _ H) as (s & r & ->). reflexivity. Qed.
Lemma names_first sep e vs x : names sep e vs -> first e x = UIdentifier.
Proof. intros H. destruct (names_shape _ _ _ H) as (s & r & ->). reflexivity. Qed.

Lemma trivia_kind p : trivia p -> exists k, fst p = Some k /\ lua_ign k = true.
Proof. intros [E | [E | [E | []]]]; eexists; (split; [symmetry; exact E | reflexivity]). Qed.
Lemma ytrivia_pieces w ys : Forall trivia w -> quiet ys -> ytrivia lua_ign (Y w ++ ys) = Y w /\ ynext lua_ign (Y w ++ ys) = ys.
Proof.
  intros Fw Q. induction Fw as [| [k s] w T _ [IH1 IH2]].
  - destruct ys as [| y ys]; [now split|]. unfold quiet, next in Q. cbn [Y flat_map app ytrivia ynext]. now rewrite Q.
  - destruct (trivia_kind _ T) as (k0 & E & I). cbn [fst] in E. subst k. cbn [Y flat_map piece_yield fst snd app ytrivia ynext]. rewrite I. fold (Y w). now rewrite IH1, IH2.
Qed.

(** ** Items: what the builder makes of children *)
Inductive part (F : Type) := IT (k : nat) (s : str) | IE (v : uexpr F) | IS (v : ustmt F) | IF (v : ufield F).
Arguments IT {F}. Arguments IE {F}. Arguments IS {F}. Arguments IF {F}.
(** Kinds of leaves that no loop of the builder looks at *)
Definition noise : list nat :=
  [UWhitespace; UNewline; UComment; UComma; USemicolon; UDot; UEnd; ULocal; UReturn; UFor; UWhile; URepeat; UGoto; UFunction; ULeftBrace;
   URightBrace; UColonColon; UBreak].

Section Parts.
  Context {F : Type} (parse : str -> option F) (text : str).
  Notation child := (child F).

  Definition canon (p : part F) : child :=
    match p with
    | IT k s => CLeaf k (length s) s
    | IE v => CNode 0 (Some (Some v)) None None
    | IS v => CNode 0 None (Some (Some v)) None
    | IF v => CNode UTableField None None (Some (Some v))
    end.
  Definition below {A} (a b : option A) : Prop := a = None \/ a = b.
  Definition le (c c' : child) : Prop :=
    match c, c' with
    | CLeaf k n s, CLeaf k' n' s' => k = k' /\ n = n' /\ s = s'
    | CNode k e s f, CNode k' e' s' f' => (k = k' \/ k <> UTableField /\ k' <> UTableField) /\ below e e' /\ below s s' /\ below f f'
    | _, _ => False
    end.
  Inductive shown : list child -> list (part F) -> Prop :=
  | ShNil : shown [] []
  | ShSkip k n s cs ps : In k noise -> shown cs ps -> shown (CLeaf k n s :: cs) ps
  | ShPart p c cs ps : le (canon p) c -> shown cs ps -> shown (c :: cs) (p :: ps).
  Lemma shown_app a b ps qs : shown a ps -> shown b qs -> shown (a ++ b) (ps ++ qs).
  Proof. induction 1; intros B; cbn [app]; [exact B | apply ShSkip; auto | apply ShPart; auto]. Qed.

  Definition mono {A} (step : A -> child -> option A) : Prop := forall acc c c' a, le c c' -> step acc c = Some a -> step acc c' = Some a.
  Definition still {A} (step : A -> child -> option A) : Prop := forall acc k n s, In k noise -> step acc (CLeaf k n s) = Some acc.
  Lemma each_shown {A} (step : A -> child -> option A) cs ps : mono step -> still step -> shown cs ps ->
    forall acc a, each step (map canon ps) acc = Some a -> each step cs acc = Some a.
  Proof.
    intros M St. induction 1 as [| k n s cs ps I _ IH | p c cs ps L _ IH]; intros acc a E; [exact E | |].
    - cbn [each]. rewrite (St acc k n s I). exact (IH acc a E).
    - cbn [each map] in *. destruct (step acc (canon p)) as [x|] eqn:Ep; [|discriminate]. rewrite (M _ _ _ _ L Ep). exact (IH x a E).
  Qed.
  Lemma each_app {A} (step : A -> child -> option A) a b acc x : each step a acc = Some x -> each step (a ++ b) acc = each step b x.
  Proof. revert acc. induction a as [| c a IH]; intros acc E; [now injection E as <-|]. cbn [each app] in *. destruct (step acc c); [now apply IH | discriminate]. Qed.

  Lemma with_some_below {A B} (acc : A) (r r' : res B) f a : below r r' -> with_some acc r f = Some a -> with_some acc r' f = Some a.
  Proof. intros [-> | ->] E; [discriminate | exact E]. Qed.
  Lemma map_below {A B} (f : A -> B) r r' a : below r r' -> option_map f r = Some a -> option_map f r' = Some a.
  Proof. intros [-> | ->] E; [discriminate | exact E]. Qed.
  Lemma id_below {A} (r r' : option A) a : below r r' -> r = Some a -> r' = Some a.
  Proof. intros [-> | ->] E; [discriminate | exact E]. Qed.
End Parts.

Ltac mono_tac :=
  intros acc [k n s | k e s f] [k' n' s' | k' e' s' f'] a L; cbn [le] in L; try contradiction;
  [ destruct L as (-> & -> & ->); exact (fun E => E)
  | destruct L as (Lk & Le & Ls & Lf); cbv beta zeta delta [b_literal b_name b_binary b_unary b_call b_field b_table b_function b_member b_index b_first b_local b_assign b_exprs b_label b_if b_while b_for b_repeat b_do b_declaration];
    repeat match goal with
           | |- context [match ?x with _ => _ end] => is_var x; destruct x
           | |- context [let '(_, _) := ?x in _] => is_var x; destruct x
           end;
    repeat match goal with |- (if ?b then _ else _) = _ -> _ => destruct b | |- context [match fst ?x with _ => _ end] => destruct (fst x) end;
    first [ exact (fun E => E) | exact (with_some_below _ _ _ _ _ Le) | exact (with_some_below _ _ _ _ _ Ls) | exact (with_some_below _ _ _ _ _ Lf)
          | exact (map_below _ _ _ _ Le) | exact (id_below _ _ _ Le) ] ].
Ltac still_tac := intros acc k n s I; cbn in I; repeat (destruct I as [<- | I]; [first [reflexivity | destruct acc; reflexivity | unfold if_state, for_state, fun_state in *; repeat match goal with x : (_ * _)%type |- _ => destruct x end; reflexivity]|]); contradiction.

Section Steps.
  Context {F : Type} (parse : str -> option F) (text : str).
  Lemma m_literal off : mono (b_literal parse text off). Proof. mono_tac. Qed.
  Lemma m_name off : mono (F := F) (b_name text off). Proof. mono_tac. Qed.
  Lemma m_binary : mono (F := F) b_binary. Proof. mono_tac. Qed.
  Lemma m_unary : mono (F := F) b_unary. Proof. mono_tac. Qed.
  Lemma m_call : mono (F := F) b_call. Proof. mono_tac. Qed.
  Lemma m_field : mono (F := F) b_field. Proof. mono_tac. Qed.
  Lemma m_function : mono (F := F) b_function. Proof. mono_tac. Qed.
  Lemma m_member : mono (F := F) b_member. Proof. mono_tac. Qed.
  Lemma m_index : mono (F := F) b_index. Proof. mono_tac. Qed.
  Lemma m_first : mono (F := F) b_first. Proof. mono_tac. Qed.
  Lemma m_local : mono (F := F) b_local. Proof. mono_tac. Qed.
  Lemma m_assign : mono (F := F) b_assign. Proof. mono_tac. Qed.
  Lemma m_exprs : mono (F := F) b_exprs. Proof. mono_tac. Qed.
  Lemma m_label : mono (F := F) b_label. Proof. mono_tac. Qed.
  Lemma m_if : mono (F := F) b_if. Proof. mono_tac. Qed.
  Lemma m_while : mono (F := F) b_while. Proof. mono_tac. Qed.
  Lemma m_for : mono (F := F) b_for. Proof. mono_tac. Qed.
  Lemma m_repeat : mono (F := F) b_repeat. Proof. mono_tac. Qed.
  Lemma m_do : mono (F := F) b_do. Proof. mono_tac. Qed.
  Lemma m_declaration : mono (F := F) b_declaration. Proof. mono_tac. Qed.
  Lemma m_table : mono (F := F) b_table.
  Proof.
    intros acc [k n s | k e s f] [k' n' s' | k' e' s' f'] a L; cbn [le] in L; try contradiction; [destruct L as (-> & -> & ->); exact (fun E => E)|]. destruct L as (Lk & Le & Ls & Lf). unfold b_table. intros E.
    destruct (Nat.eqb_spec k UTableField) as [K | K].
    - destruct Lk as [<- | [N _]]; [|contradiction]. rewrite K, Nat.eqb_refl. exact (with_some_below _ _ _ _ _ Lf E).
    - destruct Lk as [<- | [_ N]]; [now apply Nat.eqb_neq in K as ->|]. now apply Nat.eqb_neq in N as ->.
  Qed.
  Lemma s_literal off : still (b_literal parse text off). Proof. still_tac. Qed.
  Lemma s_name off : still (F := F) (b_name text off). Proof. still_tac. Qed.
  Lemma s_binary : still (F := F) b_binary. Proof. still_tac. Qed.
  Lemma s_unary : still (F := F) b_unary. Proof. still_tac. Qed.
  Lemma s_call : still (F := F) b_call. Proof. still_tac. Qed.
  Lemma s_field : still (F := F) b_field. Proof. still_tac. Qed.
  Lemma s_function : still (F := F) b_function. Proof. still_tac. Qed.
  Lemma s_member : still (F := F) b_member. Proof. still_tac. Qed.
  Lemma s_index : still (F := F) b_index. Proof. still_tac. Qed.
  Lemma s_first : still (F := F) b_first. Proof. still_tac. Qed.
  Lemma s_local : still (F := F) b_local. Proof. still_tac. Qed.
  Lemma s_assign : still (F := F) b_assign. Proof. still_tac. Qed.
  Lemma s_exprs : still (F := F) b_exprs. Proof. still_tac. Qed.
  Lemma s_label : still (F := F) b_label. Proof. still_tac. Qed.
  Lemma s_if : still (F := F) b_if. Proof. still_tac. Qed.
  Lemma s_while : still (F := F) b_while. Proof. still_tac. Qed.
  Lemma s_for : still (F := F) b_for. Proof. still_tac. Qed.
  Lemma s_repeat : still (F := F) b_repeat. Proof. still_tac. Qed.
  Lemma s_do : still (F := F) b_do. Proof. still_tac. Qed.
  Lemma s_declaration : still (F := F) b_declaration. Proof. still_tac. Qed.
  Lemma s_table : still (F := F) b_table. Proof. still_tac. Qed.
End Steps.

(** The loops over lists of equal parts *)
Section Loops.
  Context {F : Type}.
  Notation run step its acc := (each step (map (canon (F := F)) its) acc).
  Ltac ev l := induction l as [| x l IH]; intros; [cbn; rewrite ?app_nil_r; reflexivity | cbn; rewrite IH, <- app_assoc; reflexivity].
  Lemma ev_call l : forall f acc, run b_call (map IE l) (Some f, acc) = Some (Some f, acc ++ l). Proof. ev l. Qed.
  Lemma ev_table l : forall acc, run b_table (map IF l) acc = Some (acc ++ l). Proof. ev l. Qed.
  Lemma ev_fun_names l : forall ps va b, run b_function (map (IT UIdentifier) l) (ps, va, b, false) = Some (ps ++ l, va, b, false). Proof. ev l. Qed.
  Lemma ev_fun_body l : forall ps va b, run b_function (map IS l) (ps, va, b, true) = Some (ps, va, b ++ l, true). Proof. ev l. Qed.
  Lemma ev_local_names l : forall ns es, run b_local (map (IT UIdentifier) l) (ns, es) = Some (ns ++ l, es). Proof. ev l. Qed.
  Lemma ev_local_exprs l : forall ns es, run b_local (map IE l) (ns, es) = Some (ns, es ++ l). Proof. ev l. Qed.
  Lemma ev_assign_left l : forall ts vs, run b_assign (map IE l) (ts, vs, false) = Some (ts ++ l, vs, false). Proof. ev l. Qed.
  Lemma ev_assign_right l : forall ts vs, run b_assign (map IE l) (ts, vs, true) = Some (ts, vs ++ l, true). Proof. ev l. Qed.
  Lemma ev_exprs l : forall acc, run b_exprs (map IE l) acc = Some (acc ++ l). Proof. ev l. Qed.
  Lemma ev_if_first l : forall c b es el, run b_if (map IS l) (c, b, es, el, 1) = Some (c, b ++ l, es, el, 1). Proof. ev l. Qed.
  Lemma push_last_end es c b (x : ustmt F) : push_last (es ++ [(c, b)]) x = es ++ [(c, b ++ [x])].
  Proof. unfold push_last. rewrite rev_app_distr. cbn. now rewrite rev_involutive. Qed.
  Lemma ev_if_other l : forall c b es v ss el, run b_if (map IS l) (c, b, es ++ [(v, ss)], el, 3) = Some (c, b, es ++ [(v, ss ++ l)], el, 3).
  Proof. induction l as [| x l IH]; intros; [cbn; now rewrite app_nil_r|]. cbn [map each]. cbn -[push_last]. now rewrite push_last_end, IH, <- app_assoc. Qed.
  Lemma ev_if_else l : forall c b es ss, run b_if (map IS l) (c, b, es, Some ss, 4) = Some (c, b, es, Some (ss ++ l), 4). Proof. ev l. Qed.
  Lemma ev_while l : forall c b, run b_while (map IS l) (c, b, true) = Some (c, b ++ l, true). Proof. ev l. Qed.
  Lemma ev_for_names l : forall vs es b x y, run b_for (map (IT UIdentifier) l) (vs, es, b, (false, x, y)) = Some (vs ++ l, es, b, (false, x, y)). Proof. ev l. Qed.
  Lemma ev_for_exprs l : forall vs es b x y, run b_for (map IE l) (vs, es, b, (false, x, y)) = Some (vs, es ++ l, b, (false, x, y)). Proof. ev l. Qed.
  Lemma ev_for_body l : forall vs es b x y, run b_for (map IS l) (vs, es, b, (true, x, y)) = Some (vs, es, b ++ l, (true, x, y)). Proof. ev l. Qed.
  Lemma ev_repeat l : forall b c, run b_repeat (map IS l) (b, c, false) = Some (b ++ l, c, false). Proof. ev l. Qed.
  Lemma ev_do l : forall b, run b_do (map IS l) b = Some (b ++ l). Proof. ev l. Qed.
  Lemma ev_decl_names l : forall ns r ps va b, run b_declaration (map (IT UIdentifier) l) (ns, r, ps, va, b, 0) = Some (ns ++ l, r, ps, va, b, 0). Proof. ev l. Qed.
  Lemma ev_decl_params l : forall ns r ps va b, run b_declaration (map (IT UIdentifier) l) (ns, r, ps, va, b, 1) = Some (ns, r, ps ++ l, va, b, 1). Proof. ev l. Qed.
  Lemma ev_decl_body l : forall ns r ps va b, run b_declaration (map IS l) (ns, r, ps, va, b, 2) = Some (ns, r, ps, va, b ++ l, 2). Proof. ev l. Qed.
End Loops.

(** ** Parsing and building together *)
Lemma children_app {F} (parse : str -> option F) text l1 l2 o : children parse text (l1 ++ l2) o = children parse text l1 o ++ children parse text l2 (o + list_sum (map glen l1)).
Proof.
  revert o. induction l1 as [| c l1 IH]; intros o; [cbn; now rewrite Nat.add_0_r|]. cbn [app children map list_sum fold_right]. rewrite IH. do 3 f_equal. unfold list_sum. lia.
Qed.
Lemma built_node {F} (parse : str -> option F) text k n ch off :
  built parse text (GNode k n ch) off = CNode k (expr_of parse text k off (children parse text ch off)) (stmt_of k (children parse text ch off)) (field_of (children parse text ch off)).
Proof.
  cbn [built]. set (go := fix go (l : list green) (o : nat) : list (child F) := match l with [] => [] | c :: r => built parse text c o :: go r (o + glen c) end).
  assert (E : forall l o, go l o = children parse text l o). { induction l as [| c l IH]; intros o; [reflexivity|]. cbn [children]. rewrite <- IH. reflexivity. }
  now rewrite E.
Qed.
Lemma glen_width t : TreeSpec.built t -> glen t = width t.
Proof.
  intros B. pose proof (sum_len_width [t] (Forall_cons _ B (Forall_nil _))) as H. cbn in H. rewrite !Nat.add_0_r in H. exact H.
Qed.

Section Run.
  Context {F : Type} (parse : str -> option F) (cs : list Z) (toks : list token).
  Hypothesis Sc : Forall is_scalar cs.
  Hypothesis Hfit : (Z.of_nat (toklen toks) < 2 ^ 32)%Z.
  Notation text := (encode cs).
  Notation sits := (sits toks).

  Definition placed (e : list piece) (off : nat) : Prop := exists a b, cs = a ++ text_of_pieces e ++ b /\ off = length (encode a).
  Lemma placed_app e1 e2 off : placed (e1 ++ e2) off -> placed e1 off /\ placed e2 (off + plen e1).
  Proof.
    intros (a & b & E & ->). unfold text_of_pieces in E. rewrite flat_map_app, <- app_assoc in E. split.
    - now exists a, (flat_map snd e2 ++ b).
    - exists (a ++ flat_map snd e1), b. split; [now rewrite <- app_assoc | now rewrite encode_app, app_length].
  Qed.
  Lemma placed_text k s e off : placed ((k, s) :: e) off -> flat_text_in text off (off + length (encode s)) = encode s /\ Forall is_scalar s.
  Proof.
    intros (a & b & E & ->). change (text_of_pieces ((k, s) :: e)) with (s ++ text_of_pieces e) in E. rewrite <- app_assoc in E. rewrite E in *. split; [now apply JsonAstBuildProofs.text_here|].
    apply Forall_app in Sc. destruct Sc as [_ H]. apply Forall_app in H. tauto.
  Qed.

  Definition covers (ch : list green) (e : list piece) (its : list (part F)) : Prop :=
    list_sum (map glen ch) = plen e /\ forall off, placed e off -> shown (children parse text ch off) its.
  Lemma covers_nil : covers [] [] [].
  Proof. split; [reflexivity|]. intros off _. constructor. Qed.
  Lemma covers_app c1 e1 i1 c2 e2 i2 : covers c1 e1 i1 -> covers c2 e2 i2 -> covers (c1 ++ c2) (e1 ++ e2) (i1 ++ i2).
  Proof.
    intros [L1 S1] [L2 S2]. split; [now rewrite map_app, list_sum_app, plen_app, L1, L2|]. intros off P. apply placed_app in P. destruct P as [P1 P2]. rewrite children_app, L1. apply shown_app; auto.
  Qed.
  Definition its_tok (k : nat) (s : list Z) : list (part F) := if existsb (Nat.eqb k) noise then [] else [IT k (encode s)].
  Lemma shown_leaf k s p e off : (k, s) = (Some p, s) -> placed ((k, s) :: e) off -> shown [built parse text (yleaf (p, length (encode s))) off] (its_tok p s).
  Proof.
    intros _ P. destruct (placed_text _ _ _ _ P) as [T _]. cbn [yleaf fst snd built]. rewrite T. unfold its_tok. destruct (existsb (Nat.eqb p) noise) eqn:E.
    - apply ShSkip; [|constructor]. apply existsb_exists in E. destruct E as (x & I & E). apply Nat.eqb_eq in E. now subst x.
    - apply ShPart; [|constructor]. cbn. auto.
  Qed.
  Lemma covers_trivia w : Forall trivia w -> covers (map yleaf (Y w)) w [].
  Proof.
    induction 1 as [| [k s] w T _ IH]; [apply covers_nil|]. destruct (trivia_kind _ T) as (k0 & E & I). cbn [fst] in E. subst k. change (Y ((Some k0, s) :: w)) with ((k0, length (encode s)) :: Y w). cbn [map].
    change (covers ([yleaf (k0, length (encode s))] ++ map yleaf (Y w)) ([(Some k0, s)] ++ w) ([] ++ [])). apply covers_app; [|exact IH]. split.
    - unfold plen, text_of_pieces. cbn. rewrite app_nil_r. lia.
    - intros off P. cbn [children]. assert (H : its_tok k0 s = []). { unfold its_tok. destruct T as [T | [T | [T | []]]]; injection T as <-; reflexivity. } rewrite <- H. now apply (shown_leaf (Some k0) s k0 []).
  Qed.
  Lemma covers_tok k s w : Forall trivia w -> covers (yleaf (k, length (encode s)) :: map yleaf (Y w)) ((Some k, s) :: w) (its_tok k s).
  Proof.
    intros Fw. change (covers ([yleaf (k, length (encode s))] ++ map yleaf (Y w)) ([(Some k, s)] ++ w) (its_tok k s)). rewrite <- (app_nil_r (its_tok k s)). apply covers_app; [|now apply covers_trivia]. split.
    - unfold plen, text_of_pieces. cbn. rewrite app_nil_r. lia.
    - intros off P. cbn [children]. now apply (shown_leaf (Some k) s k []).
  Qed.

  (** A node with such children *)
  Definition e_node (kind : nat) (e : list piece) (its : list (part F)) (v : uexpr F) : Prop :=
    forall off l, placed e off -> shown l its -> expr_of parse text kind off l = Some (Some v).
  Definition s_node (kind : nat) (its : list (part F)) (v : ustmt F) : Prop := forall l, shown l its -> stmt_of kind l = Some (Some v).
  Lemma glen_gnode k ch : Forall TreeSpec.built ch -> glen (gnode k ch) = list_sum (map glen ch).
  Proof. intros B. cbn [glen gnode]. f_equal. induction B as [| t ch B _ IH]; [reflexivity|]. cbn [map]. now rewrite IH, glen_width. Qed.
  Lemma covers_e k ch e its v : Forall TreeSpec.built ch -> covers ch e its -> k <> UTableField -> e_node k e its v -> covers [gnode k ch] e [IE v].
  Proof.
    intros B [L S] K N. split; [cbn [map list_sum fold_right]; rewrite (glen_gnode k ch B); lia|]. intros off P. cbn [children]. unfold gnode. rewrite built_node. apply ShPart; [|constructor]. cbn. split; [right; split; [discriminate | exact K]|]. split; [right; symmetry; apply N; auto|]. split; now left.
  Qed.
  Lemma covers_s k ch e its v : Forall TreeSpec.built ch -> covers ch e its -> k <> UTableField -> s_node k its v -> covers [gnode k ch] e [IS v].
  Proof.
    intros B [L S] K N. split; [cbn [map list_sum fold_right]; rewrite (glen_gnode k ch B); lia|]. intros off P. cbn [children]. unfold gnode. rewrite built_node. apply ShPart; [|constructor]. cbn. split; [right; split; [discriminate | exact K]|]. split; [now left|]. split; [right; symmetry; apply N; auto | now left].
  Qed.
  Lemma covers_f ch e its v : Forall TreeSpec.built ch -> covers ch e its -> (forall l, shown l its -> field_of l = Some (Some v)) -> covers [gnode UTableField ch] e [IF v].
  Proof.
    intros B [L S] N. split; [cbn [map list_sum fold_right]; rewrite (glen_gnode _ ch B); lia|]. intros off P. cbn [children]. unfold gnode. rewrite built_node. apply ShPart; [|constructor]. cbn [canon le]. split; [now left|]. split; [now left|]. split; [now left|]. right. symmetry. apply N. auto.
  Qed.

  (** *** Acts: [does a e Q its]: with enough fuel, [a] reads the pieces [e] when a token with [Q] follows. *)
  Definition ends (a : act) (e : list piece) (Q : nat -> Prop) (its : list (part F)) : Prop :=
    forall s ys trees, sits s (Y e ++ ys) trees -> quiet ys -> Q (next ys) ->
      exists s' ch, a s = Some s' /\ sits s' ys (trees ++ ch) /\ ps_errs s' = ps_errs s /\ covers ch e its.
  Definition does (a : nat -> nat -> act) (e : list piece) (Q : nat -> Prop) (its : list (part F)) : Prop :=
    exists N, forall f g, N <= f -> N <= g -> ends (a f g) e Q its.
  Definition always (k : nat) : Prop := True.

  Lemma sits_built s ys trees : sits s ys trees -> Forall TreeSpec.built trees.
  Proof. intros (rest & (_ & _ & _ & _ & B & _) & _). exact B. Qed.
  Lemma does_weak a e (Q Q' : nat -> Prop) its : does a e Q its -> (forall k, Q' k -> Q k) -> does a e Q' its.
  Proof. intros (N & H) W. exists N. intros f g Lf Lg s ys trees S q Qn. exact (H f g Lf Lg s ys trees S q (W _ Qn)). Qed.
  Lemma does_diag a e Q its : does a e Q its -> does (fun f _ => a f f) e Q its.
  Proof. intros (N & H). exists N. intros f g Lf _. exact (H f f Lf Lf). Qed.
  Lemma does_nop Q : does (fun _ _ => nop) [] Q [].
  Proof. exists 0. intros f g _ _ s ys trees S q _. exists s, []. rewrite app_nil_r. split; [reflexivity|]. split; [exact S|]. split; [reflexivity | apply covers_nil]. Qed.
  Lemma does_seq a b e1 e2 Q1 Q2 i1 i2 : does a e1 Q1 i1 -> does b e2 Q2 i2 -> headed e2 -> (forall k, Q2 k -> Q1 (first e2 k)) ->
    does (fun f g => a f g ;; b f g) (e1 ++ e2) Q2 (i1 ++ i2).
  Proof.
    intros (N1 & H1) (N2 & H2) Hd W. exists (max N1 N2). intros f g Lf Lg s ys trees S q Qn. rewrite Y_app, <- app_assoc in S.
    destruct (H1 f g ltac:(lia) ltac:(lia) s _ trees S (quiet_Y e2 ys Hd q)) as (s1 & c1 & E1 & S1 & R1 & C1); [rewrite (next_Y e2 ys Hd); now apply W|].
    destruct (H2 f g ltac:(lia) ltac:(lia) s1 ys _ S1 q Qn) as (s2 & c2 & E2 & S2 & R2 & C2). exists s2, (c1 ++ c2). unfold seq. rewrite E1. split; [exact E2|]. split; [now rewrite app_assoc|]. split; [congruence | now apply covers_app].
  Qed.

  Lemma bump_tok k s e : tok k s e -> ends lua_bump e always (its_tok k s).
  Proof.
    intros (w & -> & Fw) st ys trees S q _. change (Y ((Some k, s) :: w)) with ((k, length (encode s)) :: Y w) in S. cbn [app] in S. destruct (sits_bump lua_ign toks Hfit st _ _ trees S) as [S' R]. destruct (ytrivia_pieces w ys Fw q) as [T X]. rewrite T, X in S'.
    eexists _, _. split; [reflexivity|]. split; [exact S'|]. split; [exact R | now apply covers_tok].
  Qed.
  Lemma at_tok k s e st ys trees x : tok k s e -> sits st (Y e ++ ys) trees -> at_kind st x = (k =? x).
  Proof. intros (w & -> & _) S. now rewrite (sits_at _ _ _ _ x S). Qed.
  Lemma at_next st ys trees x : sits st ys trees -> x <> UEof -> at_kind st x = (next ys =? x).
  Proof. intros S N. rewrite (sits_at _ _ _ _ x S). destruct ys; [|reflexivity]. cbn [next]. symmetry. apply Nat.eqb_neq. congruence. Qed.
  Lemma does_bump k s e : tok k s e -> does (fun _ _ => lua_bump) e always (its_tok k s).
  Proof. intros T. exists 0. intros f g _ _. now apply bump_tok. Qed.
  Lemma does_want k s e : tok k s e -> does (fun _ _ => want k) e always (its_tok k s).
  Proof.
    intros T. exists 0. intros f g _ _ st ys trees S q Qn. unfold want, expect, eat. rewrite (at_tok k s e st ys trees k T S), Nat.eqb_refl. cbn [snd]. exact (bump_tok k s e T st ys trees S q Qn).
  Qed.
  Lemma does_may_yes k s e : tok k s e -> does (fun _ _ => may k) e always (its_tok k s).
  Proof.
    intros T. exists 0. intros f g _ _ st ys trees S q Qn. unfold may, eat. rewrite (at_tok k s e st ys trees k T S), Nat.eqb_refl. cbn [snd]. exact (bump_tok k s e T st ys trees S q Qn).
  Qed.
  Lemma does_may_no k : k <> UEof -> does (fun _ _ => may k) [] (fun x => x <> k) [].
  Proof.
    intros N. exists 0. intros f g _ _ st ys trees S q Qn. unfold may, eat. rewrite (at_next st _ trees k S N). cbn [Y flat_map app]. apply Nat.eqb_neq in Qn as ->. exists st, []. rewrite app_nil_r. split; [reflexivity|]. split; [exact S|]. split; [reflexivity | apply covers_nil].
  Qed.
  Lemma does_if_eat_yes k s e0 a b e Q its : tok k s e0 -> does a e Q its -> headed e -> does (fun f g => if_eat k (a f g) (b f g)) (e0 ++ e) Q (its_tok k s ++ its).
  Proof.
    intros T A Hd. destruct (does_seq (fun _ _ => lua_bump) a e0 e always Q _ its (does_bump k s e0 T) A Hd (fun _ _ => I)) as (N & H). exists N. intros f g Lf Lg st ys trees S q Qn. specialize (H f g Lf Lg st ys trees S q Qn). unfold if_eat, eat.
    assert (at_kind st k = true) as ->; [|exact H]. rewrite Y_app, <- app_assoc in S. rewrite (at_tok k s e0 st _ trees k T S). apply Nat.eqb_refl.
  Qed.
  Lemma does_if_eat_no k a b e Q its : k <> UEof -> does b e Q its -> headed e -> (forall x, Q x -> first e x <> k) -> does (fun f g => if_eat k (a f g) (b f g)) e Q its.
  Proof.
    intros Ne (N & H) Hd W. exists N. intros f g Lf Lg st ys trees S q Qn. unfold if_eat, eat. rewrite (at_next st _ trees k S Ne), (next_Y e ys Hd). specialize (W _ Qn). apply Nat.eqb_neq in W as ->. exact (H f g Lf Lg st ys trees S q Qn).
  Qed.
  Lemma existsb_at st ys trees ks : sits st ys trees -> ~ In UEof ks -> existsb (at_kind st) ks = existsb (Nat.eqb (next ys)) ks.
  Proof.
    intros S. induction ks as [| k ks IH]; intros Ne; [reflexivity|]. cbn [existsb]. rewrite IH by (intros I; apply Ne; now right). rewrite (at_next st ys trees k S); [reflexivity|]. intros ->. apply Ne. now left.
  Qed.
  Lemma in_existsb k ks : In k ks -> existsb (Nat.eqb k) ks = true.
  Proof. intros I. apply existsb_exists. exists k. split; [exact I | apply Nat.eqb_refl]. Qed.
  Lemma out_existsb k ks : ~ In k ks -> existsb (Nat.eqb k) ks = false.
  Proof. intros I. destruct (existsb (Nat.eqb k) ks) eqn:E; [|reflexivity]. apply existsb_exists in E. destruct E as (x & Ix & E). apply Nat.eqb_eq in E. now subst x. Qed.
  Lemma does_if_at_yes ks a b e Q its : ~ In UEof ks -> does a e Q its -> headed e -> (forall x, Q x -> In (first e x) ks) -> does (fun f g => if_at ks (a f g) (b f g)) e Q its.
  Proof.
    intros Ne (N & H) Hd W. exists N. intros f g Lf Lg st ys trees S q Qn. unfold if_at. rewrite (existsb_at st _ trees ks S Ne), (next_Y e ys Hd), (in_existsb _ _ (W _ Qn)). exact (H f g Lf Lg st ys trees S q Qn).
  Qed.
  Lemma does_if_at_no ks a b e Q its : ~ In UEof ks -> does b e Q its -> headed e -> (forall x, Q x -> ~ In (first e x) ks) -> does (fun f g => if_at ks (a f g) (b f g)) e Q its.
  Proof.
    intros Ne (N & H) Hd W. exists N. intros f g Lf Lg st ys trees S q Qn. unfold if_at. rewrite (existsb_at st _ trees ks S Ne), (next_Y e ys Hd), (out_existsb _ _ (W _ Qn)). exact (H f g Lf Lg st ys trees S q Qn).
  Qed.
  (** loops: the second fuel is theirs *)
  Lemma does_while_none k a (Q : nat -> Prop) : k <> UEof -> (forall x, Q x -> x <> k) -> does (fun f g => while_eat g k (a f)) [] Q [].
  Proof.
    intros Ne W. exists 1. intros f g _ Lg st ys trees S q Qn. destruct g as [| g]; [lia|]. cbn [while_eat]. unfold if_eat, eat. rewrite (at_next st _ trees k S Ne). cbn [Y flat_map app]. pose proof (W _ Qn) as X. apply Nat.eqb_neq in X as ->.
    exists st, []. rewrite app_nil_r. split; [reflexivity|]. split; [exact S|]. split; [reflexivity | apply covers_nil].
  Qed.
  Lemma does_while_more k s e0 a e1 r Q1 Q i1 i2 : tok k s e0 -> does (fun f _ => a f) e1 Q1 i1 -> does (fun f g => while_eat g k (a f)) r Q i2 -> headed e1 -> headed r ->
    (forall x, Q x -> Q1 (first r x)) -> does (fun f g => while_eat g k (a f)) (e0 ++ e1 ++ r) Q (its_tok k s ++ i1 ++ i2).
  Proof.
    intros T A (N & B) H1 Hr W. assert (B' : does (fun f g => while_eat (g - 1) k (a f)) r Q i2) by (exists (S N); intros f g Lf Lg; apply B; lia).
    destruct (does_if_eat_yes k s e0 _ (fun _ _ => nop) (e1 ++ r) Q _ T (does_seq _ _ _ _ _ _ _ _ A B' Hr W) (headed_app _ _ H1 Hr)) as (N2 & H). exists (S N2). intros f g Lf Lg. destruct g as [| g]; [lia|]. specialize (H f (S g) ltac:(lia) ltac:(lia)). cbn [Nat.sub] in H. rewrite Nat.sub_0_r in H. exact H.
  Qed.

  (** Nodes *)
  Lemma ends_finish (P : green -> Prop) k a e Q its : ends a e Q its ->
    (forall ch, Forall TreeSpec.built ch -> covers ch e its -> P (gnode k ch)) ->
    forall s ys trees, sits s (Y e ++ ys) trees -> quiet ys -> Q (next ys) ->
      exists it s', node_at checkpoint k a s = Some (it, s') /\ sits s' ys (trees ++ [snd it]) /\ ps_errs s' = ps_errs s /\ LuaProofs.last_is s' it /\ P (snd it).
  Proof.
    intros A HP s ys trees S q Qn. destruct (A s ys trees S q Qn) as (s1 & ch & E & S1 & R & C). unfold node_at. rewrite E. unfold checkpoint. rewrite (sits_sink _ _ _ _ S).
    destruct (sits_finish lua_ign toks Hfit s1 ys trees ch (ps_index s) k S1) as (m & s2 & F2 & S2 & R2). exists (Some m, gnode k ch), s2. split; [exact F2|]. split; [exact S2|]. split; [congruence|]. split.
    - destruct (LuaProofs.finish_last _ _ _ _ _ F2) as [L (id & Id)]. now exists (firstn (snd (ps_index s, length trees)) (ps_sink s1)), id.
    - apply HP; [|exact C]. apply sits_built in S1. now apply Forall_app in S1.
  Qed.
  Definition makes (a : nat -> nat -> pstate -> option (item * pstate)) (e : list piece) (Q : nat -> Prop) (p : part F) : Prop :=
    exists N, forall f g, N <= f -> N <= g -> forall s ys trees, sits s (Y e ++ ys) trees -> quiet ys -> Q (next ys) ->
      exists it s', a f g s = Some (it, s') /\ sits s' ys (trees ++ [snd it]) /\ ps_errs s' = ps_errs s /\ LuaProofs.last_is s' it /\ covers [snd it] e [p].
  Lemma makes_e k a e Q its v : does a e Q its -> k <> UTableField -> e_node k e its v -> makes (fun f g => node_at checkpoint k (a f g)) e Q (IE v).
  Proof.
    intros (N & A) K H. exists N. intros f g Lf Lg. apply (ends_finish (fun t => covers [t] e [IE v]) k (a f g) e Q its (A f g Lf Lg)). intros ch B C. now apply (covers_e k ch e its v).
  Qed.
  Lemma makes_s k a e Q its v : does a e Q its -> k <> UTableField -> s_node k its v -> makes (fun f g => node_at checkpoint k (a f g)) e Q (IS v).
  Proof.
    intros (N & A) K H. exists N. intros f g Lf Lg. apply (ends_finish (fun t => covers [t] e [IS v]) k (a f g) e Q its (A f g Lf Lg)). intros ch B C. now apply (covers_s k ch e its v).
  Qed.
  Lemma makes_f a e Q its v : does a e Q its -> (forall l, shown l its -> field_of l = Some (Some v)) -> makes (fun f g => node_at checkpoint UTableField (a f g)) e Q (IF v).
  Proof.
    intros (N & A) H. exists N. intros f g Lf Lg. apply (ends_finish (fun t => covers [t] e [IF v]) UTableField (a f g) e Q its (A f g Lf Lg)). intros ch B C. now apply (covers_f ch e its v).
  Qed.
  Lemma makes_does a e Q p : makes a e Q p -> does (fun f g => dropped (a f g)) e Q [p].
  Proof. intros (N & H). exists N. intros f g Lf Lg s ys trees S q Qn. destruct (H f g Lf Lg s ys trees S q Qn) as (it & s' & E & S' & R & _ & C). exists s', [snd it]. unfold dropped. rewrite E. auto. Qed.

  (** *** Expressions *)
  Definition E (f : nat) : nat -> act := fun m => lua f (Some m).
  Definition B (f : nat) : act := lua f None.
  Definition stops (m k : nat) : Prop := forall p a, lua_table k = Some (p, a) -> p < m.

  Lemma before_last s ys trees left id : sits s ys (trees ++ [snd left]) -> LuaProofs.last_is s left -> fst left = Some id -> checkpoint_before s id = (0, length trees).
  Proof.
    intros St (l & i & Id & L) Q. assert (i = id) as -> by congruence. unfold checkpoint_before. rewrite L, (LuaProofs.find_last_end id l left Q). pose proof (sits_sink _ _ _ _ St) as X. rewrite L, !app_length in X. cbn [length] in X. cbn. f_equal. lia.
  Qed.
  Lemma infix_ends k a e1 e2 Q its v1 v : ends a e2 Q its -> k <> UTableField -> e_node k (e1 ++ e2) (IE v1 :: its) v ->
    forall s ys trees left id, sits s (Y e2 ++ ys) (trees ++ [snd left]) -> LuaProofs.last_is s left -> fst left = Some id -> covers [snd left] e1 [IE v1] -> quiet ys -> Q (next ys) ->
      exists it s', node_at (fun s => checkpoint_before s id) k a s = Some (it, s') /\ sits s' ys (trees ++ [snd it]) /\ ps_errs s' = ps_errs s /\ LuaProofs.last_is s' it /\ covers [snd it] (e1 ++ e2) [IE v].
  Proof.
    intros A K H s ys trees left id S L Id C q Qn. destruct (A s ys _ S q Qn) as (s1 & ch & Ea & S1 & R & C1). unfold node_at. rewrite Ea. rewrite (before_last s _ trees left id S L Id). rewrite <- app_assoc in S1.
    destruct (sits_finish lua_ign toks Hfit s1 ys trees ([snd left] ++ ch) 0 k S1) as (m & s2 & F2 & S2 & R2). exists (Some m, gnode k ([snd left] ++ ch)), s2. split; [exact F2|]. split; [exact S2|]. split; [congruence|]. split.
    - destruct (LuaProofs.finish_last _ _ _ _ _ F2) as [X (i & Ii)]. now exists (firstn (snd (0, length trees)) (ps_sink s1)), i.
    - cbn [snd]. apply (covers_e k _ _ (IE v1 :: its) v); [| |exact K | exact H].
      + apply sits_built in S1. now apply Forall_app in S1.
      + now apply (covers_app _ _ [IE v1]).
  Qed.

  Definition pratt (l m : nat) (e : list piece) (v : uexpr F) : Prop :=
    exists N j, j < N /\ forall f, N <= f -> forall mi s ys trees, mi <= l -> sits s (Y e ++ ys) trees -> quiet ys -> stops m (next ys) ->
      exists it s1, lua_pratt (E f) (B f) f mi s = pratt_loop (E f) f (f - j) it mi s1 /\ sits s1 ys (trees ++ [snd it]) /\ ps_errs s1 = ps_errs s /\ LuaProofs.last_is s1 it /\ covers [snd it] e [IE v].
  Lemma pratt_prefix m e v : makes (fun f _ => lua_prefix (E f) (B f) f) e (stops m) (IE v) -> pratt 14 m e v.
  Proof.
    intros (N & H). exists (S N), 0. split; [lia|]. intros f Lf mi s ys trees _ S q Qn. destruct (H f f ltac:(lia) ltac:(lia) s ys trees S q Qn) as (it & s1 & Ep & R). exists it, s1. unfold lua_pratt. rewrite Ep, Nat.sub_0_r. split; [reflexivity | exact R].
  Qed.
  Definition infixes (p : nat) (e1 e2 : list piece) (m' : nat) (v1 v : uexpr F) : Prop :=
    exists N, forall f, N <= f -> forall mi s ys trees left, mi <= p -> sits s (Y e2 ++ ys) (trees ++ [snd left]) -> LuaProofs.last_is s left -> covers [snd left] e1 [IE v1] -> quiet ys -> stops m' (next ys) ->
      exists it s', lua_infix (E f) f left mi s = Some (Some it, s') /\ sits s' ys (trees ++ [snd it]) /\ ps_errs s' = ps_errs s /\ LuaProofs.last_is s' it /\ covers [snd it] (e1 ++ e2) [IE v].
  Lemma pratt_infix l m m' p a e1 e2 v1 v : pratt l m e1 v1 -> p < m -> headed e2 -> (forall k, lua_table (first e2 k) = Some (p, a)) -> infixes p e1 e2 m' v1 v -> pratt (min p l) m' (e1 ++ e2) v.
  Proof.
    intros (N1 & j & J & H1) Pm Hd T (N2 & H2). exists (S (max N1 N2)), (S j). split; [lia|]. intros f Lf mi s ys trees Lm S q Qn. rewrite Y_app, <- app_assoc in S.
    destruct (H1 f ltac:(lia) mi s _ trees ltac:(lia) S (quiet_Y e2 ys Hd q)) as (it1 & s1 & E1 & S1 & R1 & L1 & C1). { rewrite (next_Y e2 ys Hd). intros p' a' X. rewrite T in X. injection X as <- _. exact Pm. }
    destruct (H2 f ltac:(lia) mi s1 ys trees it1 ltac:(lia) S1 L1 C1 q Qn) as (it & s2 & E2 & S2 & R2 & L2 & C2). exists it, s2. split; [|split; [exact S2|]; split; [congruence|]; now split]. rewrite E1. replace (f - j) with (Datatypes.S (f - Datatypes.S j)) by lia. cbn [pratt_loop]. now rewrite E2.
  Qed.
  Lemma infix_over mi f g s ys trees left : sits s ys trees -> stops mi (next ys) -> lua_infix (E f) g left mi s = Some (None, s).
  Proof.
    intros S St. unfold lua_infix. rewrite (LuaProofs.peek_sits toks s ys trees S). destruct ys as [| y ys]; [reflexivity|]. cbn [hd_error option_map]. cbn [next] in St. destruct (lua_table (fst y)) as [[p a]|] eqn:T; [|reflexivity]. specialize (St p a T). destruct (Nat.ltb_spec p mi); [reflexivity | lia].
  Qed.
  Lemma pratt_does l m e v mi : pratt l m e v -> mi <= l -> does (fun f _ => lua f (Some mi)) e (fun k => stops mi k /\ stops m k) [IE v].
  Proof.
    intros (N & j & J & H) Lm. exists (S N). intros f g Lf _ s ys trees S q [Q1 Q2]. destruct f as [| f]; [lia|]. destruct (H f ltac:(lia) mi s ys trees Lm S q Q2) as (it & s1 & E1 & S1 & R1 & _ & C1). exists s1, [snd it].
    split; [|split; [exact S1|]; now split]. change (lua (Datatypes.S f) (Some mi)) with (lua_pratt (E f) (B f) f mi). rewrite E1. replace (f - j) with (Datatypes.S (f - j - 1)) by lia. cbn [pratt_loop]. now rewrite (infix_over mi f f s1 ys _ it S1 Q1).
  Qed.

  Ltac enum I := cbn in I; repeat (destruct I as [I | I]; [|]).
  Lemma operator_table k p right : operator k p right -> lua_table k = Some (p, if right then ARight else ALeft).
  Proof.
    intros (ks & I & K). cbn in I. repeat (destruct I as [I | I]; [injection I as <- <- <-; cbn in K; repeat (destruct K as [<- | K]; [reflexivity|]); contradiction|]). contradiction.
  Qed.
  Lemma over_table k : over k -> lua_table k = None.
  Proof.
    intros [Ns No]. destruct (lua_table k) as [[p a]|] eqn:T; [|reflexivity]. exfalso. revert T. unfold lua_table.
    assert (X : forall p right ks, In (p, right, ks) operators -> existsb (Nat.eqb k) ks = true -> False). { intros p0 right ks I Ex. apply (No p0 right). exists ks. split; [exact I|]. apply existsb_exists in Ex. destruct Ex as (x & Ix & Q). apply Nat.eqb_eq in Q. now subst x. }
    assert (X1 : forall p right x, In (p, right, [x]) operators -> (k =? x) = true -> False). { intros p0 right x I Ex. apply (X p0 right [x] I). cbn. now rewrite Ex. }
    repeat match goal with
           | |- context [if k =? ?x then _ else _] => destruct (k =? x) eqn:?
           | |- context [if existsb (Nat.eqb k) ?l then _ else _] => destruct (existsb (Nat.eqb k) l) eqn:?
           end; intros T; try discriminate T;
    try (eapply X1; [|eassumption]; unfold operators; cbn; tauto); try (eapply X; [|eassumption]; unfold operators; cbn; tauto).
    rewrite out_existsb in * by exact Ns. discriminate.
  Qed.
  Lemma over_stops m k : over k -> stops m k.
  Proof. intros O p a T. rewrite (over_table k O) in T. discriminate. Qed.
  Lemma does_expr l m e v : pratt l m e v -> does (fun f _ => lua f (Some 0)) e over [IE v].
  Proof. intros P. apply (does_weak _ e _ over [IE v] (pratt_does l m e v 0 P (Nat.le_0_l _))). intros k O. split; now apply over_stops. Qed.

  (** *** What begins with what *)
  Definition starts (e : list piece) (k : nat) : Prop := exists s r, e = (Some k, s) :: r.
  Definition expr_starts : list nat := [UNil; UTrue; UFalse; UNumber; UString; UIdentifier; UFunction; ULeftParen; ULeftBrace; UMinus; UNot; UHash; UTilde].
  Definition stmt_starts : list nat := [ULocal; UIf; UWhile; UFor; URepeat; UFunction; UReturn; UBreak; UDo; UGoto; UColonColon] ++ expr_starts.
  Definition begins (ks : list nat) (e : list piece) : Prop := exists k, starts e k /\ In k ks.
  (** if the first token is a name, an equals sign does not follow within *)
  Definition no_eq (e : list piece) : Prop := forall s r, e = (Some UIdentifier, s) :: r -> exists w r', r = w ++ r' /\ Forall trivia w /\ headed r' /\ (forall k, k <> UEq -> first r' k <> UEq).
  Lemma tok_starts k s e : tok k s e -> starts e k.
  Proof. intros (w & -> & _). now do 2 eexists. Qed.
  Lemma starts_app k e r : starts e k -> starts (e ++ r) k.
  Proof. intros (s & x & ->). now do 2 eexists. Qed.
  Lemma starts_first k e x : starts e k -> first e x = k.
  Proof. now intros (s & r & ->). Qed.
  Lemma starts_headed k e : starts e k -> lua_ign k = false -> headed e.
  Proof. intros (s & r & ->) H. exact H. Qed.
  Lemma begins_app ks e r : begins ks e -> begins ks (e ++ r).
  Proof. intros (k & S & I). exists k. split; [now apply starts_app | exact I]. Qed.
  Lemma begins_headed ks e : begins ks e -> (forall k, In k ks -> lua_ign k = false) -> headed e.
  Proof. intros (k & S & I) H. now apply (starts_headed k), H. Qed.
  Lemma begins_first ks e x : begins ks e -> In (first e x) ks.
  Proof. intros (k & S & I). now rewrite (starts_first k e x S). Qed.
  Lemma expr_headed e : begins expr_starts e -> headed e.
  Proof. intros H. apply (begins_headed _ _ H). intros k I. cbn in I. repeat (destruct I as [<- | I]; [reflexivity|]). contradiction. Qed.
  Lemma stmt_headed e : begins stmt_starts e -> headed e.
  Proof. intros H. apply (begins_headed _ _ H). intros k I. cbn in I. repeat (destruct I as [<- | I]; [reflexivity|]). contradiction. Qed.
  Lemma no_eq_other k e : starts e k -> k <> UIdentifier -> no_eq e.
  Proof. intros (s & r & ->) N s' r' Q. injection Q as Q _ _. congruence. Qed.
  Lemma no_eq_app e1 e2 : begins expr_starts e1 -> no_eq e1 -> headed e2 -> (forall k, k <> UEq -> first e2 k <> UEq) -> no_eq (e1 ++ e2).
  Proof.
    intros (k & (s & r & ->) & _) N Hd H s' r' Q. cbn [app] in Q. injection Q as -> <- <-. destruct (N s r eq_refl) as (w & x & -> & Fw & Hx & Fx). exists w, (x ++ e2). split; [now rewrite <- app_assoc|]. split; [exact Fw|]. split; [now apply headed_app|]. intros k Nk. rewrite first_app by exact Hx. auto.
  Qed.
  Lemma peek_nt_kind : forall ts, match peek_nt lua_ign ts 0 with Some t => tk_kind t =? UEq | None => false end = (next (ynext lua_ign (map tok_yield ts)) =? UEq).
  Proof. induction ts as [| t ts IH]; [reflexivity|]. cbn [peek_nt map ynext]. change (fst (tok_yield t)) with (tk_kind t). destruct (lua_ign (tk_kind t)); [exact IH | reflexivity]. Qed.
  Lemma peek_second st s w r ys trees : sits st (Y ((Some UIdentifier, s) :: w ++ r) ++ ys) trees -> Forall trivia w -> headed r -> quiet ys ->
    match peek_non_trivia_at lua_ign st 1 with Some t => tk_kind t =? UEq | None => false end = (first r (next ys) =? UEq).
  Proof.
    intros (rest & (T & _ & R & _) & Q) Fw Hd q. unfold peek_non_trivia_at. rewrite T, R. change (Y ((Some UIdentifier, s) :: w ++ r)) with ((UIdentifier, length (encode s)) :: Y (w ++ r)) in Q. destruct rest as [| t rest]; [discriminate|]. cbn [map app] in Q. injection Q as Kt _ Q.
    cbn [peek_nt]. rewrite Kt. change (lua_ign UIdentifier) with false. cbn iota. rewrite peek_nt_kind, Q, Y_app, <- app_assoc. destruct (ytrivia_pieces w (Y r ++ ys) Fw (quiet_Y r ys Hd q)) as [_ ->]. now rewrite (next_Y r ys Hd).
  Qed.

  (** *** Texts of leaves *)
  Lemma unquoted_text q s : quote q -> Forall is_scalar s -> unquoted (encode (q :: s ++ [q])) = Some (encode s).
  Proof.
    intros Q Ss. assert (Eq : encode [q] = [q]) by (destruct Q as [-> | ->]; reflexivity). assert (Sq : is_scalar q) by (destruct Q as [-> | ->]; unfold is_scalar; cbn; lia).
    assert (El : length (encode (q :: s ++ [q])) = 2 + length (encode s)). { change (q :: s ++ [q]) with ([q] ++ s ++ [q]). rewrite !encode_app, !app_length, Eq. cbn. lia. }
    unfold unquoted. rewrite El. cbn [Nat.leb Nat.add]. replace (S (S (length (encode s))) - 1) with (1 + length (encode s)) by lia.
    assert (S3 : Forall is_scalar ([q] ++ s ++ [q])). { apply Forall_app. split; [exact (Forall_cons _ Sq (Forall_nil _))|]. apply Forall_app. split; [exact Ss | exact (Forall_cons _ Sq (Forall_nil _))]. }
    pose proof (JsonAstBuildProofs.text_here [q] s [q] S3) as [_ T]. rewrite Eq in T. cbn [length] in T. change ([q] ++ s ++ [q]) with (q :: s ++ [q]) in T. rewrite T.
    assert (B1 : is_boundary (encode (q :: s ++ [q])) 1 = true). { apply Forall_app in S3. destruct S3 as [_ S3]. pose proof (boundary_of_split [q] (s ++ [q]) S3) as X. rewrite Eq in X. exact X. }
    assert (B2 : is_boundary (encode (q :: s ++ [q])) (1 + length (encode s)) = true). { assert (S2 : Forall is_scalar [q]) by (exact (Forall_cons _ Sq (Forall_nil _))). pose proof (boundary_of_split (q :: s) [q] S2) as X. change (q :: s) with ([q] ++ s) in X. rewrite (encode_app [q] s), Eq, app_length in X. exact X. }
    now rewrite B1, B2.
  Qed.

  (** *** Primary expressions *)
  Ltac seen M St := erewrite (each_shown _ _ _ M St); [|eassumption|].
  Lemma makes_prefix k a e Q p : makes a e Q p -> starts e k -> (forall f st, peek_kind st = Some k -> lua_prefix (E f) (B f) f st = a f f st) -> makes (fun f _ => lua_prefix (E f) (B f) f) e Q p.
  Proof.
    intros (N & H) (s & r & ->) P. exists N. intros f g Lf _ st ys trees S q Qn. rewrite P; [exact (H f f Lf Lf st ys trees S q Qn)|]. now rewrite (LuaProofs.peek_sits toks st _ trees S).
  Qed.
  Lemma makes_weak a e (Q Q' : nat -> Prop) p : makes a e Q p -> (forall k, Q' k -> Q k) -> makes a e Q' p.
  Proof. intros (N & H) W. exists N. intros f g Lf Lg s ys trees S q Qn. exact (H f g Lf Lg s ys trees S q (W _ Qn)). Qed.
  Lemma primary k a e p v : makes a e always p -> p = IE v -> starts e k -> (forall f st, peek_kind st = Some k -> lua_prefix (E f) (B f) f st = a f f st) -> pratt 14 14 e v.
  Proof. intros M -> S P. apply pratt_prefix. apply (makes_prefix k a e _ _ (makes_weak _ _ _ _ _ M (fun _ _ => I)) S P). Qed.
  Ltac by_prefix := let f := fresh in let st := fresh in let Pk := fresh in intros f st Pk; unfold lua_prefix, primary_; rewrite Pk; reflexivity.

  Lemma node_literal k s e v : literal parse k s v -> tok k s e -> e_node ULiteralExpr e (its_tok k s) v.
  Proof.
    intros L (w & -> & _) off l P Sh. destruct (placed_text _ _ _ _ P) as [T Ss]. change (each (b_literal parse text off) l None = Some (Some v)). apply (each_shown _ l _ (m_literal parse text off) (s_literal parse text off) Sh).
    destruct L as [s | s | s | s v Pv | q s Q]; unfold its_tok; cbn [existsb noise Nat.eqb orb UNil UTrue UFalse UNumber UString UWhitespace UNewline UComment UComma USemicolon UDot UEnd ULocal UReturn UFor UWhile URepeat UGoto UFunction ULeftBrace URightBrace UColonColon UBreak map canon each b_literal]; try reflexivity; rewrite T.
    - cbn. now rewrite Pv.
    - apply Forall_inv_tail in Ss. apply Forall_app in Ss. destruct Ss as [Ss _]. cbn [Nat.eqb]. now rewrite (unquoted_text q s Q Ss).
  Qed.
  Lemma pratt_literal k s e v : literal parse k s v -> tok k s e -> pratt 14 14 e v /\ begins expr_starts e /\ no_eq e.
  Proof.
    intros L T. pose proof (tok_starts k s e T) as St. split; [|split].
    - apply (primary k (fun _ _ => node_at checkpoint ULiteralExpr lua_bump) e (IE v) v); [|reflexivity | exact St | destruct L; by_prefix]. apply (makes_e ULiteralExpr _ e always (its_tok k s) v (does_bump k s e T)); [discriminate | now apply node_literal].
    - exists k. split; [exact St|]. destruct L; cbn; tauto.
    - apply (no_eq_other k e St). destruct L; discriminate.
  Qed.
  Lemma pratt_name s e : tok UIdentifier s e -> pratt 14 14 e (EName (encode s)) /\ begins expr_starts e /\ no_eq e.
  Proof.
    intros T. pose proof (tok_starts _ s e T) as St. split; [|split].
    - apply (primary UIdentifier (fun _ _ => node_at checkpoint UIdentifierExpr lua_bump) e (IE (EName (encode s))) _); [|reflexivity | exact St | by_prefix]. apply (makes_e UIdentifierExpr _ e always (its_tok UIdentifier s) _ (does_bump _ s e T)); [discriminate|].
      destruct T as (w & -> & _). intros off l P Sh. destruct (placed_text _ _ _ _ P) as [T _]. change (each (b_name text off) l None = Some (Some (EName (encode s)))). apply (each_shown _ l _ (m_name text off) (s_name text off) Sh).
      change (its_tok UIdentifier s) with [IT (F := F) UIdentifier (encode s)]. cbn [map canon each b_name]. rewrite T. reflexivity.
    - exists UIdentifier. split; [exact St | cbn; tauto].
    - destruct T as (w & -> & Fw). intros s' r Q. injection Q as <- <-. exists w, []. rewrite app_nil_r. repeat split; [exact Fw|]. cbn. auto.
  Qed.
  Lemma pratt_paren a b e l m s t v : tok ULeftParen s a -> pratt l m e v -> begins expr_starts e -> tok URightParen t b -> pratt 14 14 (a ++ e ++ b) v /\ begins expr_starts (a ++ e ++ b) /\ no_eq (a ++ e ++ b).
  Proof.
    intros Ta P Be Tb. pose proof (starts_app _ _ (e ++ b) (tok_starts _ s a Ta)) as St. split; [|split].
    - apply (primary ULeftParen (fun f _ => node_at checkpoint UParenthesizedExpr (lua_bump ;; E f 0 ;; want URightParen)) _ (IE v) v); [|reflexivity | exact St | by_prefix].
      eapply makes_e; [|discriminate|].
      + apply (does_seq _ _ _ _ _ _ _ _ (does_bump _ s a Ta) (does_seq _ _ _ _ _ _ _ _ (does_expr l m e v P) (does_want _ t b Tb) (tok_headed _ _ _ Tb eq_refl) ltac:(intros; rewrite (tok_first _ _ _ _ Tb); split; [cbn; intuition discriminate | intros p r (ks & I & K); cbn in I; repeat (destruct I as [I | I]; [injection I as <- <- <-; cbn in K; intuition discriminate|]); contradiction]))); [|intros; exact I].
        apply headed_app; [now apply expr_headed | exact (tok_headed _ _ _ Tb eq_refl)].
      + intros off l0 _ Sh. change (each b_first l0 None = Some (Some v)). now apply (each_shown _ l0 _ m_first s_first Sh).
    - exists ULeftParen. split; [exact St | cbn; tauto].
    - now apply (no_eq_other ULeftParen).
  Qed.

  (** *** Operators *)
  Lemma table_over k : lua_table k = None -> over k.
  Proof.
    intros T. split; [|intros p r O; rewrite (operator_table k p r O) in T; discriminate]. intros I. cbn in I. repeat (destruct I as [<- | I]; [discriminate|]). contradiction.
  Qed.
  Definition pe (l m : nat) (e : list piece) (v : uexpr F) : Prop := pratt l m e v /\ begins expr_starts e /\ no_eq e.
  Lemma operator_bound k p r : operator k p r -> 1 <= p <= 12 /\ p <> 11.
  Proof. intros (ks & I & _). cbn in I. repeat (destruct I as [I | I]; [injection I as <- <- <-; lia|]). contradiction. Qed.

  Lemma stops_le m m' k : m <= m' -> stops m k -> stops m' k.
  Proof. intros L S p a T. specialize (S p a T). lia. Qed.
  Lemma stops_split p m k : stops (min p m) k -> stops p k /\ stops m k.
  Proof. intros S. split; apply (stops_le (min p m)); try exact S; lia. Qed.
  Lemma pe_unary a e k s l m v : In k [UMinus; UNot; UHash; UTilde] -> tok k s a -> pe l m e v -> unary_level <= l -> pe 14 (min unary_level m) (a ++ e) (EUnary (encode s) v).
  Proof.
    intros Ik T (P & Be & Ne) L. pose proof (starts_app _ _ e (tok_starts _ s a T)) as St. assert (Kn : lua_ign k = false /\ In k expr_starts /\ k <> UIdentifier /\ existsb (Nat.eqb k) noise = false). { cbn in Ik. repeat (destruct Ik as [<- | Ik]; [repeat split; [cbn; tauto | discriminate]|]). contradiction. } destruct Kn as (K1 & K2 & K3 & K4). split; [|split].
    - apply pratt_prefix. apply (makes_prefix k (fun f _ => node_at checkpoint UUnaryExpr (want k ;; E f 11)) (a ++ e)); [|exact St | intros f st Pk; unfold lua_prefix; rewrite Pk; now rewrite (in_existsb _ _ Ik)].
      eapply makes_e; [|discriminate|].
      + eapply does_weak; [apply (does_seq _ _ _ _ _ _ _ _ (does_want k s a T) (pratt_does l m e v 11 P L) (expr_headed e Be) (fun _ _ => I))|]. intros x. cbv beta. intros X. now apply stops_split.
      + intros off l0 _ Sh. change (option_map (fun a => option_map (EUnary (fst a)) (snd a)) (each b_unary l0 ([], None)) = Some (Some (EUnary (encode s) v))). rewrite (each_shown _ l0 _ m_unary s_unary Sh _ (encode s, Some v)); [reflexivity|]. unfold its_tok. rewrite K4. cbn [app map canon each b_unary]. unfold is_in. now rewrite (in_existsb _ _ Ik).
    - exists k. now split.
    - now apply (no_eq_other k).
  Qed.

  Lemma infixes_of k kind (a : nat -> nat -> act) p e1 e2 m' its v1 v : starts e2 k -> does a e2 (stops m') its -> kind <> UTableField -> e_node kind (e1 ++ e2) (IE v1 :: its) v ->
    (forall f left mi id s, fst left = Some id -> mi <= p -> peek_kind s = Some k ->
       lua_infix (E f) f left mi s = match node_at (fun s => checkpoint_before s id) kind (a f f) s with None => None | Some (it, s1) => Some (Some it, s1) end) -> infixes p e1 e2 m' v1 v.
  Proof.
    intros (t & r & ->) (N & A) K H Eq. exists N. intros f Lf mi s ys trees left Lm S L C q Qn. pose proof L as (l & id & Id & _). rewrite (Eq f left mi id s Id Lm); [|now rewrite (LuaProofs.peek_sits toks s _ _ S)].
    destruct (infix_ends kind (a f f) e1 _ (stops m') its v1 v (A f f Lf Lf) K H s ys trees left id S L Id C q Qn) as (it & s' & Ea & R). exists it, s'. rewrite Ea. split; [reflexivity | exact R].
  Qed.
  Ltac by_infix T Id Lm Pk := unfold lua_infix; rewrite Pk, T; match goal with |- context [13 <? ?mi] => replace (13 <? mi) with false by (symmetry; apply Nat.ltb_ge; exact Lm) end; rewrite Id; reflexivity.

  Lemma pe_member e1 a b l m k x s t : pe l m e1 t -> 13 < m -> In k [UDot; UColon] -> tok k x a -> tok UIdentifier s b -> pe (min 13 l) 14 (e1 ++ a ++ b) (EMember t (encode s) (k =? UColon)).
  Proof.
    intros (P & Be & Ne) Lm Ik Ta Tb. pose proof (starts_app _ _ b (tok_starts _ x a Ta)) as St. assert (Kn : lua_ign k = false /\ lua_table k = Some (13, ALeft) /\ k <> UEq). { destruct Ik as [<- | [<- | []]]; repeat split; discriminate. } destruct Kn as (K1 & K2 & K3). pose proof (starts_headed _ _ St K1) as Hd. split; [|split].
    - apply (pratt_infix l m 14 13 ALeft e1 (a ++ b) t _ P Lm Hd); [intros y; now rewrite (starts_first k _ y St)|].
      apply (infixes_of k UMemberExpr (fun _ _ => lua_bump ;; want UIdentifier) 13 _ _ _ (its_tok k x ++ its_tok UIdentifier s)); [exact St | | discriminate | |].
      + eapply does_weak; [apply (does_seq _ _ _ _ _ _ _ _ (does_bump k x a Ta) (does_want _ s b Tb) (tok_headed _ _ _ Tb eq_refl) (fun _ _ => I))|]. intros; exact I.
      + intros off l0 _ Sh. change (option_map (fun a => let '(t, m, method) := a in option_map (fun t => EMember t m method) t) (each b_member l0 (None, [], false)) = Some (Some (EMember t (encode s) (k =? UColon)))).
        rewrite (each_shown _ l0 _ m_member s_member Sh _ (Some t, encode s, (k =? UColon))); [reflexivity|]. destruct Ik as [<- | [<- | []]]; reflexivity.
      + intros f left mi id st Id Lmi Pk. destruct Ik as [<- | [<- | []]]; by_infix K2 Id Lmi Pk.
    - now apply begins_app.
    - apply no_eq_app; [exact Be | exact Ne | exact Hd|]. intros y _. now rewrite (starts_first k _ y St).
  Qed.
  Lemma pe_binary e1 a e2 l1 m1 l2 m2 k p (right : bool) s v1 v2 : operator k p right -> pe l1 m1 e1 v1 -> p < m1 -> tok k s a -> pe l2 m2 e2 v2 -> (if right then p else S p) <= l2 ->
    pe (min p l1) (min (if right then p else S p) m2) (e1 ++ a ++ e2) (EBinary v1 (encode s) v2).
  Proof.
    intros O (P1 & B1 & N1) Lm T (P2 & B2 & N2) L2. pose proof (starts_app _ _ e2 (tok_starts _ s a T)) as St. pose proof (operator_table k p right O) as Tb. pose proof (operator_bound k p right O) as Bd.
    assert (Kn : lua_ign k = false /\ k <> UEq /\ existsb (Nat.eqb k) noise = false /\ is_in k binary_kinds = true /\ ((k =? UDot) || (k =? UColon) = false) /\ (k =? ULeftBracket) = false /\ existsb (Nat.eqb k) [ULeftParen; ULeftBrace; UString] = false).
    { destruct O as (ks & I & K). cbn in I. repeat (destruct I as [I | I]; [injection I as <- <- <-; cbn in K; repeat (destruct K as [<- | K]; [repeat split; discriminate|]); contradiction|]). contradiction. }
    destruct Kn as (K1 & K2 & K3 & K4 & K5 & K6 & K7). pose proof (starts_headed _ _ St K1) as Hd. split; [|split].
    - apply (pratt_infix l1 m1 _ p (if right then ARight else ALeft) e1 (a ++ e2) v1 _ P1 Lm Hd); [intros y; now rewrite (starts_first k _ y St)|].
      apply (infixes_of k UBinaryExpr (fun f _ => want k ;; E f (if right then p else S p)) p _ _ _ (its_tok k s ++ [IE v2])); [exact St | | discriminate | |].
      + eapply does_weak; [apply (does_seq _ _ _ _ _ _ _ _ (does_want k s a T) (pratt_does l2 m2 e2 v2 _ P2 L2) (expr_headed e2 B2) (fun _ _ => I))|]. intros y. cbv beta. intros X. now apply stops_split.
      + intros off l0 _ Sh. change (option_map (fun a => let '(l, op, r) := a in match l, r with Some l, Some r => Some (EBinary l op r) | _, _ => None end) (each b_binary l0 (None, [], None)) = Some (Some (EBinary v1 (encode s) v2))).
        rewrite (each_shown _ l0 _ m_binary s_binary Sh _ (Some v1, encode s, Some v2)); [reflexivity|]. unfold its_tok. rewrite K3. cbn [app map canon each b_binary with_some]. now rewrite K4.
      + intros f left mi id st Id Lmi Pk. unfold lua_infix. rewrite Pk, Tb, K5, K6, K7. replace (p <? mi) with false by (symmetry; apply Nat.ltb_ge; exact Lmi). rewrite Id. destruct right; cbn [next_prec]; [reflexivity|]. replace (p <? 255) with true by (symmetry; apply Nat.ltb_lt; lia). reflexivity.
    - now apply begins_app.
    - apply no_eq_app; [exact B1 | exact N1 | exact Hd|]. intros y _. now rewrite (starts_first k _ y St).
  Qed.

  (** *** Lists of expressions *)
  Definition ends_list (k : nat) : Prop := over k /\ k <> UComma.
  Definition pes (e : list piece) (vs : list (uexpr F)) : Prop :=
    exists e1 e2 v1 v2, e = e1 ++ e2 /\ vs = v1 :: v2 /\ does (fun f _ => E f 0) e1 over [IE v1] /\ does (fun f g => while_eat g UComma (E f 0)) e2 ends_list (map IE v2) /\
      begins expr_starts e1 /\ (e2 = [] \/ starts e2 UComma).
  Lemma tail_headed e2 : e2 = [] \/ starts e2 UComma -> headed e2.
  Proof. intros [-> | S]; [exact I | now apply (starts_headed UComma)]. Qed.
  Lemma tail_over e2 k : e2 = [] \/ starts e2 UComma -> over k -> over (first e2 k).
  Proof. intros [-> | S] O; [exact O|]. rewrite (starts_first _ _ k S). now apply table_over. Qed.
  Lemma pes_begins e vs : pes e vs -> begins expr_starts e.
  Proof. intros (e1 & e2 & v1 & v2 & -> & _ & _ & _ & Be & _). now apply begins_app. Qed.
  Lemma pes_does e vs : pes e vs -> does (fun f g => exprs (E f) g) e ends_list (map IE vs).
  Proof.
    intros (e1 & e2 & v1 & v2 & -> & -> & D1 & D2 & Be & T). apply (does_seq _ _ _ _ _ _ _ _ D1 D2 (tail_headed _ T)). intros k [O _]. now apply tail_over.
  Qed.
  Lemma pes_one l m e v : pe l m e v -> pes e [v].
  Proof.
    intros (P & Be & _). exists e, [], v, []. rewrite app_nil_r. split; [reflexivity|]. split; [reflexivity|]. split; [exact (does_expr l m e v P)|]. split; [|split; [exact Be | now left]]. apply does_while_none; [discriminate|]. intros x [_ X]. exact X.
  Qed.
  Lemma pes_more l m e c r v x vs : pe l m e v -> tok UComma x c -> pes r vs -> pes (e ++ c ++ r) (v :: vs).
  Proof.
    intros (P & Be & _) T (e1 & e2 & v1 & v2 & -> & -> & D1 & D2 & B1 & T2). exists e, (c ++ e1 ++ e2), v, (v1 :: v2). split; [reflexivity|]. split; [reflexivity|]. split; [exact (does_expr l m e v P)|]. split; [|split; [exact Be | right; apply starts_app; now apply (tok_starts _ x)]].
    change (map IE (v1 :: v2)) with (its_tok UComma x ++ [IE v1] ++ map IE v2). apply (does_while_more UComma x c _ e1 e2 over ends_list _ _ T D1 D2); [now apply expr_headed | now apply tail_headed|]. intros k [O _]. now apply tail_over.
  Qed.

  (** *** Tables *)
  Definition field_ends : list nat := [UComma; USemicolon; URightBrace].
  Definition pfield (e : list piece) (v : ufield F) : Prop := does (fun f _ => node UTableField (field (E f))) e (fun k => In k field_ends) [IF v] /\ begins expr_starts e.
  Lemma field_ends_over k : In k field_ends -> over k /\ k <> UEq /\ k <> ULeftBracket.
  Proof. intros I. cbn in I. repeat (destruct I as [<- | I]; [split; [now apply table_over|]; split; discriminate|]). contradiction. Qed.
  Lemma begins_not ks e k x : begins ks e -> ~ In x ks -> first e k <> x.
  Proof. intros Be N Q. apply N. rewrite <- Q. now apply begins_first. Qed.
  Lemma pfield_list l m e v : pe l m e v -> pfield e (FList v).
  Proof.
    intros (P & Be & Ne). split; [|exact Be]. apply (makes_does (fun f _ => node_at checkpoint UTableField (field (E f)))). apply (makes_f (fun f _ => field (E f)) e _ [IE v]).
    - unfold field. apply (does_if_eat_no ULeftBracket (fun f _ => E f 0 ;; want URightBracket ;; want UEq ;; E f 0) (fun f _ s => if at_kind s UIdentifier && match peek_non_trivia_at lua_ign s 1 with Some t => tk_kind t =? UEq | None => false end then (lua_bump ;; want UEq ;; E f 0) s else E f 0 s)); [discriminate | | now apply expr_headed|].
      + destruct (does_expr l m e v P) as (N & D). exists N. intros f g Lf Lg s ys trees S q Qn. destruct (field_ends_over _ Qn) as (O & Q1 & Q2).
        assert (C : at_kind s UIdentifier && match peek_non_trivia_at lua_ign s 1 with Some t => tk_kind t =? UEq | None => false end = false); [|rewrite C; exact (D f g Lf Lg s ys trees S q O)].
        destruct Be as (k & (s0 & r & ->) & Ik). rewrite (sits_at _ _ _ _ UIdentifier S). cbn [Y flat_map piece_yield fst snd app]. destruct (Nat.eqb_spec k UIdentifier) as [-> | Nk]; [|reflexivity].
        destruct (Ne s0 r eq_refl) as (w & r' & -> & Fw & Hr & Fr). rewrite (peek_second s s0 w r' ys trees S Fw Hr q). cbn [andb]. apply Nat.eqb_neq. now apply Fr.
      + intros x _. apply (begins_not _ _ _ _ Be). intros X. cbn in X. repeat (destruct X as [X | X]; [discriminate|]). exact X.
    - intros l0 Sh. unfold field_of. now rewrite (each_shown _ l0 _ m_field s_field Sh _ (Some v, None, None, false)).
  Qed.
  Lemma pfield_named a b e l m s t v : tok UIdentifier s a -> tok UEq t b -> pe l m e v -> pfield (a ++ b ++ e) (FNamed (encode s) v).
  Proof.
    intros Ta Tb (P & Be & _). pose proof (starts_app _ _ (b ++ e) (tok_starts _ s a Ta)) as St. split; [|exists UIdentifier; split; [exact St | cbn; tauto]].
    apply (makes_does (fun f _ => node_at checkpoint UTableField (field (E f)))). apply (makes_f (fun f _ => field (E f)) _ _ (its_tok UIdentifier s ++ its_tok UEq t ++ [IE v])).
    - unfold field. apply (does_if_eat_no ULeftBracket (fun f _ => E f 0 ;; want URightBracket ;; want UEq ;; E f 0) (fun f _ s => if at_kind s UIdentifier && match peek_non_trivia_at lua_ign s 1 with Some t => tk_kind t =? UEq | None => false end then (lua_bump ;; want UEq ;; E f 0) s else E f 0 s)); [discriminate | | now apply (starts_headed UIdentifier) |].
      + assert (D : does (fun f _ => lua_bump ;; want UEq ;; E f 0) (a ++ b ++ e) (fun k => In k field_ends) (its_tok UIdentifier s ++ its_tok UEq t ++ [IE v])).
        { eapply does_weak; [apply (does_seq _ _ _ _ _ _ _ _ (does_bump _ s a Ta) (does_seq _ _ _ _ _ _ _ _ (does_want _ t b Tb) (does_expr l m e v P) (expr_headed e Be) (fun _ _ => I)))|]; [| |intros k X; now apply field_ends_over].
          - apply headed_app; [exact (tok_headed _ _ _ Tb eq_refl) | now apply expr_headed].
          - intros; exact I. }
        destruct D as (N & D). exists N. intros f g Lf Lg st ys trees S q Qn.
        assert (C : at_kind st UIdentifier && match peek_non_trivia_at lua_ign st 1 with Some t => tk_kind t =? UEq | None => false end = true); [|rewrite C; exact (D f g Lf Lg st ys trees S q Qn)].
        rewrite (sits_at _ _ _ _ UIdentifier S). destruct Ta as (w & -> & Fw). cbn [Y flat_map piece_yield fst snd app]. rewrite Nat.eqb_refl. cbn [andb]. rewrite (peek_second st s w (b ++ e) ys trees S Fw); [|apply headed_app; [exact (tok_headed _ _ _ Tb eq_refl) | now apply expr_headed] | exact q].
        rewrite (starts_first UEq); [reflexivity|]. apply starts_app. now apply (tok_starts _ t).
      + intros x _. now rewrite (starts_first _ _ x St).
    - intros l0 Sh. unfold field_of. now rewrite (each_shown _ l0 _ m_field s_field Sh _ (None, Some v, Some (encode s), true)).
  Qed.

  Lemma does_shift a e Q its : does a e Q its -> does (fun f g => a f (g - 1)) e Q its.
  Proof. intros (N & H). exists (S N). intros f g Lf Lg. apply H; lia. Qed.
  Definition pfields (e : list piece) (fs : list (ufield F)) : Prop := does (fun f g => fields (E f) g) e (fun k => k = URightBrace) (map IF fs) /\ headed e.
  Lemma pfields_none : pfields [] [].
  Proof.
    split; [|exact I]. exists 1. intros f g _ Lg s ys trees S q Qn. destruct g as [| g]; [lia|]. exists s, []. cbn [fields]. rewrite (at_next s _ trees URightBrace S) by discriminate. cbn [Y flat_map app]. rewrite Qn, Nat.eqb_refl, andb_false_r, app_nil_r.
    split; [reflexivity|]. split; [exact S|]. split; [reflexivity | apply covers_nil].
  Qed.
  Lemma fields_step e Q its : does (fun f g => node UTableField (field (E f)) ;; if_eat UComma (fields (E f) (g - 1)) (if_eat USemicolon (fields (E f) (g - 1)) nop)) e Q its -> begins expr_starts e ->
    does (fun f g => fields (E f) g) e Q its.
  Proof.
    intros (N & H) Be. exists (S N). intros f g Lf Lg s ys trees S q Qn. destruct g as [| g]; [lia|]. specialize (H f (Datatypes.S g) ltac:(lia) ltac:(lia) s ys trees S q Qn). cbn [Nat.sub] in H. rewrite Nat.sub_0_r in H. cbn [fields].
    assert (N1 : ps_not_at_end s = true). { rewrite (sits_end _ _ _ _ S). destruct Be as (k & (x & r & ->) & _). reflexivity. }
    rewrite N1, (at_next s _ trees URightBrace S), (next_Y e ys (expr_headed e Be)) by discriminate. pose proof (begins_not _ _ (next ys) URightBrace Be ltac:(cbn; intuition discriminate)) as X. apply Nat.eqb_neq in X as ->. exact H.
  Qed.
  Lemma pfields_one e f : pfield e f -> pfields e [f].
  Proof.
    intros (D & Be). split; [|now apply expr_headed]. apply fields_step; [|exact Be]. rewrite <- (app_nil_r e). change (map IF [f]) with ([IF f] ++ []). eapply does_seq; [exact D | | exact I|].
    - apply does_if_eat_no; [discriminate | | exact I | intros x ->; discriminate]. apply does_if_eat_no; [discriminate | apply does_nop | exact I | intros x ->; discriminate].
    - intros k ->. cbn. tauto.
  Qed.
  Lemma pfields_more e c r f k x fs : pfield e f -> In k [UComma; USemicolon] -> tok k x c -> pfields r fs -> pfields (e ++ c ++ r) (f :: fs).
  Proof.
    intros (D & Be) Ik T (Dr & Hr). assert (Kn : lua_ign k = false /\ In k field_ends) by (destruct Ik as [<- | [<- | []]]; (split; [reflexivity | cbn; tauto])). destruct Kn as (K1 & K2). pose proof (headed_app _ _ (tok_headed _ _ _ T K1) Hr) as Hc.
    split; [|apply headed_app; [now apply expr_headed | exact Hc]]. apply fields_step; [|now apply begins_app]. change (map IF (f :: fs)) with ([IF f] ++ map IF fs).
    eapply does_seq; [exact D | | exact Hc|].
    - destruct Ik as [<- | [<- | []]].
      + apply (does_if_eat_yes UComma x c _ _ r _ (map IF fs) T (does_shift _ _ _ _ Dr) Hr).
      + apply does_if_eat_no; [discriminate | | exact Hc | intros y _; rewrite (starts_first USemicolon); [discriminate | apply starts_app, (tok_starts _ x), T]]. apply (does_if_eat_yes USemicolon x c _ _ r _ (map IF fs) T (does_shift _ _ _ _ Dr) Hr).
    - intros y _. rewrite (starts_first k); [exact K2 | apply starts_app, (tok_starts _ x), T].
  Qed.
  Definition ptable (e : list piece) (fs : list (ufield F)) : Prop := makes (fun f g => table (E f) g) e always (IE (ETable fs)) /\ starts e ULeftBrace.
  Lemma ptable_of a e b s t fs : tok ULeftBrace s a -> pfields e fs -> tok URightBrace t b -> ptable (a ++ e ++ b) fs.
  Proof.
    intros Ta (D & Hd) Tb. split; [|apply starts_app, (tok_starts _ s), Ta]. pose proof (tok_headed _ _ _ Tb eq_refl) as Hb. unfold table. eapply makes_e; [|discriminate|].
    - eapply does_seq; [exact (does_want _ s a Ta) | | now apply headed_app | intros; exact I]. eapply does_seq; [exact D | exact (does_want _ t b Tb) | exact Hb |]. intros k _. exact (tok_first _ _ _ _ Tb).
    - intros off l0 _ Sh. change (option_map (fun fs => Some (ETable fs)) (each b_table l0 []) = Some (Some (ETable fs))). rewrite (each_shown _ l0 _ m_table s_table Sh _ fs); [reflexivity|].
      change (its_tok ULeftBrace s) with (@nil (part F)). change (its_tok URightBrace t) with (@nil (part F)). cbn [app]. rewrite app_nil_r. apply (ev_table fs []).
  Qed.
  Lemma pe_table e fs : ptable e fs -> pe 14 14 e (ETable fs).
  Proof.
    intros (M & St). split; [|split].
    - apply (primary ULeftBrace (fun f g => table (E f) g) e _ _ M eq_refl St). by_prefix.
    - exists ULeftBrace. split; [exact St | cbn; tauto].
    - now apply (no_eq_other ULeftBrace).
  Qed.

  (** *** Calls *)
  Definition pargs (e : list piece) (vs : list (uexpr F)) : Prop :=
    (exists its, does (fun f g => arguments (E f) g) e always its /\ forall off f, placed e off -> each b_call (map canon its) (Some f, []) = Some (Some f, vs)) /\
    exists k, starts e k /\ In k [ULeftParen; ULeftBrace; UString].
  Lemma close_list : ends_list URightParen.
  Proof. split; [now apply table_over | discriminate]. Qed.
  Lemma pargs_none a b s t : tok ULeftParen s a -> tok URightParen t b -> pargs (a ++ b) [].
  Proof.
    intros Ta Tb. split; [|exists ULeftParen; split; [apply starts_app, (tok_starts _ s), Ta | cbn; tauto]]. pose proof (tok_headed _ _ _ Tb eq_refl) as Hb. eexists. split.
    - eapply (does_if_eat_yes ULeftParen s a); [exact Ta | | exact Hb]. change b with ([] ++ b). eapply (does_seq _ _ _ _ (fun k => k = URightParen) always); [| exact (does_want _ t b Tb) | exact Hb | intros; exact (tok_first _ _ _ _ Tb)].
      apply does_if_at_yes; [cbn; intuition discriminate | apply does_nop | exact I | intros x ->; cbn; tauto].
    - intros off f _. reflexivity.
  Qed.
  Lemma pargs_some a e b s t vs : tok ULeftParen s a -> pes e vs -> tok URightParen t b -> pargs (a ++ e ++ b) vs.
  Proof.
    intros Ta P Tb. split; [|exists ULeftParen; split; [apply starts_app, (tok_starts _ s), Ta | cbn; tauto]]. pose proof (tok_headed _ _ _ Tb eq_refl) as Hb. pose proof (pes_begins _ _ P) as Be. pose proof (expr_headed _ Be) as He. eexists. split.
    - eapply (does_if_eat_yes ULeftParen s a); [exact Ta | | now apply headed_app]. eapply does_seq; [| exact (does_want _ t b Tb) | exact Hb | intros k _; rewrite (tok_first _ _ _ _ Tb); exact close_list].
      apply does_if_at_no; [cbn; intuition discriminate | exact (pes_does _ _ P) | exact He |]. intros x _ [X | []]. symmetry in X. revert X. apply (begins_not _ _ _ _ Be). cbn. intuition discriminate.
    - intros off f _. change (its_tok ULeftParen s) with [IT (F := F) ULeftParen (encode s)]. change (its_tok URightParen t) with [IT (F := F) URightParen (encode t)]. cbn [app]. cbn [map each canon b_call]. cbn [Nat.eqb ULeftParen UString]. rewrite map_app, (each_app _ _ _ _ _ (ev_call vs f [])). reflexivity.
  Qed.
  Lemma pargs_table e fs : ptable e fs -> pargs e [ETable fs].
  Proof.
    intros (M & St). split; [|exists ULeftBrace; split; [exact St | cbn; tauto]]. pose proof (starts_headed _ _ St eq_refl) as Hd. exists [IE (ETable fs)]. split; [|reflexivity].
    apply does_if_eat_no; [discriminate | | exact Hd | intros x _; rewrite (starts_first _ _ x St); discriminate]. apply does_if_at_yes; [cbn; intuition discriminate | exact (makes_does _ _ _ _ M) | exact Hd | intros x _; rewrite (starts_first _ _ x St); cbn; tauto].
  Qed.
  Lemma pargs_string q s e : quote q -> tok UString (q :: s ++ [q]) e -> pargs e [EString (encode s)].
  Proof.
    intros Q T. pose proof (tok_starts _ _ _ T) as St. split; [|exists UString; split; [exact St | cbn; tauto]]. pose proof (starts_headed _ _ St eq_refl) as Hd. exists (its_tok UString (q :: s ++ [q])). split.
    - apply does_if_eat_no; [discriminate | | exact Hd | intros x _; rewrite (starts_first _ _ x St); discriminate]. apply does_if_at_no; [cbn; intuition discriminate | | exact Hd | intros x _; rewrite (starts_first _ _ x St); cbn; intuition discriminate].
      apply does_if_at_yes; [cbn; intuition discriminate | exact (does_bump _ _ _ T) | exact Hd | intros x _; rewrite (starts_first _ _ x St); cbn; tauto].
    - intros off f P. destruct T as (w & -> & _). destruct (placed_text _ _ _ _ P) as [_ Ss]. apply Forall_inv_tail in Ss. apply Forall_app in Ss. destruct Ss as [Ss _].
      change (its_tok UString (q :: s ++ [q])) with [IT (F := F) UString (encode (q :: s ++ [q]))]. cbn [map each canon b_call]. cbn [Nat.eqb UString]. now rewrite (unquoted_text q s Q Ss).
  Qed.
  Lemma pe_call e1 e2 l m f vs : pe l m e1 f -> 13 < m -> pargs e2 vs -> pe (min 13 l) 14 (e1 ++ e2) (ECall f vs).
  Proof.
    intros (P & Be & Ne) Lm ((its & D & Ev) & k & St & Ik). assert (Kn : lua_ign k = false /\ lua_table k = Some (13, ALeft) /\ k <> UEq). { cbn in Ik. repeat (destruct Ik as [<- | Ik]; [repeat split; discriminate|]). contradiction. } destruct Kn as (K1 & K2 & K3). pose proof (starts_headed _ _ St K1) as Hd. split; [|split].
    - apply (pratt_infix l m 14 13 ALeft e1 e2 f _ P Lm Hd); [intros y; now rewrite (starts_first k _ y St)|].
      apply (infixes_of k UCallExpr (fun f g => arguments (E f) g) 13 _ _ _ its); [exact St | | discriminate | |].
      + eapply does_weak; [exact D|]. intros; exact I.
      + intros off l0 Pl Sh. apply placed_app in Pl. destruct Pl as [_ Pl]. change (option_map (fun a => option_map (fun f => ECall f (snd a)) (fst a)) (each b_call l0 (None, [])) = Some (Some (ECall f vs))).
        rewrite (each_shown _ l0 _ m_call s_call Sh _ (Some f, vs)); [reflexivity|]. exact (Ev _ f Pl).
      + intros f0 left mi id st Id Lmi Pk. cbn in Ik. repeat (destruct Ik as [<- | Ik]; [by_infix K2 Id Lmi Pk|]). contradiction.
    - now apply begins_app.
    - apply no_eq_app; [exact Be | exact Ne | exact Hd|]. intros y _. now rewrite (starts_first k _ y St).
  Qed.

  (** *** Names and parameters *)
  Lemma does_names sep e vs : names sep e vs -> existsb (Nat.eqb sep) noise = true -> lua_ign sep = false -> sep <> UEof ->
    does (fun _ g => want UIdentifier ;; while_eat g sep (want UIdentifier)) e (fun k => k <> sep) (map (IT UIdentifier) vs).
  Proof.
    intros Nm No Ig Ne. assert (H : exists e1 e2 v1 v2, e = e1 ++ e2 /\ vs = encode v1 :: v2 /\ tok UIdentifier v1 e1 /\ does (fun _ g => while_eat g sep (want UIdentifier)) e2 (fun k => k <> sep) (map (IT UIdentifier) v2) /\ headed e2).
    { induction Nm as [e s T | e c r s x vs T Tc Nm (e1 & e2 & v1 & v2 & -> & -> & T1 & D & Hd)].
      - exists e, [], s, []. rewrite app_nil_r. split; [reflexivity|]. split; [reflexivity|]. split; [exact T|]. split; [|exact I]. apply (does_while_none sep (fun _ => want UIdentifier)); [exact Ne | auto].
      - exists e, (c ++ e1 ++ e2), s, (encode v1 :: v2). split; [reflexivity|]. split; [reflexivity|]. split; [exact T|]. split; [|apply headed_app; [exact (tok_headed _ _ _ Tc Ig) | apply headed_app; [exact (tok_headed _ _ _ T1 eq_refl) | exact Hd]]].
        change (map (IT UIdentifier) (encode v1 :: v2)) with ([] ++ its_tok UIdentifier v1 ++ map (IT UIdentifier) v2). replace [] with (its_tok sep x) by (unfold its_tok; now rewrite No).
        apply (does_while_more sep x c (fun _ => want UIdentifier) e1 e2 always _ _ _ Tc (does_want _ _ _ T1) D (tok_headed _ _ _ T1 eq_refl) Hd). intros; exact I. }
    destruct H as (e1 & e2 & v1 & v2 & -> & -> & T1 & D & Hd). change (map (IT UIdentifier) (encode v1 :: v2)) with (its_tok UIdentifier v1 ++ map (IT UIdentifier) v2). exact (does_seq _ _ _ _ _ _ _ _ (does_want _ _ _ T1) D Hd (fun _ _ => I)).
  Qed.
  Definition vararg (va : bool) (its : list (part F)) : Prop := if va then exists x, its = [IT UDotDotDot x] else its = [].
  Lemma does_params e vs t va its : names UComma e vs -> (t = [] /\ va = false /\ its = [] \/ exists c d x s, t = c ++ d /\ tok UComma x c /\ tok UDotDotDot s d /\ va = true /\ its = [IT UDotDotDot (encode s)]) ->
    does (fun _ g => want UIdentifier ;; params g) (e ++ t) (fun k => k = URightParen) (map (IT UIdentifier) vs ++ its).
  Proof.
    intros Nm Ht. assert (Hd : headed t). { destruct Ht as [(-> & _) | (c & d & x & s & -> & Tc & Td & _)]; [exact I|]. apply headed_app; [exact (tok_headed _ _ _ Tc eq_refl) | exact (tok_headed _ _ _ Td eq_refl)]. }
    assert (P0 : does (fun _ g => params g) t (fun k => k = URightParen) its).
    { destruct Ht as [(-> & -> & ->) | (c & d & x & s & -> & Tc & Td & -> & ->)].
      - destruct (does_if_eat_no UComma (fun _ g => if_eat UDotDotDot nop (want UIdentifier ;; params (g - 1))) (fun _ _ => nop) [] (fun k => k = URightParen) [] ltac:(discriminate) (does_nop _) I ltac:(intros x ->; discriminate)) as (N & H).
        exists (S N). intros f g Lf Lg. destruct g as [| g]; [lia|]. specialize (H f (Datatypes.S g) ltac:(lia) ltac:(lia)). cbn [Nat.sub] in H. rewrite Nat.sub_0_r in H. exact H.
      - assert (D : does (fun _ g => if_eat UComma (if_eat UDotDotDot nop (want UIdentifier ;; params (g - 1))) nop) (c ++ d) (fun k => k = URightParen) [IT UDotDotDot (encode s)]).
        { apply (does_if_eat_yes UComma x c (fun _ g => if_eat UDotDotDot nop (want UIdentifier ;; params (g - 1))) (fun _ _ => nop) d _ _ Tc); [|exact (tok_headed _ _ _ Td eq_refl)]. rewrite <- (app_nil_r d). apply (does_if_eat_yes UDotDotDot s d (fun _ _ => nop) (fun _ g => want UIdentifier ;; params (g - 1)) [] _ [] Td (does_nop _) I). }
        destruct D as (N & H). exists (S N). intros f g Lf Lg. destruct g as [| g]; [lia|]. specialize (H f (Datatypes.S g) ltac:(lia) ltac:(lia)). cbn [Nat.sub] in H. rewrite Nat.sub_0_r in H. exact H. }
    clear Ht. induction Nm as [e s T | e c r s x vs T Tc Nm IH].
    - change (map (IT UIdentifier) [encode s]) with (its_tok UIdentifier s). exact (does_seq _ _ _ _ _ _ _ _ (does_want _ _ _ T) P0 Hd (fun _ _ => I)).
    - rewrite <- !app_assoc. change (map (IT UIdentifier) (encode s :: vs) ++ its) with (its_tok UIdentifier s ++ (map (IT UIdentifier) vs ++ its)). pose proof (names_headed _ _ _ Nm) as Hr. pose proof (headed_app _ _ Hr Hd) as Hrt.
      eapply does_seq; [exact (does_want _ _ _ T) | | apply headed_app; [exact (tok_headed _ _ _ Tc eq_refl) | exact Hrt] | intros; exact I].
      assert (D : does (fun _ g => if_eat UComma (if_eat UDotDotDot nop (want UIdentifier ;; params (g - 1))) nop) (c ++ r ++ t) (fun k => k = URightParen) (map (IT UIdentifier) vs ++ its)).
      { apply (does_if_eat_yes UComma x c (fun _ g => if_eat UDotDotDot nop (want UIdentifier ;; params (g - 1))) (fun _ _ => nop) (r ++ t) _ _ Tc); [|exact Hrt].
        apply (does_if_eat_no UDotDotDot (fun _ _ => nop) (fun _ g => want UIdentifier ;; params (g - 1))); [discriminate | exact (does_shift _ _ _ _ IH) | exact Hrt|]. intros y _. rewrite first_app, (names_first _ _ _ _ Nm) by exact Hr. discriminate. }
      destruct D as (N & H). exists (S N). intros f g Lf Lg. destruct g as [| g]; [lia|]. specialize (H f (Datatypes.S g) ltac:(lia) ltac:(lia)). cbn [Nat.sub] in H. rewrite Nat.sub_0_r in H. exact H.
  Qed.
  Lemma does_parameters e ps va : parameters e ps va -> exists its, vararg va its /\ headed e /\
    does (fun _ g => if_at [URightParen] nop (if_eat UDotDotDot nop (want UIdentifier ;; params g))) e (fun k => k = URightParen) (map (IT UIdentifier) ps ++ its).
  Proof.
    intros P. assert (N1 : ~ In UEof [URightParen]) by (cbn; intuition discriminate). destruct P as [| e s T | e vs Nm | e c d vs x s Nm Tc Td].
    - exists []. split; [reflexivity|]. split; [exact I|]. apply does_if_at_yes; [exact N1 | apply does_nop | exact I | intros x ->; cbn; tauto].
    - exists [IT UDotDotDot (encode s)]. split; [now exists (encode s)|]. pose proof (tok_headed _ _ _ T eq_refl) as Hd. split; [exact Hd|]. apply does_if_at_no; [exact N1 | | exact Hd | intros x _; rewrite (tok_first _ _ _ _ T); cbn; intuition discriminate].
      rewrite <- (app_nil_r e). apply (does_if_eat_yes UDotDotDot s e (fun _ _ => nop) (fun _ g => want UIdentifier ;; params g) [] _ [] T (does_nop _) I).
    - exists []. split; [reflexivity|]. pose proof (names_headed _ _ _ Nm) as Hd. split; [exact Hd|]. apply does_if_at_no; [exact N1 | | exact Hd | intros x _; rewrite (names_first _ _ _ _ Nm); cbn; intuition discriminate].
      apply does_if_eat_no; [discriminate | | exact Hd | intros x _; rewrite (names_first _ _ _ _ Nm); discriminate]. rewrite <- (app_nil_r e). apply (does_params e vs [] false [] Nm). now left.
    - exists [IT UDotDotDot (encode s)]. split; [now exists (encode s)|]. pose proof (names_headed _ _ _ Nm) as Hn. assert (Hd : headed (e ++ c ++ d)) by (apply headed_app; [exact Hn | apply headed_app; [exact (tok_headed _ _ _ Tc eq_refl) | exact (tok_headed _ _ _ Td eq_refl)]]). split; [exact Hd|].
      assert (Fs : forall x, first (e ++ c ++ d) x = UIdentifier) by (intros y; rewrite first_app by exact Hn; apply (names_first _ _ _ _ Nm)). apply does_if_at_no; [exact N1 | | exact Hd | intros y _; rewrite Fs; cbn; intuition discriminate].
      apply does_if_eat_no; [discriminate | | exact Hd | intros y _; rewrite Fs; discriminate]. apply (does_params e vs (c ++ d) true _ Nm). right. exists c, d, x, s. repeat split; assumption.
  Qed.

  (** *** Blocks *)
  Definition St (f : nat) : act := statement (E f) (B f) f.
  Definition closers : list nat := [UEnd; UElse; UElseif; UUntil].
  Definition pstmt (k : nat) (e : list piece) (v : ustmt F) : Prop := does (fun f _ => St f) e (fun x => x = k) [IS v] /\ begins stmt_starts e.
  Definition pblock (k : nat) (e : list piece) (vs : list (ustmt F)) : Prop :=
    (exists N j, j < N /\ forall f g ks, N <= f -> N <= g -> (forall x, In x ks -> ~ In x stmt_starts /\ x <> UEof) -> forall s ys trees, sits s (Y e ++ ys) trees -> quiet ys -> next ys = k ->
       exists s' ch, while_not g ks (St f) s = while_not (g - j) ks (St f) s' /\ sits s' ys (trees ++ ch) /\ ps_errs s' = ps_errs s /\ covers ch e (map IS vs)) /\
    headed e /\ (e = [] \/ begins stmt_starts e).
  Lemma pblock_none k : pblock k [] [].
  Proof.
    split; [|split; [exact I | now left]]. exists 1, 0. split; [lia|]. intros f g ks _ _ _ s ys trees S q _. exists s, []. rewrite Nat.sub_0_r, app_nil_r. split; [reflexivity|]. split; [exact S|]. split; [reflexivity | apply covers_nil].
  Qed.
  Lemma pblock_more k e r v vs : pstmt (first r k) e v -> pblock k r vs -> pblock k (e ++ r) (v :: vs).
  Proof.
    intros ((N1 & H1) & Be) ((N2 & j & J & H2) & Hr & _). pose proof (stmt_headed e Be) as He. split; [|split; [now apply headed_app | right; now apply begins_app]].
    exists (S (max N1 N2)), (S j). split; [lia|]. intros f g ks Lf Lg Ks s ys trees S q Qn. destruct g as [| g]; [lia|]. rewrite Y_app, <- app_assoc in S.
    destruct (H1 f g ltac:(lia) ltac:(lia) s _ trees S (quiet_Y r ys Hr q)) as (s1 & c1 & E1 & S1 & R1 & C1); [rewrite (next_Y r ys Hr); now f_equal|].
    destruct (H2 f g ks ltac:(lia) ltac:(lia) Ks s1 ys _ S1 q Qn) as (s2 & c2 & E2 & S2 & R2 & C2). exists s2, (c1 ++ c2). split; [|split; [now rewrite app_assoc|]; split; [congruence|]; exact (covers_app _ _ [IS v] _ _ _ C1 C2)].
    cbn [while_not Nat.sub]. rewrite (sits_end _ _ _ _ S), (existsb_at s _ trees ks S), (next_Y e _ He); [|intros X; now apply (proj2 (Ks _ X))]. rewrite out_existsb; [|intros X; apply (proj1 (Ks _ X)), begins_first, Be].
    destruct Be as (k0 & (x & r0 & ->) & _). cbn [Y flat_map piece_yield fst snd app negb andb]. unfold seq at 1. rewrite E1. exact E2.
  Qed.
  Lemma closers_apart x : In x closers -> ~ In x stmt_starts /\ x <> UEof.
  Proof. intros I. cbn in I. repeat (destruct I as [<- | I]; [split; [cbn; intuition discriminate | discriminate]|]). contradiction. Qed.
  Lemma block_does k e vs : pblock k e vs -> In k closers -> does (fun f _ => B f) e (fun x => x = k) (map IS vs).
  Proof.
    intros ((N & j & J & H) & _) Ik. exists (S N). intros f g Lf _ s ys trees S q Qn. destruct f as [| f]; [lia|]. destruct (H f f closers ltac:(lia) ltac:(lia) closers_apart s ys trees S q Qn) as (s1 & ch & E1 & S1 & R). exists s1, ch. split; [|split; [exact S1 | exact R]].
    change (B (Datatypes.S f)) with (while_not f closers (St f)). rewrite E1. replace (f - j) with (Datatypes.S (f - j - 1)) by lia. cbn [while_not]. rewrite (existsb_at s1 _ _ closers S1), Qn, (in_existsb _ _ Ik), andb_false_r by (intros X; now apply (proj2 (closers_apart _ X))). reflexivity.
  Qed.
  Lemma block_first e k : e = [] \/ begins stmt_starts e -> first e k = k \/ In (first e k) stmt_starts.
  Proof. intros [-> | Be]; [now left | right; now apply begins_first]. Qed.

  (** *** Functions *)
  Definition pfunc (e : list piece) (ps : list str) (va : bool) (ss : list (ustmt F)) : Prop :=
    (exists x1 its x3, vararg va its /\ does (fun f _ => body (B f) f) e always (IT ULeftParen x1 :: map (IT UIdentifier) ps ++ its ++ IT URightParen x3 :: map IS ss)) /\ starts e ULeftParen.
  Lemma pfunc_of a e b c d s t u ps va ss : tok ULeftParen s a -> parameters e ps va -> tok URightParen t b -> pblock UEnd c ss -> tok UEnd u d -> pfunc (a ++ e ++ b ++ c ++ d) ps va ss.
  Proof.
    intros Ta P Tb Pb Td. split; [|apply starts_app, (tok_starts _ s), Ta]. destruct (does_parameters e ps va P) as (its & V & He & D). exists (encode s), its, (encode t). split; [exact V|].
    pose proof Pb as (_ & Hc & _). pose proof (tok_headed _ _ _ Tb eq_refl) as Hb. pose proof (tok_headed _ _ _ Td eq_refl) as Hd.
    assert (X : does (fun f g => body (B f) g) (a ++ e ++ b ++ c ++ d) always (its_tok ULeftParen s ++ (map (IT UIdentifier) ps ++ its) ++ its_tok URightParen t ++ map IS ss ++ its_tok UEnd u)).
    { unfold body. eapply does_seq; [exact (does_want _ s a Ta) | | repeat (apply headed_app; [assumption|]); assumption | intros; exact I].
      eapply does_seq; [exact D | | repeat (apply headed_app; [assumption|]); assumption | intros k _; rewrite first_app by exact Hb; exact (tok_first _ _ _ _ Tb)].
      eapply does_seq; [exact (does_want _ t b Tb) | | repeat (apply headed_app; [assumption|]); assumption | intros; exact I].
      eapply does_seq; [exact (block_does _ _ _ Pb ltac:(cbn; tauto)) | exact (does_want _ u d Td) | exact Hd | intros k _; exact (tok_first _ _ _ _ Td)]. }
    apply does_diag in X. change (its_tok UEnd u) with (@nil (part F)) in X. rewrite app_nil_r, <- app_assoc in X. exact X.
  Qed.
  Lemma pe_function a e s ps va ss : tok UFunction s a -> pfunc e ps va ss -> pe 14 14 (a ++ e) (EFunction ps va ss).
  Proof.
    intros T ((x1 & its & x3 & V & D) & St1). pose proof (starts_app _ _ e (tok_starts _ s a T)) as St0. split; [|split].
    - apply (primary UFunction (fun f _ => node_at checkpoint UFunctionExpr (lua_bump ;; body (B f) f)) _ (IE (EFunction ps va ss)) _); [|reflexivity | exact St0 | by_prefix]. eapply makes_e; [|discriminate|].
      + eapply does_seq; [exact (does_bump _ s a T) | exact D | now apply (starts_headed ULeftParen) | intros; exact I].
      + intros off l0 _ Sh. change (option_map (fun a => let '(ps, va, b, _) := a in Some (EFunction ps va b)) (each b_function l0 ([], false, [], false)) = Some (Some (EFunction ps va ss))).
        rewrite (each_shown _ l0 _ m_function s_function Sh _ (ps, va, ss, true)); [reflexivity|]. change (its_tok UFunction s) with (@nil (part F)). cbn [app map each canon b_function]. cbn [Nat.eqb ULeftParen UIdentifier UDotDotDot URightParen andb negb].
        rewrite map_app, (each_app _ _ _ _ _ (ev_fun_names ps [] false [])). destruct va; [destruct V as (x & ->) | rewrite V]; exact (ev_fun_body ss ps _ []).
    - exists UFunction. split; [exact St0 | cbn; tauto].
    - now apply (no_eq_other UFunction).
  Qed.

  (** *** Statements *)
  Lemma pstmt_of k1 k a e v : starts e k1 -> In k1 stmt_starts -> does a e (fun x => x = k) [IS v] -> (forall f st, peek_kind st = Some k1 -> St f st = a f f st) -> pstmt k e v.
  Proof.
    intros S1 I1 (N & H) P. split; [|now exists k1]. exists N. intros f g Lf _ st ys trees S q Qn. rewrite P; [exact (H f f Lf Lf st ys trees S q Qn)|]. destruct S1 as (x & r & ->). now rewrite (LuaProofs.peek_sits toks st _ trees S).
  Qed.
  Ltac by_first := let f := fresh in let st := fresh in let Pk := fresh in intros f st Pk; unfold St, statement; rewrite Pk; reflexivity.
  Lemma stmt_node kind a e Q its v : does a e Q its -> kind <> UTableField -> s_node kind its v -> does (fun f g => node kind (a f g)) e Q [IS v].
  Proof. intros D K H. exact (makes_does _ _ _ _ (makes_s kind a e Q its v D K H)). Qed.
  Lemma does_semi k z : is_semicolon k z -> does (fun _ _ => may USemicolon) z (fun x => x = k) [] /\ headed z.
  Proof.
    intros [k0 N | k0 z0 s T].
    - split; [|exact I]. eapply does_weak; [apply (does_may_no USemicolon); discriminate|]. intros x ->. exact N.
    - split; [|exact (tok_headed _ _ _ T eq_refl)]. eapply does_weak; [exact (does_may_yes _ s z0 T)|]. intros; exact I.
  Qed.
  Lemma does_assoc a b c e Q its : does (fun f g => (a f g ;; b f g) ;; c f g) e Q its -> does (fun f g => a f g ;; b f g ;; c f g) e Q its.
  Proof.
    intros (N & H). exists N. intros f g Lf Lg s ys trees S q Qn. destruct (H f g Lf Lg s ys trees S q Qn) as (s' & ch & Ea & R). exists s', ch. split; [|exact R]. revert Ea. unfold seq. now destruct (a f g s).
  Qed.
  Lemma semi_over k z : is_semicolon k z -> headed z. Proof. intros H. exact (proj2 (does_semi k z H)). Qed.

  Lemma stmt_local k a e z s vs : tok ULocal s a -> names UComma e vs -> is_semicolon k z -> ~ In (first z k) [UComma; UEq] -> pstmt k (a ++ e ++ z) (SLocal vs []).
  Proof.
    intros Ta Nm Sz Fz. destruct (does_semi k z Sz) as (Dz & Hz). pose proof (names_headed _ _ _ Nm) as He. apply (pstmt_of ULocal k (fun f g => local (E f) (B f) g)); [apply starts_app, (tok_starts _ s), Ta | cbn; tauto | | by_first].
    unfold local. eapply stmt_node; [|discriminate|].
    - eapply does_seq; [exact (does_want _ s a Ta) | | now apply headed_app | intros; exact I]. eapply (does_seq _ _ _ _ (fun x => ~ In x [UComma; UEq])); [| exact Dz | exact Hz | intros x ->; exact Fz].
      apply does_if_eat_no; [discriminate | | exact He | intros x _; rewrite (names_first _ _ _ _ Nm); discriminate]. apply does_assoc. rewrite <- (app_nil_r e). eapply does_seq; [exact (does_names UComma e vs Nm eq_refl eq_refl ltac:(discriminate)) | | exact I | intros x X Q; apply X; rewrite <- Q; cbn; tauto].
      apply does_if_eat_no; [discriminate | apply does_nop | exact I | intros x X Q; apply X; rewrite <- Q; cbn; tauto].
    - intros l0 Sh. change (option_map (fun a => Some (SLocal (fst a) (snd a))) (each b_local l0 ([], [])) = Some (Some (SLocal vs []))). rewrite (each_shown _ l0 _ m_local s_local Sh _ (vs, [])); [reflexivity|].
      change (its_tok ULocal s) with (@nil (part F)). cbn [app]. rewrite !app_nil_r. exact (ev_local_names vs [] []).
  Qed.
  Lemma stmt_local_values k a e b xs z s t vs es : tok ULocal s a -> names UComma e vs -> tok UEq t b -> pes xs es -> is_semicolon k z -> over (first z k) -> first z k <> UComma -> pstmt k (a ++ e ++ b ++ xs ++ z) (SLocal vs es).
  Proof.
    intros Ta Nm Tb Px Sz Oz Fz. destruct (does_semi k z Sz) as (Dz & Hz). pose proof (names_headed _ _ _ Nm) as He. pose proof (tok_headed _ _ _ Tb eq_refl) as Hb. pose proof (expr_headed _ (pes_begins _ _ Px)) as Hx.
    apply (pstmt_of ULocal k (fun f g => local (E f) (B f) g)); [apply starts_app, (tok_starts _ s), Ta | cbn; tauto | | by_first]. replace (a ++ e ++ b ++ xs ++ z) with (a ++ (e ++ b ++ xs) ++ z) by now rewrite <- !app_assoc.
    unfold local. eapply stmt_node; [|discriminate|].
    - eapply does_seq; [exact (does_want _ s a Ta) | | repeat (apply headed_app; try assumption) | intros; exact I]. eapply (does_seq _ _ _ _ ends_list); [| exact Dz | exact Hz | intros x ->; now split].
      apply does_if_eat_no; [discriminate | | repeat (apply headed_app; try assumption) | intros x _; rewrite first_app by exact He; rewrite (names_first _ _ _ _ Nm); discriminate].
      apply does_assoc. eapply does_seq; [exact (does_names UComma e vs Nm eq_refl eq_refl ltac:(discriminate)) | | now apply headed_app | intros x _; rewrite first_app by exact Hb; rewrite (tok_first _ _ _ _ Tb); discriminate].
      eapply (does_if_eat_yes UEq t b); [exact Tb | exact (pes_does _ _ Px) | exact Hx].
    - intros l0 Sh. change (option_map (fun a => Some (SLocal (fst a) (snd a))) (each b_local l0 ([], [])) = Some (Some (SLocal vs es))). rewrite (each_shown _ l0 _ m_local s_local Sh _ (vs, es)); [reflexivity|].
      change (its_tok ULocal s) with (@nil (part F)). change (its_tok UEq t) with [IT (F := F) UEq (encode t)]. cbn [app]. rewrite !app_nil_r, map_app, (each_app _ _ _ _ _ (ev_local_names vs [] [])). exact (ev_local_exprs es vs []).
  Qed.
  Lemma plain_as f g s s1 : E f 0 s = Some s1 -> plain (E f) g s =
    (if at_kind s1 UComma || at_kind s1 UEq then (node UAssignmentStmt (E f 0 ;; while_eat g UComma (E f 0) ;; want UEq ;; exprs (E f) g) ;; may USemicolon) s
     else (node UExprStmt (E f 0 ;; nop) ;; may USemicolon) s).
  Proof.
    intros Es. unfold plain. rewrite Es. destruct (at_kind s1 UComma || at_kind s1 UEq); unfold node, dropped, node_at, seq; cbv beta; rewrite Es; reflexivity.
  Qed.
  Lemma does_plain (c : bool) e1 r (Q : nat -> Prop) i1 its : does (fun f _ => E f 0) e1 over i1 -> headed r -> (forall k, Q k -> over (first r k) /\ (if c then In (first r k) [UComma; UEq] else ~ In (first r k) [UComma; UEq])) ->
    does (fun f g => (if c then node UAssignmentStmt (E f 0 ;; while_eat g UComma (E f 0) ;; want UEq ;; exprs (E f) g) ;; may USemicolon else node UExprStmt (E f 0 ;; nop) ;; may USemicolon)) (e1 ++ r) Q its ->
    does (fun f g => plain (E f) g) (e1 ++ r) Q its.
  Proof.
    intros (N1 & D1) Hr W (N2 & D2). exists (max N1 N2). intros f g Lf Lg s ys trees S q Qn. specialize (D2 f g ltac:(lia) ltac:(lia) s ys trees S q Qn). rewrite Y_app, <- app_assoc in S. destruct (W _ Qn) as (O & C).
    destruct (D1 f g ltac:(lia) ltac:(lia) s _ trees S (quiet_Y r ys Hr q)) as (s1 & c1 & E1 & S1 & _); [rewrite (next_Y r ys Hr); exact O|].
    rewrite (plain_as f g s s1 E1). rewrite (at_next s1 _ _ UComma S1), (at_next s1 _ _ UEq S1), (next_Y r ys Hr) by discriminate. assert (X : ((first r (next ys) =? UComma) || (first r (next ys) =? UEq)) = c).
    { pose proof (orb_false_r (first r (next ys) =? UEq)) as Z. rewrite <- Z. change ((first r (next ys) =? UComma) || ((first r (next ys) =? UEq) || false)) with (existsb (Nat.eqb (first r (next ys))) [UComma; UEq]). destruct c; [now apply in_existsb | now apply out_existsb]. }
    rewrite X. destruct c; exact D2.
  Qed.
  Definition plain_starts (k : nat) : Prop := In k expr_starts /\ k <> UFunction.
  Lemma stmt_plain k e v : begins expr_starts e -> first e UEof <> UFunction -> does (fun f g => plain (E f) g) e (fun x => x = k) [IS v] -> pstmt k e v.
  Proof.
    intros (k1 & S1 & I1) Nf D. rewrite (starts_first _ _ _ S1) in Nf. apply (pstmt_of k1 k (fun f g => plain (E f) g)); [exact S1 | unfold stmt_starts; apply in_or_app; now right | exact D|].
    intros f st Pk. unfold St, statement. rewrite Pk. cbn in I1. repeat (destruct I1 as [<- | I1]; [first [reflexivity | now elim Nf]|]). contradiction.
  Qed.
  Lemma stmt_expr k l m e z v : pe l m e v -> first e UEof <> UFunction -> is_semicolon k z -> over (first z k) -> ~ In (first z k) [UComma; UEq] -> pstmt k (e ++ z) (SExpr v).
  Proof.
    intros (P & Be & _) Nf Sz Oz Fz. destruct (does_semi k z Sz) as (Dz & Hz). pose proof (does_expr l m e v P) as De. pose proof (expr_headed e Be) as He. apply stmt_plain; [now apply begins_app | destruct Be as (k1 & S1 & I1); rewrite (starts_first k1) by (now apply starts_app); now rewrite (starts_first _ _ _ S1) in Nf |].
    apply (does_plain false e z _ [IE v]); [exact De | exact Hz | intros x ->; now split|]. change [IS (SExpr v)] with ([IS (SExpr v)] ++ []). eapply does_seq; [| exact Dz | exact Hz | intros x ->; exact Oz]. rewrite <- (app_nil_r e). eapply stmt_node; [|discriminate|].
    - eapply does_seq; [exact De | apply does_nop | exact I | intros x X; exact X].
    - intros l0 Sh. change (option_map (option_map SExpr) (each b_first l0 None) = Some (Some (SExpr v))). now rewrite (each_shown _ l0 _ m_first s_first Sh _ (Some v)).
  Qed.
  Lemma stmt_assign k e1 b e2 z t vs es : pes e1 vs -> first e1 UEof <> UFunction -> tok UEq t b -> pes e2 es -> is_semicolon k z -> over (first z k) -> first z k <> UComma -> pstmt k (e1 ++ b ++ e2 ++ z) (SAssign vs es).
  Proof.
    intros P1 Nf Tb P2 Sz Oz Fz. destruct (does_semi k z Sz) as (Dz & Hz). pose proof (pes_begins _ _ P1) as B1. pose proof (expr_headed _ (pes_begins _ _ P2)) as H2. pose proof (tok_headed _ _ _ Tb eq_refl) as Hb.
    apply stmt_plain; [now apply begins_app | destruct B1 as (k1 & S1 & I1); rewrite (starts_first k1) by (now apply starts_app); now rewrite (starts_first _ _ _ S1) in Nf |].
    destruct P1 as (e11 & e12 & v1 & v2 & -> & -> & D1 & D2 & B11 & T). pose proof (tail_headed _ T) as Ht. rewrite <- app_assoc.
    assert (Oe : over UEq) by now apply table_over.
    apply (does_plain true e11 (e12 ++ b ++ e2 ++ z) _ [IE v1]); [exact D1 | repeat (apply headed_app; try assumption) | |].
    - intros x ->. rewrite first_app by exact Ht. rewrite first_app by exact Hb. rewrite (tok_first _ _ _ _ Tb). split; [now apply tail_over|]. destruct T as [-> | T]; [cbn; tauto | rewrite (starts_first _ _ _ T); cbn; tauto].
    - replace (e11 ++ e12 ++ b ++ e2 ++ z) with ((e11 ++ e12 ++ b ++ e2) ++ z) by now rewrite <- !app_assoc. change [IS (SAssign (v1 :: v2) es)] with ([IS (SAssign (v1 :: v2) es)] ++ []). eapply (does_seq _ _ _ _ ends_list); [| exact Dz | exact Hz | intros x ->; now split].
      eapply stmt_node; [|discriminate|].
      + eapply does_seq; [exact D1 | | repeat (apply headed_app; try assumption) | intros x _; rewrite first_app by exact Ht; rewrite first_app by exact Hb; rewrite (tok_first _ _ _ _ Tb); now apply tail_over].
        eapply does_seq; [exact D2 | | now apply headed_app | intros x _; rewrite first_app by exact Hb; rewrite (tok_first _ _ _ _ Tb); split; [exact Oe | discriminate]].
        eapply does_seq; [exact (does_want _ t b Tb) | exact (pes_does _ _ P2) | exact H2 | intros; exact I].
      + intros l0 Sh. change (option_map (fun a => let '(ts, vs, _) := a in Some (SAssign ts vs)) (each b_assign l0 ([], [], false)) = Some (Some (SAssign (v1 :: v2) es))). rewrite (each_shown _ l0 _ m_assign s_assign Sh _ (v1 :: v2, es, true)); [reflexivity|].
        change ([IE v1] ++ map IE v2 ++ its_tok UEq t ++ map IE es) with (map IE (v1 :: v2) ++ IT UEq (encode t) :: map IE es). rewrite map_app, (each_app _ _ _ _ _ (ev_assign_left (v1 :: v2) [] [])). exact (ev_assign_right es (v1 :: v2) []).
  Qed.

  Lemma stmt_return k a z s : tok UReturn s a -> is_semicolon k z -> In (first z k) [USemicolon; UEnd; UElse; UElseif; UUntil] -> pstmt k (a ++ z) (SReturn []).
  Proof.
    intros Ta Sz Fz. destruct (does_semi k z Sz) as (Dz & Hz). apply (pstmt_of UReturn k (fun f g => return_ (E f) g)); [apply starts_app, (tok_starts _ s), Ta | cbn; tauto | | by_first].
    unfold return_. eapply stmt_node; [|discriminate|].
    - eapply does_seq; [exact (does_want _ s a Ta) | | exact Hz | intros; exact I]. change z with ([] ++ z). eapply (does_seq _ _ _ _ (fun x => x = first z k)); [| exact Dz | exact Hz | intros x ->; reflexivity].
      apply does_if_at_yes; [cbn; intuition discriminate | apply does_nop | exact I | intros x ->; cbn [first]; revert Fz; cbn; tauto].
    - intros l0 Sh. change (option_map (fun vs => Some (SReturn vs)) (each b_exprs l0 []) = Some (Some (SReturn []))). now rewrite (each_shown _ l0 _ m_exprs s_exprs Sh _ []).
  Qed.
  Lemma stmt_return_values k a e z s es : tok UReturn s a -> pes e es -> is_semicolon k z -> over (first z k) -> first z k <> UComma -> pstmt k (a ++ e ++ z) (SReturn es).
  Proof.
    intros Ta P Sz Oz Fz. destruct (does_semi k z Sz) as (Dz & Hz). pose proof (pes_begins _ _ P) as Be. pose proof (expr_headed _ Be) as He. apply (pstmt_of UReturn k (fun f g => return_ (E f) g)); [apply starts_app, (tok_starts _ s), Ta | cbn; tauto | | by_first].
    unfold return_. eapply stmt_node; [|discriminate|].
    - eapply does_seq; [exact (does_want _ s a Ta) | | now apply headed_app | intros; exact I]. eapply (does_seq _ _ _ _ ends_list); [| exact Dz | exact Hz | intros x ->; now split].
      apply does_if_at_no; [cbn; intuition discriminate | exact (pes_does _ _ P) | exact He |]. intros x _ X. pose proof (begins_first _ _ x Be) as Y0. remember (first e x) as w. cbn in X. repeat (destruct X as [<- | X]; [cbn in Y0; intuition discriminate|]). exact X.
    - intros l0 Sh. change (option_map (fun vs => Some (SReturn vs)) (each b_exprs l0 []) = Some (Some (SReturn es))). rewrite (each_shown _ l0 _ m_exprs s_exprs Sh _ es); [reflexivity|].
      change (its_tok UReturn s) with (@nil (part F)). cbn [app]. rewrite app_nil_r. exact (ev_exprs es []).
  Qed.

  Ltac hd := repeat (apply headed_app; try assumption); try assumption.
  (** conditions *)
  Definition palt (e : list piece) (es : list (uexpr F * list (ustmt F))) (el : option (list (ustmt F))) : Prop :=
    (exists its, does (fun f g => while_eat g UElseif (E f 0 ;; want UThen ;; B f) ;; if_eat UElse (B f) nop ;; want UEnd) e always its /\
       forall c b es0 st, exists st', each b_if (map canon its) (c, b, es0, None, st) = Some (c, b, es0 ++ es, el, st')) /\
    exists k, starts e k /\ In k [UEnd; UElse; UElseif].
  Lemma alt_headed e : (exists k, starts e k /\ In k [UEnd; UElse; UElseif]) -> headed e.
  Proof. intros (k & S & I). apply (starts_headed k); [exact S|]. cbn in I. repeat (destruct I as [<- | I]; [reflexivity|]). contradiction. Qed.
  Lemma while_skip e (Q : nat -> Prop) its (b : nat -> nat -> act) (a : nat -> act) k : k <> UEof -> does b e Q its -> headed e -> (forall x, Q x -> first e x <> k) -> does (fun f g => while_eat g k (a f) ;; b f g) e Q its.
  Proof.
    intros Ne D Hd W. change e with ([] ++ e). change its with ([] ++ its). eapply (does_seq _ _ _ _ (fun x => x <> k)); [| exact D | exact Hd | exact W]. apply does_while_none; auto.
  Qed.
  Lemma palt_none d s : tok UEnd s d -> palt d [] None.
  Proof.
    intros T. pose proof (tok_headed _ _ _ T eq_refl) as Hd. split; [|exists UEnd; split; [exact (tok_starts _ _ _ T) | cbn; tauto]]. exists (its_tok UEnd s). split.
    - apply while_skip; [discriminate | | exact Hd | intros x _; rewrite (tok_first _ _ _ _ T); discriminate]. change d with ([] ++ d). change (its_tok UEnd s) with ([] ++ its_tok UEnd s). eapply (does_seq _ _ _ _ (fun x => x = UEnd)); [| exact (does_want _ _ _ T) | exact Hd | intros x _; exact (tok_first _ _ _ _ T)].
      apply does_if_eat_no; [discriminate | apply does_nop | exact I | intros x ->; discriminate].
    - intros c b es0 st. exists st. rewrite app_nil_r. reflexivity.
  Qed.
  Lemma palt_else a b d s t ss : tok UElse s a -> pblock UEnd b ss -> tok UEnd t d -> palt (a ++ b ++ d) [] (Some ss).
  Proof.
    intros Ta Pb Td. pose proof (tok_headed _ _ _ Ta eq_refl) as Ha. pose proof (tok_headed _ _ _ Td eq_refl) as Hd. pose proof Pb as (_ & Hb & _). pose proof (starts_app _ _ (b ++ d) (tok_starts _ _ _ Ta)) as S0.
    split; [|exists UElse; split; [exact S0 | cbn; tauto]]. exists ((its_tok UElse s ++ map IS ss) ++ its_tok UEnd t). split.
    - apply while_skip; [discriminate | | hd | intros x _; rewrite (starts_first _ _ x S0); discriminate]. replace (a ++ b ++ d) with ((a ++ b) ++ d) by now rewrite <- app_assoc. eapply (does_seq _ _ _ _ (fun x => x = UEnd)); [| exact (does_want _ _ _ Td) | exact Hd | intros x _; exact (tok_first _ _ _ _ Td)].
      eapply (does_if_eat_yes UElse s a); [exact Ta | exact (block_does _ _ _ Pb ltac:(cbn; tauto)) | exact Hb].
    - intros c b0 es0 st. exists 4. change (its_tok UEnd t) with (@nil (part F)). rewrite !app_nil_r. exact (ev_if_else ss c b0 es0 []).
  Qed.
  Lemma while_assoc k s e0 (a b : nat -> act) e1 r Q1 Q i1 i2 : tok k s e0 -> does (fun f _ => a f) e1 Q1 i1 -> does (fun f g => while_eat g k (a f) ;; b f) r Q i2 -> headed e1 -> headed r ->
    (forall x, Q x -> Q1 (first r x)) -> does (fun f g => while_eat g k (a f) ;; b f) (e0 ++ e1 ++ r) Q (its_tok k s ++ i1 ++ i2).
  Proof.
    intros T A R H1 Hr W. destruct (does_seq _ _ _ _ _ _ _ _ (does_bump k s e0 T) (does_seq _ _ _ _ _ _ _ _ A (does_shift _ _ _ _ R) Hr W) (headed_app _ _ H1 Hr) (fun _ _ => I)) as (N & H).
    exists (S N). intros f g Lf Lg st ys trees S q Qn. destruct g as [| g]; [lia|]. specialize (H f (Datatypes.S g) ltac:(lia) ltac:(lia) st ys trees S q Qn). cbn [Nat.sub] in H. rewrite Nat.sub_0_r in H. destruct H as (s' & ch & Ea & X). exists s', ch. split; [|exact X]. rewrite <- Ea.
    unfold seq at 1. cbn [while_eat]. unfold if_eat, eat. rewrite Y_app, <- app_assoc in S. rewrite (at_tok k s e0 st _ trees k T S), Nat.eqb_refl. unfold seq, lua_bump. cbv beta. now destruct (a f (bump lua_ign st)).
  Qed.
  Lemma then_over : over UThen. Proof. now apply table_over. Qed.
  Lemma do_over : over UDo. Proof. now apply table_over. Qed.
  Lemma palt_elseif a c t b r s x l m v ss es el : tok UElseif s a -> pe l m c v -> tok UThen x t -> pblock (first r UEof) b ss -> palt r es el -> palt (a ++ c ++ t ++ b ++ r) ((v, ss) :: es) el.
  Proof.
    intros Ta (Pc & Bc & _) Tt Pb ((its & D & Ev) & Sr). pose proof (tok_headed _ _ _ Ta eq_refl) as Ha. pose proof (tok_headed _ _ _ Tt eq_refl) as Ht. pose proof (expr_headed _ Bc) as Hc. pose proof Pb as (_ & Hb & _). pose proof (alt_headed _ Sr) as Hr.
    destruct Sr as (kr & Sr & Ir). rewrite (starts_first _ _ _ Sr) in Pb. assert (Ic : In kr closers) by (cbn in Ir; cbn; tauto). split; [|exists UElseif; split; [apply starts_app, (tok_starts _ s), Ta | cbn; tauto]].
    exists (its_tok UElseif s ++ ([IE v] ++ its_tok UThen x ++ map IS ss) ++ its). split.
    - replace (a ++ c ++ t ++ b ++ r) with (a ++ (c ++ t ++ b) ++ r) by now rewrite <- !app_assoc. eapply (while_assoc UElseif s a (fun f => E f 0 ;; want UThen ;; B f) (fun f => if_eat UElse (B f) nop ;; want UEnd) _ r (fun y => y = kr)); [exact Ta | | exact D | hd | exact Hr | intros y _; exact (starts_first _ _ _ Sr)].
      eapply does_seq; [exact (does_expr l m c v Pc) | | hd | intros y _; rewrite first_app by exact Ht; rewrite (tok_first _ _ _ _ Tt); exact then_over]. eapply does_seq; [exact (does_want _ _ _ Tt) | exact (block_does _ _ _ Pb Ic) | exact Hb | intros; exact I].
    - intros c0 b0 es0 st. destruct (Ev c0 b0 (es0 ++ [(v, ss)]) 3) as (st' & Es). exists st'. change (its_tok UElseif s) with [IT (F := F) UElseif (encode s)]. change (its_tok UThen x) with [IT (F := F) UThen (encode x)]. change (each b_if (map canon (map IS ss ++ its)) (c0, b0, es0 ++ [(v, [])], None, 3) = Some (c0, b0, es0 ++ (v, ss) :: es, el, st')).
      rewrite map_app, (each_app _ _ _ _ _ (ev_if_other ss c0 b0 es0 v [] None)). cbn [app]. rewrite Es, <- app_assoc. reflexivity.
  Qed.
  Lemma stmt_if k a c t b r s x l m v ss es el : tok UIf s a -> pe l m c v -> tok UThen x t -> pblock (first r UEof) b ss -> palt r es el -> pstmt k (a ++ c ++ t ++ b ++ r) (SIf v ss es el).
  Proof.
    intros Ta (Pc & Bc & _) Tt Pb ((its & D & Ev) & Sr). pose proof (tok_headed _ _ _ Ta eq_refl) as Ha. pose proof (tok_headed _ _ _ Tt eq_refl) as Ht. pose proof (expr_headed _ Bc) as Hc. pose proof Pb as (_ & Hb & _). pose proof (alt_headed _ Sr) as Hr.
    destruct Sr as (kr & Sr & Ir). rewrite (starts_first _ _ _ Sr) in Pb. assert (Ic : In kr closers) by (cbn in Ir; cbn; tauto). apply (pstmt_of UIf k (fun f g => if_ (E f) (B f) g)); [apply starts_app, (tok_starts _ s), Ta | cbn; tauto | | by_first].
    unfold if_. eapply stmt_node; [|discriminate|].
    - eapply does_weak; [|intros y _; exact I]. eapply does_seq; [exact (does_want _ _ _ Ta) | | hd | intros; exact I]. eapply does_seq; [exact (does_expr l m c v Pc) | | hd | intros y _; rewrite first_app by exact Ht; rewrite (tok_first _ _ _ _ Tt); exact then_over].
      eapply does_seq; [exact (does_want _ _ _ Tt) | | hd | intros; exact I]. eapply does_seq; [exact (block_does _ _ _ Pb Ic) | exact D | exact Hr | intros y _; exact (starts_first _ _ _ Sr)].
    - intros l0 Sh. destruct (Ev (Some v) ss [] 1) as (st' & Es). change (option_map (fun a => let '(cond, b, elifs, els, _) := a in option_map (fun c => SIf c b elifs els) cond) (each b_if l0 (None, [], [], None, 0)) = Some (Some (SIf v ss es el))).
      rewrite (each_shown _ l0 _ m_if s_if Sh _ (Some v, ss, es, el, st')); [reflexivity|]. change (its_tok UIf s) with [IT (F := F) UIf (encode s)]. change (its_tok UThen x) with [IT (F := F) UThen (encode x)]. change (each b_if (map canon (map IS ss ++ its)) (Some v, [], [], None, 1) = Some (Some v, ss, es, el, st')).
      rewrite map_app, (each_app _ _ _ _ _ (ev_if_first ss (Some v) [] [] None)). cbn [app]. exact Es.
  Qed.
  Lemma stmt_while k a c t b d s x y l m v ss : tok UWhile s a -> pe l m c v -> tok UDo x t -> pblock UEnd b ss -> tok UEnd y d -> pstmt k (a ++ c ++ t ++ b ++ d) (SWhile v ss).
  Proof.
    intros Ta (Pc & Bc & _) Tt Pb Td. pose proof (tok_headed _ _ _ Ta eq_refl) as Ha. pose proof (tok_headed _ _ _ Tt eq_refl) as Ht. pose proof (tok_headed _ _ _ Td eq_refl) as Hd. pose proof (expr_headed _ Bc) as Hc. pose proof Pb as (_ & Hb & _).
    apply (pstmt_of UWhile k (fun f g => while_ (E f) (B f))); [apply starts_app, (tok_starts _ s), Ta | cbn; tauto | | by_first]. unfold while_. eapply stmt_node; [|discriminate|].
    - eapply does_weak; [|intros z _; exact I]. eapply does_seq; [exact (does_want _ _ _ Ta) | | hd | intros; exact I]. eapply does_seq; [exact (does_expr l m c v Pc) | | hd | intros z _; rewrite first_app by exact Ht; rewrite (tok_first _ _ _ _ Tt); exact do_over].
      eapply does_seq; [exact (does_want _ _ _ Tt) | | hd | intros; exact I]. eapply does_seq; [exact (block_does _ _ _ Pb ltac:(cbn; tauto)) | exact (does_want _ _ _ Td) | exact Hd | intros z _; exact (tok_first _ _ _ _ Td)].
    - intros l0 Sh. change (option_map (fun a => let '(cond, b, _) := a in option_map (fun c => SWhile c b) cond) (each b_while l0 (None, [], false)) = Some (Some (SWhile v ss))).
      rewrite (each_shown _ l0 _ m_while s_while Sh _ (Some v, ss, true)); [reflexivity|]. change (its_tok UWhile s) with (@nil (part F)). change (its_tok UEnd y) with (@nil (part F)). change (its_tok UDo x) with [IT (F := F) UDo (encode x)]. rewrite app_nil_r. exact (ev_while ss (Some v) []).
  Qed.
  Definition pstep (e : list piece) (v : option (uexpr F)) : Prop := does (fun f _ => if_eat UComma (E f 0) nop) e (fun x => x = UDo) (map IE (match v with Some v => [v] | None => [] end)) /\ (e = [] \/ starts e UComma).
  Lemma pstep_none : pstep [] None.
  Proof. split; [|now left]. apply does_if_eat_no; [discriminate | apply does_nop | exact I | intros x ->; discriminate]. Qed.
  Lemma pstep_some c e s l m v : tok UComma s c -> pe l m e v -> pstep (c ++ e) (Some v).
  Proof.
    intros T (P & Be & _). split; [|right; apply starts_app, (tok_starts _ s), T]. change (map IE [v]) with (its_tok UComma s ++ [IE v]). eapply does_weak; [apply (does_if_eat_yes UComma s c (fun f _ => E f 0) (fun _ _ => nop) e over [IE v] T (does_expr l m e v P) (expr_headed e Be))|]. intros x ->. exact do_over.
  Qed.
  Lemma stmt_numeric k a n q e1 c1 e2 st t b d s s1 s2 s3 x y l1 m1 l2 m2 v1 v2 v3 ss :
    tok UFor s a -> tok UIdentifier s1 n -> tok UEq s2 q -> pe l1 m1 e1 v1 -> tok UComma s3 c1 -> pe l2 m2 e2 v2 -> pstep st v3 -> tok UDo x t -> pblock UEnd b ss -> tok UEnd y d ->
    pstmt k (a ++ n ++ q ++ e1 ++ c1 ++ e2 ++ st ++ t ++ b ++ d) (SNumeric (encode s1) v1 v2 v3 ss).
  Proof.
    intros Ta Tn Tq (P1 & B1 & _) Tc (P2 & B2 & _) (Ds & Ss) Tt Pb Td. pose proof (tok_headed _ _ _ Ta eq_refl) as Ha. pose proof (tok_headed _ _ _ Tn eq_refl) as Hn. pose proof (tok_headed _ _ _ Tq eq_refl) as Hq. pose proof (tok_headed _ _ _ Tc eq_refl) as Hc. pose proof (tok_headed _ _ _ Tt eq_refl) as Ht. pose proof (tok_headed _ _ _ Td eq_refl) as Hd.
    pose proof (expr_headed _ B1) as H1. pose proof (expr_headed _ B2) as H2. pose proof Pb as (_ & Hb & _). pose proof (tail_headed _ Ss) as Hs.
    apply (pstmt_of UFor k (fun f g => for_ (E f) (B f) g)); [apply starts_app, (tok_starts _ s), Ta | cbn; tauto | | by_first]. replace (a ++ n ++ q ++ e1 ++ c1 ++ e2 ++ st ++ t ++ b ++ d) with (a ++ n ++ (q ++ e1 ++ c1 ++ e2 ++ st) ++ t ++ b ++ d) by now rewrite <- !app_assoc.
    unfold for_. eapply stmt_node; [|discriminate|].
    - eapply does_weak; [|intros z _; exact I]. eapply does_seq; [exact (does_want _ _ _ Ta) | | hd | intros; exact I]. eapply does_seq; [exact (does_want _ _ _ Tn) | | hd | intros; exact I]. eapply (does_seq _ _ _ _ (fun z => z = UDo)).
      + eapply (does_if_eat_yes UEq s2 q); [exact Tq | | hd]. eapply does_seq; [exact (does_expr _ _ _ _ P1) | | hd | intros z _; rewrite first_app by exact Hc; rewrite (tok_first _ _ _ _ Tc); now apply table_over].
        eapply does_seq; [exact (does_want _ _ _ Tc) | | hd | intros; exact I]. eapply does_seq; [exact (does_expr _ _ _ _ P2) | exact Ds | exact Hs | intros z ->; apply (tail_over _ _ Ss); exact do_over].
      + eapply does_seq; [exact (does_want _ _ _ Tt) | | hd | intros; exact I]. eapply does_seq; [exact (block_does _ _ _ Pb ltac:(cbn; tauto)) | exact (does_want _ _ _ Td) | exact Hd | intros z _; exact (tok_first _ _ _ _ Td)].
      + hd.
      + intros z _. rewrite first_app by exact Ht. exact (tok_first _ _ _ _ Tt).
    - intros l0 Sh. change (option_map for_of (each b_for l0 ([], [], [], (false, false, false))) = Some (Some (SNumeric (encode s1) v1 v2 v3 ss))).
      rewrite (each_shown _ l0 _ m_for s_for Sh _ ([encode s1], v1 :: v2 :: (match v3 with Some v => [v] | None => [] end), ss, (true, false, true))); [destruct v3; reflexivity|].
      change (its_tok UFor s) with (@nil (part F)). change (its_tok UComma s3) with (@nil (part F)). change (its_tok UEnd y) with (@nil (part F)). change (its_tok UDo x) with [IT (F := F) UDo (encode x)]. change (its_tok UEq s2) with [IT (F := F) UEq (encode s2)]. change (its_tok UIdentifier s1) with [IT (F := F) UIdentifier (encode s1)].
      rewrite app_nil_r. cbn [app]. destruct v3; exact (ev_for_body ss _ _ [] _ _).
  Qed.
  Lemma names_split sep e vs : names sep e vs -> existsb (Nat.eqb sep) noise = true -> lua_ign sep = false -> sep <> UEof ->
    exists e1 e2 v1 v2, e = e1 ++ e2 /\ vs = encode v1 :: v2 /\ tok UIdentifier v1 e1 /\ does (fun _ g => while_eat g sep (want UIdentifier)) e2 (fun k => k <> sep) (map (IT UIdentifier) v2) /\ headed e2 /\ (e2 = [] \/ starts e2 sep).
  Proof.
    intros Nm No Ig Ne. induction Nm as [e s T | e c r s x vs T Tc Nm (e1 & e2 & v1 & v2 & -> & -> & T1 & D & Hd & _)].
    - exists e, [], s, []. rewrite app_nil_r. split; [reflexivity|]. split; [reflexivity|]. split; [exact T|]. split; [|split; [exact I | now left]]. apply (does_while_none sep (fun _ => want UIdentifier)); [exact Ne | auto].
    - exists e, (c ++ e1 ++ e2), s, (encode v1 :: v2). split; [reflexivity|]. split; [reflexivity|]. split; [exact T|]. split; [|split; [apply headed_app; [exact (tok_headed _ _ _ Tc Ig) | apply headed_app; [exact (tok_headed _ _ _ T1 eq_refl) | exact Hd]] | right; apply starts_app, (tok_starts _ x), Tc]].
      change (map (IT UIdentifier) (encode v1 :: v2)) with ([] ++ its_tok UIdentifier v1 ++ map (IT UIdentifier) v2). replace [] with (its_tok sep x) by (unfold its_tok; now rewrite No).
      apply (does_while_more sep x c (fun _ => want UIdentifier) e1 e2 always _ _ _ Tc (does_want _ _ _ T1) D (tok_headed _ _ _ T1 eq_refl) Hd). intros; exact I.
  Qed.
  Lemma stmt_generic k a n i e t b d s s1 x y vs es ss : tok UFor s a -> names UComma n vs -> tok UIn s1 i -> pes e es -> tok UDo x t -> pblock UEnd b ss -> tok UEnd y d -> pstmt k (a ++ n ++ i ++ e ++ t ++ b ++ d) (SGeneric vs es ss).
  Proof.
    intros Ta Nm Ti Pe Tt Pb Td. pose proof (tok_headed _ _ _ Ta eq_refl) as Ha. pose proof (tok_headed _ _ _ Ti eq_refl) as Hi. pose proof (tok_headed _ _ _ Tt eq_refl) as Ht. pose proof (tok_headed _ _ _ Td eq_refl) as Hd. pose proof (expr_headed _ (pes_begins _ _ Pe)) as He. pose proof Pb as (_ & Hb & _).
    destruct (names_split _ _ _ Nm eq_refl eq_refl ltac:(discriminate)) as (n1 & n2 & v1 & v2 & -> & -> & T1 & Dn & Hn & Sn). pose proof (tok_headed _ _ _ T1 eq_refl) as Hn1.
    apply (pstmt_of UFor k (fun f g => for_ (E f) (B f) g)); [apply starts_app, (tok_starts _ s), Ta | cbn; tauto | | by_first]. replace (a ++ (n1 ++ n2) ++ i ++ e ++ t ++ b ++ d) with (a ++ n1 ++ (n2 ++ i ++ e) ++ t ++ b ++ d) by now rewrite <- !app_assoc.
    unfold for_. eapply stmt_node; [|discriminate|].
    - eapply does_weak; [|intros z _; exact I]. eapply does_seq; [exact (does_want _ _ _ Ta) | | hd | intros; exact I]. eapply does_seq; [exact (does_want _ _ _ T1) | | hd | intros; exact I]. eapply (does_seq _ _ _ _ ends_list).
      + apply does_if_eat_no; [discriminate | | hd | intros z _; destruct Sn as [-> | Sn]; [cbn [app]; rewrite first_app by exact Hi; rewrite (tok_first _ _ _ _ Ti); discriminate | rewrite first_app by exact Hn; rewrite (starts_first _ _ _ Sn); discriminate]].
        eapply does_seq; [exact Dn | | hd | intros z _; rewrite first_app by exact Hi; rewrite (tok_first _ _ _ _ Ti); discriminate]. eapply does_seq; [exact (does_want _ _ _ Ti) | exact (pes_does _ _ Pe) | exact He | intros; exact I].
      + eapply does_seq; [exact (does_want _ _ _ Tt) | | hd | intros; exact I]. eapply does_seq; [exact (block_does _ _ _ Pb ltac:(cbn; tauto)) | exact (does_want _ _ _ Td) | exact Hd | intros z _; exact (tok_first _ _ _ _ Td)].
      + hd.
      + intros z _. rewrite first_app by exact Ht. rewrite (tok_first _ _ _ _ Tt). split; [exact do_over | discriminate].
    - intros l0 Sh. change (option_map for_of (each b_for l0 ([], [], [], (false, false, false))) = Some (Some (SGeneric (encode v1 :: v2) es ss))).
      rewrite (each_shown _ l0 _ m_for s_for Sh _ (encode v1 :: v2, es, ss, (true, true, false))); [reflexivity|].
      change (its_tok UFor s) with (@nil (part F)). change (its_tok UEnd y) with (@nil (part F)). change (its_tok UDo x) with [IT (F := F) UDo (encode x)]. change (its_tok UIn s1) with [IT (F := F) UIn (encode s1)]. change (its_tok UIdentifier v1) with (map (IT (F := F) UIdentifier) [encode v1]).
      rewrite app_nil_r. match goal with |- each b_for (map canon ?L) _ = _ => replace L with (map (IT (F := F) UIdentifier) (encode v1 :: v2) ++ IT UIn (encode s1) :: map IE es ++ IT UDo (encode x) :: map IS ss) by (cbn [app map]; rewrite <- ?app_assoc; reflexivity) end.
      rewrite map_app, (each_app _ _ _ _ _ (ev_for_names (encode v1 :: v2) [] [] [] false false)). change (each b_for (map canon (map IE es ++ IT UDo (encode x) :: map IS ss)) (encode v1 :: v2, [], [], (false, true, false)) = Some (encode v1 :: v2, es, ss, (true, true, false))).
      rewrite map_app, (each_app _ _ _ _ _ (ev_for_exprs es _ [] [] true false)). exact (ev_for_body ss _ _ [] _ _).
  Qed.
  Lemma stmt_repeat k a b u c s x l m ss v : tok URepeat s a -> pblock UUntil b ss -> tok UUntil x u -> pe l m c v -> over k -> pstmt k (a ++ b ++ u ++ c) (SRepeat ss v).
  Proof.
    intros Ta Pb Tu (Pc & Bc & _) Ok. pose proof (tok_headed _ _ _ Ta eq_refl) as Ha. pose proof (tok_headed _ _ _ Tu eq_refl) as Hu. pose proof (expr_headed _ Bc) as Hc. pose proof Pb as (_ & Hb & _).
    apply (pstmt_of URepeat k (fun f g => repeat_ (E f) (B f))); [apply starts_app, (tok_starts _ s), Ta | cbn; tauto | | by_first]. unfold repeat_. eapply stmt_node; [|discriminate|].
    - eapply (does_weak _ _ over); [|intros z ->; exact Ok]. eapply does_seq; [exact (does_want _ _ _ Ta) | | hd | intros; exact I]. eapply does_seq; [exact (block_does _ _ _ Pb ltac:(cbn; tauto)) | | hd | intros z _; rewrite first_app by exact Hu; exact (tok_first _ _ _ _ Tu)].
      eapply does_seq; [exact (does_want _ _ _ Tu) | exact (does_expr l m c v Pc) | exact Hc | intros; exact I].
    - intros l0 Sh. change (option_map (fun a => let '(b, cond, _) := a in option_map (SRepeat b) cond) (each b_repeat l0 ([], None, false)) = Some (Some (SRepeat ss v))).
      rewrite (each_shown _ l0 _ m_repeat s_repeat Sh _ (ss, Some v, true)); [reflexivity|]. change (its_tok URepeat s) with (@nil (part F)). cbn [app]. rewrite map_app, (each_app _ _ _ _ _ (ev_repeat ss [] None)). reflexivity.
  Qed.
  Lemma stmt_function k a n e s vs ps va ss : tok UFunction s a -> names UDot n vs -> pfunc e ps va ss -> pstmt k (a ++ n ++ e) (SFunction vs None ps va ss).
  Proof.
    intros Ta Nm ((x1 & its & x3 & V & D) & St1). pose proof (names_headed _ _ _ Nm) as Hn. pose proof (starts_headed _ _ St1 eq_refl) as He. apply (pstmt_of UFunction k (fun f _ => function (B f) f)); [apply starts_app, (tok_starts _ s), Ta | cbn; tauto | | by_first].
    unfold function. eapply stmt_node; [|discriminate|].
    - eapply does_weak; [|intros z _; exact I]. eapply does_seq; [exact (does_want _ _ _ Ta) | | hd | intros; exact I].
      apply (does_assoc (fun _ _ => want UIdentifier) (fun f _ => while_eat f UDot (want UIdentifier)) (fun f _ => if_eat UColon (want UIdentifier) nop ;; body (B f) f)). eapply (does_seq (fun f _ => want UIdentifier ;; while_eat f UDot (want UIdentifier))).
      + exact (does_diag _ _ _ _ (does_names UDot n vs Nm eq_refl eq_refl ltac:(discriminate))).
      + change e with ([] ++ e). eapply (does_seq _ _ _ _ (fun z => z = ULeftParen)); [| exact D | exact He | intros z _; exact (starts_first _ _ _ St1)]. apply does_if_eat_no; [discriminate | apply does_nop | exact I | intros z ->; discriminate].
      + exact He.
      + intros z _. rewrite (starts_first _ _ _ St1). discriminate.
    - intros l0 Sh. change (option_map (fun a => let '(name, recv, ps, va, b, _) := a in Some (SFunction name recv ps va b)) (each b_declaration l0 ([], None, [], false, [], 0)) = Some (Some (SFunction vs None ps va ss))).
      rewrite (each_shown _ l0 _ m_declaration s_declaration Sh _ (vs, None, ps, va, ss, 2)); [reflexivity|]. change (its_tok UFunction s) with (@nil (part F)). cbn [app]. rewrite map_app, (each_app _ _ _ _ _ (ev_decl_names vs [] None [] false [])). cbn [app map each canon b_declaration]. cbn [Nat.eqb ULeftParen UIdentifier UDotDotDot URightParen UColon].
      rewrite map_app, (each_app _ _ _ _ _ (ev_decl_params ps vs None [] false [])). destruct va; [destruct V as (x & ->) | rewrite V]; exact (ev_decl_body ss vs None ps _ []).
  Qed.
  Lemma stmt_break k a s : tok UBreak s a -> pstmt k a SBreak.
  Proof.
    intros Ta. apply (pstmt_of UBreak k (fun _ _ => break)); [exact (tok_starts _ _ _ Ta) | cbn; tauto | | by_first]. unfold break. eapply stmt_node; [|discriminate|].
    - eapply does_weak; [exact (does_want _ _ _ Ta) | intros; exact I].
    - intros l0 _. reflexivity.
  Qed.
  Lemma stmt_do k a b d s x ss : tok UDo s a -> pblock UEnd b ss -> tok UEnd x d -> pstmt k (a ++ b ++ d) (SDo ss).
  Proof.
    intros Ta Pb Td. pose proof (tok_headed _ _ _ Td eq_refl) as Hd. pose proof Pb as (_ & Hb & _). apply (pstmt_of UDo k (fun f _ => do_ (B f))); [apply starts_app, (tok_starts _ s), Ta | cbn; tauto | | by_first]. unfold do_. eapply stmt_node; [|discriminate|].
    - eapply does_weak; [|intros z _; exact I]. eapply does_seq; [exact (does_want _ _ _ Ta) | | hd | intros; exact I]. eapply does_seq; [exact (block_does _ _ _ Pb ltac:(cbn; tauto)) | exact (does_want _ _ _ Td) | exact Hd | intros z _; exact (tok_first _ _ _ _ Td)].
    - intros l0 Sh. change (option_map (fun b => Some (SDo b)) (each b_do l0 []) = Some (Some (SDo ss))). rewrite (each_shown _ l0 _ m_do s_do Sh _ ss); [reflexivity|]. change (its_tok UEnd x) with (@nil (part F)). rewrite app_nil_r. exact (ev_do ss []).
  Qed.
  Lemma stmt_goto k a n s x : tok UGoto s a -> tok UIdentifier x n -> pstmt k (a ++ n) (SGoto (encode x)).
  Proof.
    intros Ta Tn. apply (pstmt_of UGoto k (fun _ _ => goto)); [apply starts_app, (tok_starts _ s), Ta | cbn; tauto | | by_first]. unfold goto. eapply stmt_node; [|discriminate|].
    - eapply does_weak; [|intros z _; exact I]. eapply does_seq; [exact (does_want _ _ _ Ta) | exact (does_want _ _ _ Tn) | exact (tok_headed _ _ _ Tn eq_refl) | intros; exact I].
    - intros l0 Sh. change (option_map (option_map SGoto) (each b_label l0 None) = Some (Some (SGoto (F := F) (encode x)))). now rewrite (each_shown _ l0 _ m_label s_label Sh _ (Some (encode x))).
  Qed.
  Lemma stmt_label k a n b s x t : tok UColonColon s a -> tok UIdentifier x n -> tok UColonColon t b -> pstmt k (a ++ n ++ b) (SLabel (encode x)).
  Proof.
    intros Ta Tn Tb. pose proof (tok_headed _ _ _ Tn eq_refl) as Hn. pose proof (tok_headed _ _ _ Tb eq_refl) as Hb. apply (pstmt_of UColonColon k (fun _ _ => label)); [apply starts_app, (tok_starts _ s), Ta | cbn; tauto | | by_first]. unfold label. eapply stmt_node; [|discriminate|].
    - eapply does_weak; [|intros z _; exact I]. eapply does_seq; [exact (does_want _ _ _ Ta) | | hd | intros; exact I]. eapply does_seq; [exact (does_want _ _ _ Tn) | exact (does_want _ _ _ Tb) | exact Hb | intros; exact I].
    - intros l0 Sh. change (option_map (option_map SLabel) (each b_label l0 None) = Some (Some (SLabel (F := F) (encode x)))). now rewrite (each_shown _ l0 _ m_label s_label Sh _ (Some (encode x))).
  Qed.

  (** *** All forms at once *)
  Scheme expr_min := Minimality for is_expr Sort Prop
    with exprs_min := Minimality for is_exprs Sort Prop
    with args_min := Minimality for is_args Sort Prop
    with table_min := Minimality for is_table Sort Prop
    with fields_min := Minimality for is_fields Sort Prop
    with field_min := Minimality for is_field Sort Prop
    with func_min := Minimality for is_func Sort Prop
    with block_min := Minimality for is_block Sort Prop
    with stmt_min := Minimality for is_stmt Sort Prop
    with step_min := Minimality for is_step Sort Prop
    with alternatives_min := Minimality for is_alternatives Sort Prop.
  Lemma block_parsed k e vs : is_block parse k e vs -> pblock k e vs.
  Proof.
    apply (block_min F parse pe pes pargs ptable pfields pfield pfunc pblock pstmt pstep palt); intros.
    - eapply pratt_literal; eassumption.
    - eapply pratt_name; eassumption.
    - destruct H1 as (P & Be & _). eapply pratt_paren; eassumption.
    - eapply pe_function; eassumption.
    - eapply pe_table; eassumption.
    - eapply pe_member; eassumption.
    - eapply pe_call; eassumption.
    - eapply pe_unary; eassumption.
    - eapply pe_binary; eassumption.
    - eapply pes_one; eassumption.
    - eapply pes_more; eassumption.
    - eapply pargs_none; eassumption.
    - eapply pargs_some; eassumption.
    - eapply pargs_table; eassumption.
    - eapply pargs_string; eassumption.
    - eapply ptable_of; eassumption.
    - apply pfields_none.
    - eapply pfields_one; eassumption.
    - eapply pfields_more; eassumption.
    - eapply pfield_list; eassumption.
    - eapply pfield_named; eassumption.
    - eapply pfunc_of; eassumption.
    - apply pblock_none.
    - eapply pblock_more; eassumption.
    - eapply stmt_local; eassumption.
    - eapply stmt_local_values; eassumption.
    - eapply stmt_assign; eassumption.
    - eapply stmt_expr; eassumption.
    - eapply stmt_return; eassumption.
    - eapply stmt_return_values; eassumption.
    - eapply stmt_if; eassumption.
    - eapply stmt_while; eassumption.
    - eapply stmt_numeric; eassumption.
    - eapply stmt_generic; eassumption.
    - eapply stmt_repeat; eassumption.
    - eapply stmt_function; eassumption.
    - eapply stmt_break; eassumption.
    - eapply stmt_do; eassumption.
    - eapply stmt_goto; eassumption.
    - eapply stmt_label; eassumption.
    - apply pstep_none.
    - eapply pstep_some; eassumption.
    - eapply palt_none; eassumption.
    - eapply palt_else; eassumption.
    - eapply palt_elseif; eassumption.
  Qed.
End Run.

(** ** The whole text *)
Section Whole.
  Context {F : Type} (parse : str -> option F) (cs : list Z) (ps : list piece).
  Hypothesis Sc : Forall is_scalar cs.
  Hypothesis Md : mild cs.
  Hypothesis Len : (Z.of_nat (length (encode cs)) < 2 ^ 32)%Z.
  Hypothesis C : cut lua_piece cs ps.
  Let n := length (encode cs).
  Let toks := spans 0 ps ++ [Token UEof n n].
  Let Hf : (Z.of_nat (toklen toks) < 2 ^ 32)%Z := LuaProofs.toks_fit cs ps Len C.

  Lemma last_offset s trees : sits toks s [(UEof, 0)] trees -> current_offset s = n.
  Proof.
    intros (rest & (T & _ & R & Q) & Y). destruct rest as [| t [| t' rest]]; [discriminate | | discriminate]. assert (t = Token UEof n n) as ->.
    { assert (L : last toks t = t) by (rewrite <- (firstn_skipn (ps_index s) toks), R, last_last; reflexivity). rewrite <- L. unfold toks. apply last_last. }
    unfold current_offset, ps_current. rewrite T. assert (X : nth_error toks (ps_index s) = Some (Token UEof n n)); [|now rewrite X]. rewrite <- (firstn_skipn (ps_index s) toks), R.
    pose proof (f_equal (@length token) R) as L. rewrite skipn_length in L. cbn in L. rewrite nth_error_app2; rewrite firstn_length_le by lia; [now rewrite Nat.sub_diag | lia].
  Qed.
  Lemma eof_statement f s trees : 2 <= f -> sits toks s [(UEof, 0)] trees ->
    exists s', St f s = Some s' /\ sits toks s' [] (trees ++ [gnode UExprStmt [gnode UError [yleaf (UEof, 0)]]]) /\ ps_errs s' = ps_errs s ++ [(0, n)].
  Proof.
    intros Lf S. destruct f as [| [| f]]; [lia | lia|]. pose proof (LuaProofs.peek_sits toks s _ _ S) as P. cbn [hd_error option_map fst] in P.
    assert (X : exists s1, E (Datatypes.S (Datatypes.S f)) 0 s = Some s1 /\ sits toks s1 [] (trees ++ [gnode UError [yleaf (UEof, 0)]]) /\ ps_errs s1 = ps_errs s ++ [(0, n)]).
    { change (E (Datatypes.S (Datatypes.S f)) 0) with (lua_pratt (E (Datatypes.S f)) (B (Datatypes.S f)) (Datatypes.S f) 0). unfold lua_pratt, lua_prefix. rewrite P. change (existsb (Nat.eqb UEof) [UMinus; UNot; UHash; UTilde]) with false. cbv iota. unfold primary_. rewrite P. cbv zeta.
      cbn [existsb Nat.eqb UEof UNil UFalse UTrue UNumber UString UDotDotDot UIdentifier UFunction ULeftParen ULeftBrace URightParen URightBrace URightBracket UComma USemicolon UEnd UElse UElseif UUntil orb]. rewrite (sits_end _ _ _ _ S).
      assert (S0 : sits toks (expected s) [(UEof, 0)] trees) by exact S. destruct (sits_bump lua_ign toks Hf _ _ _ _ S0) as [S1 R1]. cbn [ynext ytrivia map] in S1. unfold node_at, lua_bump, checkpoint. change (ps_sink (expected s)) with (ps_sink s). rewrite (sits_sink _ _ _ _ S).
      destruct (sits_finish lua_ign toks Hf _ _ trees _ (ps_index (expected s)) UError S1) as (i & s2 & F2 & S2 & R2). rewrite F2. exists s2. split; [|split; [exact S2 | rewrite R2, R1; unfold expected; rewrite (last_offset s trees S); reflexivity]].
      cbn [pratt_loop]. unfold lua_infix. rewrite (LuaProofs.peek_sits toks s2 _ _ S2). reflexivity. }
    destruct X as (s1 & E1 & S1 & R1). assert (St (Datatypes.S (Datatypes.S f)) s = plain (E (Datatypes.S (Datatypes.S f))) (Datatypes.S (Datatypes.S f)) s) as -> by (unfold St, statement; rewrite P; reflexivity).
    unfold plain. rewrite E1. rewrite (sits_at _ _ _ _ UComma S1), (sits_at _ _ _ _ UEq S1). cbn [orb]. unfold dropped, node_at, nop, checkpoint. rewrite (sits_sink _ _ _ _ S).
    destruct (sits_finish lua_ign toks Hf s1 _ trees _ (ps_index s) UExprStmt S1) as (i & s2 & F2 & S2 & R2). rewrite F2. cbn [option_map snd]. exists s2. unfold may, eat. rewrite (sits_at _ _ _ _ USemicolon S2). split; [reflexivity|]. split; [exact S2 | congruence].
  Qed.
  Lemma text_built vs : is_block parse UEof ps vs -> exists N, forall fuel, N <= fuel -> lua_build parse fuel (encode cs) = Some (vs, n, [(0, n)]).
  Proof.
    intros Bl. destruct (block_parsed parse cs toks Sc Hf UEof ps vs Bl) as ((N & j & J & H) & Hd & _). exists (N + 3). intros fuel Lf. unfold lua_build, lua_tree. rewrite (LuaProofs.toks_lexed cs ps Sc Md C). fold n. fold toks.
    destruct (sits_new lua_ign toks Hf n []) as [S Er]. assert (Ty : map tok_yield toks = Y ps ++ [(UEof, 0)]) by exact (LuaProofs.toks_yield cs ps). rewrite Ty in S. destruct (ytrivia_pieces [] (Y ps ++ [(UEof, 0)]) (Forall_nil _) (quiet_Y ps [(UEof, 0)] Hd eq_refl)) as [T1 T2]. cbn [Y flat_map app] in T1, T2. fold (Y ps) in T1, T2. rewrite T1, T2 in S. cbn [map] in S.
    set (s0 := ps_new lua_ign toks n []) in *. destruct (H fuel fuel [] ltac:(lia) ltac:(lia) ltac:(intros x []) s0 [(UEof, 0)] [] S eq_refl eq_refl) as (s1 & ch & E1 & S1 & R1 & L1 & C1). cbn [app] in S1.
    destruct (eof_statement fuel s1 ch ltac:(lia) S1) as (s2 & E2 & S2 & R2). unfold lua_root, node_at. change (statement (fun min => lua fuel (Some min)) (lua fuel None) fuel) with (St fuel). rewrite E1. replace (fuel - j) with (Datatypes.S (Datatypes.S (fuel - j - 2))) by lia. cbn [while_not]. rewrite (sits_end _ _ _ _ S1). cbn [existsb negb andb]. unfold seq. rewrite E2. rewrite (sits_end _ _ _ _ S2). cbn [andb].
    unfold checkpoint. rewrite (sits_sink _ _ _ _ S). cbn [length]. destruct (sits_finish lua_ign toks Hf s2 [] [] _ (ps_index s0) USourceFile S2) as (i & s3 & F3 & S3 & R3). cbn [length] in F3. rewrite F3. cbn [snd]. rewrite R3, R2, R1, Er. cbn [app]. unfold root_of, gnode at 1.
    assert (P0 : placed cs ps 0). { exists [], []. split; [|reflexivity]. cbn [app]. rewrite app_nil_r. symmetry. exact (cut_text _ _ _ C). }
    rewrite children_app. rewrite (each_app _ _ _ _ vs); [|apply (each_shown _ _ _ m_do s_do (C1 0 P0)); exact (ev_do vs [])]. rewrite map_app, list_sum_app, L1. unfold plen. rewrite (cut_text _ _ _ C).
    cbn [children gnode map list_sum fold_right]. cbn [built]. cbn. rewrite !Nat.add_0_r. reflexivity.
  Qed.
End Whole.
