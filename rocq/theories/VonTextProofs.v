(** VON texts: reading and writing *)
From Verif Require Import Base Utf8 Utf8Facts VfsModel LexModel TreeModel TreeSpec ParserModel ParserSpec ParserProofs JsonLangSpec LangModel LangSpec LangLexProofs LangParseProofs VonModel VonSpec.
From Verif Require VonLexProofs.
From Verif Require Import VonProofs VonGrammarProofs VonBuildProofs.

(** ** Pieces *)
Lemma piece_some k s r : von_piece k s r -> exists k0, k = Some k0 /\ k0 <> NEof.
Proof.
  intros P. destruct P; try (eexists; split; [reflexivity | discriminate]).
  - exists k. split; [reflexivity|]. destruct H2 as [[_ ->] | [[_ ->] | [_ ->]]]; discriminate.
  - exists k. split; [reflexivity|]. unfold marks in H. cbn in H. intuition; match goal with X : (_, _) = (_, _) |- _ => injection X as <- <- end; discriminate.
Qed.
Lemma piece_string s r : von_piece (Some NString) s r -> exists b, content s b.
Proof.
  intros P. inversion P as [| | | | | c s' r' k Hc Hr Ho Hk E1 E2 E3 | | p q r' Hp Hq He | p q n b r' Hp Hq N0 N2 Ne Nb He Hd | q b r' Hq Nb Hl | | | s' k r' Hm E1 E2 E3 |]; subst.
  - destruct Hk as [[_ X] | [[_ X] | [_ X]]]; discriminate.
  - exists []. now constructor.
  - exists b. now apply CoFull.
  - exists b. change (q :: b ++ [q]) with ([] ++ repeat q 1 ++ b ++ repeat q 1). apply CoFull; [now left | assumption | discriminate | discriminate | assumption|]. apply VonLexProofs.body_ends; [now apply VonLexProofs.quote_plain | assumption].
  - unfold marks in Hm. cbn in Hm. intuition discriminate.
Qed.
Lemma cut_some cs ps : cut von_piece cs ps -> Forall (fun p => fst p <> None) ps /\ Forall (fun p => kind p <> NEof) ps /\ Forall (fun p => fst p = Some NString -> exists b, content (snd p) b) ps.
Proof.
  induction 1 as [| k s r ps _ P _ (IH1 & IH2 & IH3)]; [repeat constructor|]. destruct (piece_some k s r P) as (k0 & -> & Nk). split; [constructor; [discriminate | assumption]|]. split; [constructor; [exact Nk | assumption]|]. constructor; [|assumption]. cbn. intros E. injection E as ->. now apply (piece_string s r).
Qed.
Lemma yields_pieces ps : Forall (fun p => fst p <> None) ps -> flat_map piece_yield ps = map yield ps.
Proof. induction 1 as [| [k s] r H _ IH]; [reflexivity|]. destruct k as [k|]; [|easy]. cbn. now rewrite IH. Qed.
Lemma tdrop_all w qs : Forall trivia w -> settled qs -> Forall (fun p => fst p <> None) qs -> tdrop (w ++ qs) = qs /\ trun (w ++ qs) = w.
Proof. intros F S N. pose proof (rest_settled qs S N) as R. destruct (trun_all w qs F R). now split. Qed.

(** ** The parser on a text *)
Definition bound (ps : list piece) : nat := S (length (spans 0 ps)).
Lemma bound_length ps : Forall (fun p => fst p <> None) ps -> bound ps = S (length ps).
Proof.
  unfold bound. generalize 0 as off. intros off H. revert off. induction H as [| [k s] r H _ IH]; intros off; [reflexivity|]. destruct k as [k|]; [|easy]. cbn [spans app length]. specialize (IH (off + length (encode s))). lia.
Qed.
Lemma parse_view cs ps w qs : Forall is_scalar cs -> (Z.of_nat (length (encode cs)) < 2 ^ 32)%Z -> cut von_piece cs ps -> ps = w ++ qs -> Forall trivia w -> settled qs ->
  exists root errs, von_parse (encode cs) = Some (root, errs) /\
    (exists ts used rest, root = gnode NRoot ts /\ qs = used ++ rest /\ covers ts used) /\
    match r_body (bound ps) qs with Some (ts, r) => root = gnode NRoot ts /\ errs = [] /\ at_rest r | None => errs <> [] end.
Proof.
  intros Sc L C Eps Fw Se. destruct (cut_some cs ps C) as (N & _ & _). destruct (VonLexProofs.von_lex_cut cs Sc) as (ps' & C' & El). assert (ps' = ps) as -> by (symmetry; exact (cut_unique von_piece cs ps VonLexProofs.von_pieces_unique C ps' C')).
  unfold von_parse. rewrite El. set (toks := spans 0 ps). assert (Hfit : (Z.of_nat (toklen toks) < 2 ^ 32)%Z) by (pose proof (toklen_spans ps 0) as T; rewrite (cut_text _ _ _ C) in T; unfold toks; lia).
  destruct (sits_new von_ignored toks Hfit (length (encode cs)) []) as [A E]. unfold toks in A at 3 4. rewrite spans_yields, (yields_pieces ps N) in A. destruct (yield_trivia ps) as [Y1 Y2]. rewrite Y1, Y2 in A.
  assert (Nq : Forall (fun p => fst p <> None) qs) by (rewrite Eps in N; now apply Forall_app in N). destruct (tdrop_all w qs Fw Se Nq) as [Td Tr]. rewrite Eps, Td, Tr in A.
  destruct (root_view toks Hfit _ qs _ [] (conj A (rest_settled qs Se Nq)) E) as (root & new & R & Cv & M). exists root, new. split; [exact R|]. split; [exact Cv | exact M].
Qed.
(** Every text splits into its leading blanks and the rest *)
Lemma split_trivia ps : Forall (fun p => fst p <> None) ps -> exists w qs, ps = w ++ qs /\ Forall trivia w /\ settled qs.
Proof.
  intros N. exists (trun ps), (tdrop ps). split; [symmetry; apply trun_drop|]. split; [|apply settled_rest, tdrop_rest].
  induction N as [| p r H _ IH]; [constructor|]. cbn. destruct (trivial p) eqn:T; [|constructor]. constructor; [now apply trivial_trivia | assumption].
Qed.

Section Texts.
  Variable F : Type.
  Variable parse : str -> option F.

  (** No diagnostics exactly for documents *)
  Lemma reads_document cs ps w e r o t v : Forall is_scalar cs -> (Z.of_nat (length (encode cs)) < 2 ^ 32)%Z -> cut von_piece cs ps -> ps = w ++ e ++ r -> Forall trivia w -> settled r -> document parse o e r t v ->
    von_parse (encode cs) = Some (gnode NRoot [t], []).
  Proof.
    intros Sc L C Eps Fw Sr D. destruct (cut_some cs ps C) as (N & _ & _). assert (Nr : Forall (fun p => fst p <> None) (e ++ r)) by (rewrite Eps in N; now apply Forall_app in N).
    assert (Rr : at_rest r) by (apply rest_settled; [assumption | now apply Forall_app in Nr]).
    assert (Lb : length (e ++ r) < bound ps) by (rewrite (bound_length ps N), Eps, (app_length w); lia). destruct (body_complete F parse (bound ps) o e r t v D Rr Lb) as [B Bg].
    assert (Se : settled (e ++ r)) by (apply settled_rest, (rest_begins [NLeftBrace; NLeftBracket; NIdentifier; NString; NNumber; NBool; NNull]); [now apply begins_app | reflexivity]).
    destruct (parse_view cs ps w (e ++ r) Sc L C Eps Fw Se) as (root & errs & -> & _ & M). rewrite B in M. destruct M as (-> & -> & _). reflexivity.
  Qed.
  Lemma document_read cs ps w qs : Forall is_scalar cs -> (Z.of_nat (length (encode cs)) < 2 ^ 32)%Z -> cut von_piece cs ps -> ps = w ++ qs -> Forall trivia w -> settled qs ->
    Forall (fun p => fst p = Some NNumber -> exists x, parse (encode (without_underscores (snd p))) = Some x) qs ->
    forall root, von_parse (encode cs) = Some (root, []) -> exists e r t, qs = e ++ r /\ settled r /\ root = gnode NRoot [t] /\ forall o, exists v, document parse o e r t v.
  Proof.
    intros Sc L C Eps Fw Se Pn root Hp. destruct (cut_some cs ps C) as (N & Ne & Ns). rewrite Eps in N, Ne, Ns. apply Forall_app in N, Ne, Ns. destruct N as [_ N], Ne as [_ Ne], Ns as [_ Ns].
    assert (G : Forall (good F parse) qs). { clear - N Ns Pn. induction N as [| [k s] l H _ IH]; [constructor|]. inversion Ns; inversion Pn; subst. constructor; [|now apply IH]. unfold good. cbn [fst snd] in *. destruct k as [k|]; [|easy]. split; intros ->; auto. }
    destruct (parse_view cs ps w qs Sc L C Eps Fw Se) as (root' & errs & Hp' & _ & M). rewrite Hp' in Hp. injection Hp as -> ->. destruct (r_body (bound ps) qs) as [[ts r]|] eqn:B; [|now destruct M]. destruct M as (-> & _ & Re).
    destruct (body_sound F parse (bound ps) qs ts r G Ne B) as (e & t & -> & -> & D). exists e, r, t. split; [reflexivity|]. split; [now apply settled_rest|]. split; [reflexivity | assumption].
  Qed.
  Lemma built_document cs ps e r t v : Forall is_scalar cs -> (Z.of_nat (length (encode cs)) < 2 ^ 32)%Z -> cut von_piece cs ps -> ps = e ++ r -> settled r -> document parse 0 e r t v ->
    von_build parse (encode cs) = Some (Some v, []).
  Proof.
    intros Sc L C Eps Sr D. unfold von_build. rewrite (reads_document cs ps [] e r 0 t v Sc L C Eps (Forall_nil _) Sr D).
    assert (H : here (encode cs) 0 e). { exists [], (text_of_pieces r). cbn [app]. rewrite <- text_app, <- Eps, (cut_text _ _ _ C). repeat split. assumption. }
    destruct (document_built F parse (encode cs) 0 e r t v D H) as ((k & ch & ->) & _ & B). change (option_map (fun x => (x, @nil (nat * nat))) (build_value F parse (encode cs) (gnode k ch) 0) = Some (Some v, [])). now rewrite B.
  Qed.
  Lemma no_panic cs ps qs : Forall is_scalar cs -> (Z.of_nat (length (encode cs)) < 2 ^ 32)%Z -> cut von_piece cs ps -> settled ps -> qs = ps -> von_build parse (encode cs) <> None.
  Proof.
    intros Sc L C Se ->. destruct (parse_view cs ps [] ps Sc L C eq_refl (Forall_nil _) Se) as (root & errs & E & (ts & used & rest & -> & Eu & Cv) & _). unfold von_build. rewrite E. destruct (cut_some cs ps C) as (_ & _ & Ns).
    assert (H : here (encode cs) 0 used). { exists [], (text_of_pieces rest). cbn [app]. rewrite <- text_app, <- Eu, (cut_text _ _ _ C). repeat split. assumption. }
    rewrite Eu in Ns. apply Forall_app in Ns. pose proof (root_safe F parse (encode cs) ts used Cv (proj1 Ns) H) as R. now destruct (build_root F parse (encode cs) (gnode NRoot ts)).
  Qed.
End Texts.

(** ** Writing *)
Section VInd.
  Variable F : Type.
  Variable P : vvalue F -> Prop.
  Hypothesis HO : forall fs sp, Forall (fun f => P (snd (fst f))) fs -> P (VObject fs sp).
  Hypothesis HA : forall vs sp, Forall P vs -> P (VArray vs sp).
  Hypothesis HT : forall vs sp, Forall P vs -> P (VTuple vs sp).
  Hypothesis HE : forall n p sp, (forall v, p = Some v -> P v) -> P (VEnum n p sp).
  Hypothesis HS : forall v, match v with VObject _ _ | VArray _ _ | VTuple _ _ | VEnum _ _ _ => False | _ => True end -> P v.
  Fixpoint vind (v : vvalue F) : P v :=
    match v with
    | VObject fs sp => HO fs sp ((fix go (l : list (str * vvalue F * (nat * nat))) : Forall (fun f => P (snd (fst f))) l := match l with [] => Forall_nil _ | f :: r => Forall_cons f (vind (snd (fst f))) (go r) end) fs)
    | VArray vs sp => HA vs sp ((fix go (l : list (vvalue F)) : Forall P l := match l with [] => Forall_nil _ | f :: r => Forall_cons f (vind f) (go r) end) vs)
    | VTuple vs sp => HT vs sp ((fix go (l : list (vvalue F)) : Forall P l := match l with [] => Forall_nil _ | f :: r => Forall_cons f (vind f) (go r) end) vs)
    | VEnum n p sp => HE n p sp (fun v H => match p as q return q = Some v -> P v with Some x => fun H => match H in _ = y return match y with Some z => P z | None => True end with eq_refl => vind x end | None => fun H => match H with end end H)
    | v => HS v I
    end.
End VInd.

Section Print.
  Variable F : Type.
  Variables (parse : str -> option F) (show : F -> str).
  Notation printable := (printable parse show).

  Definition comma : piece := (Some NComma, lit ",").
  Fixpoint joined (l : list (list piece)) : list piece := match l with [] => [] | [e] => e | e :: r => e ++ comma :: joined r end.
  Fixpoint pieces (v : vvalue F) : list piece :=
    match v with
    | VObject fs _ => (Some NLeftBrace, lit "{") :: joined (map (fun f => (Some NIdentifier, fst (fst f)) :: (Some NEq, lit "=") :: pieces (snd (fst f))) fs) ++ [(Some NRightBrace, lit "}")]
    | VArray vs _ => (Some NLeftBracket, lit "[") :: joined (map pieces vs) ++ [(Some NRightBracket, lit "]")]
    | VString s _ => [(Some NString, lit """" ++ chars s ++ lit """")]
    | VNumber x _ => [(Some NNumber, show x)]
    | VBoolean b _ => [(Some NBool, if b then lit "true" else lit "false")]
    | VNull _ => [(Some NNull, lit "null")]
    | VEnum n (Some p) _ => (Some NIdentifier, n) :: (Some NWhitespace, lit " ") :: pieces p
    | VEnum n None _ => [(Some NIdentifier, n)]
    | _ => []
    end.

  (** What may follow a value *)
  Definition stops (r : list Z) : Prop := forall c, hd_error r = Some c -> c = 44%Z \/ c = 93%Z \/ c = 125%Z.
  Definition stopped (r : list piece) : Prop := r = [] \/ next_is [NComma; NRightBrace; NRightBracket] r.

  Lemma plain_piece n r k : plain_name n -> k = NIdentifier -> ends word r -> (forall q, quote q -> hd_error r <> Some q) -> von_piece (Some k) n r.
  Proof.
    intros (c & s & -> & Hc & Hs & N1 & N2 & N3) -> He Hq. apply PWord; [assumption | now split | |].
    - intros (q & x & Q & E). assert (Nq : ~ word q) by (unfold word, start, letter, digit; destruct Q as [-> | ->]; lia).
      assert (G : forall (p u v : list Z), Forall word u -> u ++ r = p ++ q :: v -> Forall word p -> u = p). 
      { induction p as [| y p IH]; intros [| z u] v Fu Eu Fp; [reflexivity | | |].
        - injection Eu as -> _. inversion Fu. contradiction.
        - cbn [app] in Eu. destruct r as [| d r']; [discriminate|]. injection Eu as -> _. inversion Fp. now destruct (He y eq_refl).
        - injection Eu as -> Eu. inversion Fu; inversion Fp; subst. f_equal. now apply (IH u v). }
      assert (Fr : Forall word (lit "raw")) by (repeat (apply Forall_cons; [left; left; unfold letter; cbn; lia|]); apply Forall_nil).
      specialize (G (lit "raw") (c :: s) x ltac:(constructor; [now left | assumption]) E Fr). rewrite <- (app_nil_r (c :: s ++ r)) in E. change (c :: s ++ r) with ((c :: s) ++ r) in E. rewrite G, app_nil_r in E. apply app_inv_head in E. subst r. now apply (Hq q Q).
    - right. right. now repeat split.
  Qed.
  Lemma stops_word r : stops r -> ends word r.
  Proof. intros S c E. destruct (S c E) as [-> | [-> | ->]]; unfold word, start, letter, digit; lia. Qed.
  Lemma stops_quote r q : stops r -> quote q -> hd_error r <> Some q.
  Proof. intros S Q E. destruct (S q E) as [-> | [-> | ->]]; destruct Q; discriminate. Qed.
  Lemma mark_piece c k r : In ([c], k) marks -> von_piece (Some k) [c] r.
  Proof. intros H. now apply PMark. Qed.
  Lemma cut_one k s r rs : s <> [] -> von_piece (Some k) s r -> cut von_piece r rs -> cut von_piece (s ++ r) ((Some k, s) :: rs).
  Proof. intros. now constructor. Qed.
  Lemma shown_number s r : number s [] -> stops r -> number s r.
  Proof.
    intros (i & f & e & Nu & _ & _) S. exists i, f, e. split; [assumption|]. split; [now apply stops_word|]. intros _ _ x y -> (t & -> & _). destruct (S 46%Z eq_refl) as [X | [X | X]]; discriminate.
  Qed.
  Lemma number_ne s r : number s r -> s <> [].
  Proof. intros N. apply VonLexProofs.number_head in N. destruct N as (c & x & -> & _). discriminate. Qed.

  (** The written text *)
  Lemma text_cons p (e : list piece) : text_of_pieces (p :: e) = snd p ++ text_of_pieces e.
  Proof. reflexivity. Qed.
  Lemma plain_ascii n : plain_name n -> ascii n.
  Proof.
    intros (c & s & -> & Hc & Hs & _). constructor; [unfold start, letter in Hc; lia|]. eapply Forall_impl; [|exact Hs]. intros x. unfold word, start, letter, digit. lia.
  Qed.
  Lemma number_ascii s r : number s r -> ascii s.
  Proof.
    intros (i & f & e & N & _ & _).
    assert (Fg : forall t, Forall figure t -> ascii t) by (intros t; apply Forall_impl; intros x; unfold figure, digit; lia).
    assert (Ff : forall t, figures t -> ascii t) by (intros t (d & u & -> & Hd & Hu); constructor; [unfold digit in Hd; lia | now apply Fg]).
    assert (Fs : forall t, spaced_figures t -> ascii t) by (intros t (u & d & v & -> & Hu & Hd & Hv); apply Forall_app; split; [eapply Forall_impl; [|exact Hu]; intros x <-; lia | constructor; [unfold digit in Hd; lia | now apply Fg]]).
    assert (Fe : forall t, maybe exponent t -> ascii t). { intros t [-> | (c & g & u & -> & Hc & Hg & Hu)]; [constructor|]. constructor; [lia|]. apply Forall_app. split; [destruct Hg as [-> | [-> | ->]]; repeat constructor; lia|]. destruct Hu as [Hu | (u' & -> & Hu)]; [now apply Ff|]. apply Forall_app. split; [repeat constructor; lia | now apply Ff]. }
    destruct N as [m i f e Hm Hi Hf He | f e Hf He].
    - apply Forall_app. split; [destruct Hm as [-> | ->]; repeat constructor; lia|]. apply Forall_app. split; [now apply Ff|]. apply Forall_app. split; [|now apply Fe]. destruct Hf as [-> | (t & -> & Ht)]; [constructor|]. apply Forall_app. split; [repeat constructor; lia | now apply Fs].
    - apply Forall_app. split; [repeat constructor; lia|]. apply Forall_app. split; [now apply Ff | now apply Fe].
  Qed.
  Lemma joined_text l ss : Forall2 (fun e s => encode (text_of_pieces e) = s) l ss -> encode (text_of_pieces (joined l)) = von_join ss.
  Proof.
    induction 1 as [| e s l ss E H IH]; [reflexivity|]. destruct H as [| e' s' l ss E' H]; [exact E|]. change (joined (e :: e' :: l)) with (e ++ comma :: joined (e' :: l)). change (von_join (s :: s' :: ss)) with (s ++ lit "," ++ von_join (s' :: ss)). rewrite text_app, encode_app, E, text_cons, encode_app, IH. reflexivity.
  Qed.
  Lemma printed v : printable v -> encode (text_of_pieces (pieces v)) = von_print show v /\ Forall is_scalar (text_of_pieces (pieces v)).
  Proof.
    assert (As : forall s, ascii s -> Forall is_scalar s) by (intros s; apply Forall_impl; intros x; unfold is_scalar; lia).
    assert (Js : forall l, Forall (fun e => Forall is_scalar (text_of_pieces e)) l -> Forall is_scalar (text_of_pieces (joined l))).
    { induction 1 as [| e l H Hl IH]; [constructor|]. destruct l as [| e' l]; [exact H|]. change (joined (e :: e' :: l)) with (e ++ comma :: joined (e' :: l)). rewrite text_app, text_cons. apply Forall_app. split; [assumption|]. apply Forall_app. split; [apply As; repeat constructor; lia | assumption]. }
    induction v as [fs sp IH | vs sp IH | vs sp IH | n p sp IH | v Hv] using vind; intros H.
    - inversion H as [? ? Hf | | | | | | |]; subst. cbn [pieces von_print]. rewrite text_cons, text_app, !encode_app. cbn [snd].
      assert (X : Forall (fun f => encode (text_of_pieces ((Some NIdentifier, fst (fst f)) :: (Some NEq, lit "=") :: pieces (snd (fst f)))) = fst (fst f) ++ lit "=" ++ von_print show (snd (fst f)) /\ Forall is_scalar (text_of_pieces ((Some NIdentifier, fst (fst f)) :: (Some NEq, lit "=") :: pieces (snd (fst f))))) fs).
      { clear - IH Hf As. induction Hf as [| f fs [Hn Hp] _ IHf]; [constructor|]. inversion IH as [| ? ? I1 I2]; subst. constructor; [|now apply IHf]. destruct (I1 Hp) as [E Sc]. rewrite !text_cons, !encode_app, E. cbn [snd]. rewrite (encode_ascii _ (plain_ascii _ Hn)). split; [reflexivity|]. apply Forall_app. split; [now apply As, plain_ascii|]. apply Forall_app. split; [apply As; repeat constructor; lia | assumption]. }
      split.
      + rewrite (joined_text _ (map (fun f => fst (fst f) ++ lit "=" ++ von_print show (snd (fst f))) fs)); [reflexivity|]. clear - X. induction X as [| f fs [E _] _ IHx]; constructor; assumption.
      + apply Forall_app. split; [apply As; repeat constructor; lia|]. apply Forall_app. split; [|apply As; repeat constructor; lia]. apply Js. apply Forall_map. eapply Forall_impl; [|exact X]. intros f [_ Sc]. exact Sc.
    - inversion H as [| ? ? Hf | | | | | |]; subst. cbn [pieces von_print]. rewrite text_cons, text_app, !encode_app. cbn [snd].
      assert (X : Forall (fun f => encode (text_of_pieces (pieces f)) = von_print show f /\ Forall is_scalar (text_of_pieces (pieces f))) vs) by (clear - IH Hf; induction Hf as [| f fs Hp _ IHf]; [constructor|]; inversion IH as [| ? ? I1 I2]; subst; constructor; [now apply I1 | now apply IHf]).
      split.
      + rewrite (joined_text _ (map (von_print show) vs)); [reflexivity|]. clear - X. induction X as [| f fs [E _] _ IHx]; constructor; assumption.
      + apply Forall_app. split; [apply As; repeat constructor; lia|]. apply Forall_app. split; [|apply As; repeat constructor; lia]. apply Js. apply Forall_map. eapply Forall_impl; [|exact X]. intros f [_ Sc]. exact Sc.
    - inversion H.
    - inversion H as [| | | | | | ? ? Hn | ? v ? Hn Hv Hc]; subst; cbn [pieces von_print].
      + rewrite text_cons. cbn [snd text_of_pieces flat_map]. rewrite app_nil_r, (encode_ascii _ (plain_ascii _ Hn)). split; [reflexivity | now apply As, plain_ascii].
      + destruct (IH v eq_refl Hv) as [E Sc]. rewrite !text_cons, !encode_app, E. cbn [snd]. rewrite (encode_ascii _ (plain_ascii _ Hn)). split; [reflexivity|]. apply Forall_app. split; [now apply As, plain_ascii|]. apply Forall_app. split; [apply As; repeat constructor; lia | assumption].
    - assert (One : forall (k : nat) s, text_of_pieces [(Some k, s)] = s) by (intros k s; unfold text_of_pieces; cbn; apply app_nil_r). destruct v; try contradiction; inversion H as [| | b0 sp0 Sb Lb | x0 sp0 [Nx Px] | | | |]; subst; cbn [pieces von_print]; rewrite ?One.
      + rewrite (chars_encode b0 Sb), !encode_app. split; [reflexivity|]. apply Forall_app. split; [apply As; repeat constructor; lia|]. apply Forall_app. split; [assumption | apply As; repeat constructor; lia].
      + split; [apply encode_ascii; exact (number_ascii _ _ Nx) | apply As; exact (number_ascii _ _ Nx)].
      + destruct b; (split; [reflexivity|]); apply As; repeat constructor; lia.
      + split; [reflexivity|]. apply As; repeat constructor; lia.
  Qed.

  (** It is cut into those pieces *)
  Definition cuts (e : list piece) : Prop := forall r rs, stops r -> cut von_piece r rs -> cut von_piece (text_of_pieces e ++ r) (e ++ rs).
  Lemma stops_char c r : c = 44%Z \/ c = 93%Z \/ c = 125%Z -> stops (c :: r).
  Proof. intros H x E. now injection E as <-. Qed.
  Lemma joined_cuts l : Forall cuts l -> cuts (joined l).
  Proof.
    induction 1 as [| e l H Hl IH]; [intros r rs _ C; exact C|]. destruct l as [| e' l]; [exact H|]. change (joined (e :: e' :: l)) with (e ++ comma :: joined (e' :: l)). intros r rs S C. rewrite text_app, <- !app_assoc. apply H; [apply stops_char; now left|].
    rewrite text_cons. cbn [app]. apply (cut_one NComma (lit ",") (text_of_pieces (joined (e' :: l)) ++ r)); [discriminate | apply mark_piece; cbn; tauto|]. now apply IH.
  Qed.
  Lemma cuts_nil : cuts [].
  Proof. intros r rs _ C. exact C. Qed.
  Lemma cuts_cons k s e : s <> [] -> (forall r, stops r -> von_piece (Some k) s (text_of_pieces e ++ r)) -> cuts e -> cuts ((Some k, s) :: e).
  Proof. intros N P C r rs S Cr. rewrite text_cons, <- app_assoc. cbn [snd]. apply (cut_one k s (text_of_pieces e ++ r) (e ++ rs)); [assumption | now apply P | now apply C]. Qed.
  Lemma cuts_end e k c : cuts e -> In ([c], k) marks -> c = 44%Z \/ c = 93%Z \/ c = 125%Z -> cuts (e ++ [(Some k, [c])]).
  Proof.
    intros C M Hc r rs S Cr. rewrite text_app, <- !app_assoc. apply C; [now apply stops_char|]. exact (cut_one k [c] r rs ltac:(discriminate) (mark_piece c k r M) Cr).
  Qed.
  Lemma value_cuts v : printable v -> cuts (pieces v).
  Proof.
    induction v as [fs sp IH | vs sp IH | vs sp IH | n p sp IH | v Hv] using vind; intros H.
    - inversion H as [? ? Hf | | | | | | |]; subst. cbn [pieces]. apply cuts_cons; [discriminate | intros r _; apply mark_piece; cbn; tauto|]. apply cuts_end; [|cbn; tauto | tauto]. apply joined_cuts.
      clear - IH Hf. induction Hf as [| f fs [Hn Hp] _ IHf]; [constructor|]. inversion IH as [| ? ? I1 I2]; subst. constructor; [|now apply IHf]. apply cuts_cons; [now destruct Hn as (c & s & -> & _) | | apply cuts_cons; [discriminate | intros r _; apply mark_piece; cbn; tauto | now apply I1]].
      intros r _. apply plain_piece; [assumption | reflexivity | |]; [intros c E; injection E as <-; unfold word, start, letter, digit; lia | intros q Q E; injection E as <-; destruct Q; discriminate].
    - inversion H as [| ? ? Hf | | | | | |]; subst. cbn [pieces]. apply cuts_cons; [discriminate | intros r _; apply mark_piece; cbn; tauto|]. apply cuts_end; [|cbn; tauto | tauto]. apply joined_cuts.
      clear - IH Hf. induction Hf as [| f fs Hp _ IHf]; [constructor|]. inversion IH as [| ? ? I1 I2]; subst. constructor; [now apply I1 | now apply IHf].
    - inversion H.
    - inversion H as [| | | | | | ? ? Hn | ? v ? Hn Hv Hc]; subst; cbn [pieces].
      + apply cuts_cons; [now destruct Hn as (c & s & -> & _) | | apply cuts_nil]. intros r S. apply plain_piece; [assumption | reflexivity | now apply stops_word | intros q; now apply stops_quote].
      + apply cuts_cons; [now destruct Hn as (c & s & -> & _) | | apply cuts_cons; [discriminate | | now apply (IH v eq_refl Hv)]].
        * intros r _. apply plain_piece; [assumption | reflexivity | |]; [intros c E; injection E as <-; unfold word, start, letter, digit; lia | intros q Q E; injection E as <-; destruct Q; discriminate].
        * intros r _. apply PBlank. split; [repeat constructor|]. assert (Hd : exists c x, text_of_pieces (pieces v) ++ r = c :: x /\ (c = 123%Z \/ c = 91%Z)) by (destruct Hc; cbn [pieces]; rewrite text_cons; cbn [snd app lit]; do 2 eexists; split; try reflexivity; tauto). destruct Hd as (c & x & -> & Hd). intros y E. injection E as <-. unfold blank. destruct Hd as [-> | ->]; lia.
    - destruct v; try contradiction; inversion H as [| | b0 sp' Sb Lb | x' sp' [Nx Px] | | | |]; subst; cbn [pieces]; (apply cuts_cons; [| intros r S | apply cuts_nil]); rewrite ?(chars_encode b0 Sb).
      + discriminate.
      + cbn [text_of_pieces flat_map app]. destruct b0 as [| c b0].
        * apply (PEmpty [] 34%Z r); [now left | now left|]. intros x E <-. now apply (stops_quote r 34%Z S (or_introl eq_refl)).
        * apply (PEscaped 34%Z (c :: b0)); [now left | discriminate | assumption].
      + now apply (number_ne _ []).
      + apply PNumber. now apply shown_number.
      + now destruct b.
      + destruct b; (apply PWord; [left; left; unfold letter; cbn; lia | split; [repeat (apply Forall_cons; [left; left; unfold letter; cbn; lia|]); apply Forall_nil | now apply stops_word] | intros (q & x & _ & E); discriminate | left; split; [|reflexivity]; auto]).
      + discriminate.
      + apply PWord; [left; left; unfold letter; cbn; lia | split; [repeat (apply Forall_cons; [left; left; unfold letter; cbn; lia|]); apply Forall_nil | now apply stops_word] | intros (q & x & _ & E); discriminate | right; left; now split].
  Qed.

  (** They are the value *)
  Notation value := (value parse).
  Lemma tok_one k s : tok k s [(Some k, s)].
  Proof. exists []. split; [reflexivity | constructor]. Qed.
  Lemma stopped_head k s r : In k [NComma; NRightBrace; NRightBracket] -> stopped ((Some k, s) :: r).
  Proof. intros H. right. now exists k, s, r. Qed.
  Lemma plain_named n : plain_name n -> named n n.
  Proof.
    intros (c & s & -> & Hc & Hs & _). exists [], []. split; [now rewrite app_nil_r|]. split; [constructor|]. split; [constructor|]. assert (W : Forall word (c :: s)) by (constructor; [now left | assumption]). split.
    - cbn. intros E. injection E as ->. unfold start, letter in Hc. lia.
    - intros n' E. rewrite E in W. apply Forall_app in W. destruct W as [_ W]. inversion W as [| ? ? X _]. unfold word, start, letter, digit in X. lia.
  Qed.
  Definition valued (v : vvalue F) : Prop := forall o r, stopped r -> exists t v', value o (pieces v) r t v' /\ bare v' = bare v.
  Lemma elements_written vs : Forall valued vs -> forall o s z r, tok NRightBracket s z -> exists ts vs', elements parse o (joined (map pieces vs)) (z ++ r) ts vs' /\ map bare vs' = map bare vs.
  Proof.
    intros H o s z r T. assert (Sz : stopped (z ++ r)) by (destruct T as (w & -> & _); apply stopped_head; cbn; tauto). destruct H as [| v vs Hv H]; [exists [], []; split; [constructor | reflexivity]|].
    assert (M : forall o, exists m ts vs', joined (map pieces (v :: vs)) = pieces v ++ m /\ stopped (m ++ z ++ r) /\ more_elements parse o m (z ++ r) ts vs' /\ map bare vs' = map bare vs).
    { clear o Hv. revert v. induction H as [| v' vs Hv' _ IH]; intros v o; [exists [], [], []; cbn [map joined app]; rewrite app_nil_r; split; [reflexivity|]; split; [assumption|]; split; [constructor | reflexivity]|].
      destruct (IH v' (o + len ([comma] ++ pieces v'))) as (m & ts & vs' & E & Sm & Me & Eb). destruct (Hv' (o + len [comma]) (m ++ z ++ r) Sm) as (t & x & Vx & Bx). exists ([comma] ++ pieces v' ++ m), (leaves [comma] ++ gnode NElement [t] :: ts), (x :: vs'). split; [|split; [|split]].
      - change (joined (map pieces (v :: v' :: vs))) with (pieces v ++ comma :: joined (map pieces (v' :: vs))). now rewrite E.
      - apply stopped_head. now left.
      - apply MeNext; [right; exists (lit ","); apply tok_one | assumption | assumption].
      - cbn. now rewrite Bx, Eb. }
    destruct (M (o + len (pieces v))) as (m & ts & vs' & -> & Sm & Me & Eb). destruct (Hv o (m ++ z ++ r) Sm) as (t & x & Vx & Bx). exists (gnode NElement [t] :: ts), (x :: vs'). split; [now apply ElSome | cbn; now rewrite Bx, Eb].
  Qed.
  Notation fpieces := (fun f : str * vvalue F * (nat * nat) => (Some NIdentifier, fst (fst f)) :: (Some NEq, lit "=") :: pieces (snd (fst f))).
  Notation fbare := (fun f : str * vvalue F * (nat * nat) => (fst (fst f), bare (snd (fst f)), (0, 0))).
  Lemma entry_written f o r : plain_name (fst (fst f)) -> valued (snd (fst f)) -> stopped r -> exists t f', entry parse o (fpieces f) r t f' /\ fbare f' = fbare f.
  Proof.
    intros Hn Hv S. destruct f as [[n v] sp]. cbn [fst snd] in *. destruct (Hv (o + len ([(Some NIdentifier, n)] ++ [(Some NEq, lit "=")])) r S) as (t & x & Vx & Bx).
    exists (gnode NEntry (leaves [(Some NIdentifier, n)] ++ leaves [(Some NEq, lit "=")] ++ [t])), (encode n, x, (o, o + len ([(Some NIdentifier, n)] ++ [(Some NEq, lit "=")] ++ pieces v))). split.
    - apply (EnEntry F parse o [(Some NIdentifier, n)] [(Some NEq, lit "=")] (pieces v) r n (lit "=") n t x); [left; apply tok_one | apply tok_one | now apply plain_named | assumption].
    - cbn [fst snd]. now rewrite Bx, (encode_ascii n (plain_ascii n Hn)).
  Qed.
  Lemma entries_written fs : Forall (fun f => plain_name (fst (fst f)) /\ valued (snd (fst f))) fs -> forall o s z r, tok NRightBrace s z -> exists ts fs', entries parse o (joined (map fpieces fs)) (z ++ r) ts fs' /\ map fbare fs' = map fbare fs.
  Proof.
    intros H o s z r T. assert (Sz : stopped (z ++ r)) by (destruct T as (w & -> & _); apply stopped_head; cbn; tauto). destruct H as [| v vs [Hn Hv] H]; [exists [], []; split; [constructor | reflexivity]|].
    assert (M : forall o, exists m ts vs', joined (map fpieces (v :: vs)) = fpieces v ++ m /\ stopped (m ++ z ++ r) /\ more_entries parse o m (z ++ r) ts vs' /\ map fbare vs' = map fbare vs).
    { clear o Hn Hv. revert v. induction H as [| v' vs [Hn' Hv'] _ IH]; intros v o.
      - exists [], [], []. cbn [map joined app]. split; [now rewrite app_nil_r|]. split; [assumption|]. split; [|reflexivity]. constructor. destruct T as (w & -> & _). intros (k & x & y & E & I). injection E as <- _ _. cbn in I. intuition discriminate.
      - destruct (IH v' (o + len ([comma] ++ fpieces v'))) as (m & ts & vs' & E & Sm & Me & Eb). destruct (entry_written v' (o + len [comma]) (m ++ z ++ r) Hn' Hv' Sm) as (t & x & Vx & Bx). exists ([comma] ++ fpieces v' ++ m), (leaves [comma] ++ t :: ts), (x :: vs'). split; [|split; [|split]].
        + change (joined (map fpieces (v :: v' :: vs))) with (fpieces v ++ comma :: joined (map fpieces (v' :: vs))). now rewrite E.
        + apply stopped_head. now left.
        + apply MoNext; [right; exists (lit ","); apply tok_one | assumption | assumption].
        + cbn [map]. now rewrite Bx, Eb. }
    destruct (M (o + len (fpieces v))) as (m & ts & vs' & -> & Sm & Me & Eb). destruct (entry_written v o (m ++ z ++ r) Hn Hv Sm) as (t & x & Vx & Bx). exists (t :: ts), (x :: vs'). split; [now apply EnSome | cbn [map]; now rewrite Bx, Eb].
  Qed.
  Lemma written v : printable v -> valued v.
  Proof.
    induction v as [fs sp IH | vs sp IH | vs sp IH | n p sp IH | v Hv] using vind; intros H o r S.
    - inversion H as [? ? Hf | | | | | | |]; subst. cbn [pieces].
      assert (X : Forall (fun f => plain_name (fst (fst f)) /\ valued (snd (fst f))) fs) by (clear - IH Hf; induction Hf as [| f fs [Hn Hp] _ IHf]; [constructor|]; inversion IH as [| ? ? I1 I2]; subst; constructor; [split; [assumption | now apply I1] | now apply IHf]).
      destruct (entries_written fs X (o + len [(Some NLeftBrace, lit "{")]) (lit "}") [(Some NRightBrace, lit "}")] r (tok_one _ _)) as (ts & fs' & En & Eb). do 2 eexists. split; [exact (VaObject F parse o [(Some NLeftBrace, lit "{")] (joined (map fpieces fs)) [(Some NRightBrace, lit "}")] r (lit "{") (lit "}") ts fs' (tok_one _ _) (tok_one _ _) En)|]. cbn [bare]. now rewrite Eb.
    - inversion H as [| ? ? Hf | | | | | |]; subst. cbn [pieces].
      assert (X : Forall valued vs) by (clear - IH Hf; induction Hf as [| f fs Hp _ IHf]; [constructor|]; inversion IH as [| ? ? I1 I2]; subst; constructor; [now apply I1 | now apply IHf]).
      destruct (elements_written vs X (o + len [(Some NLeftBracket, lit "[")]) (lit "]") [(Some NRightBracket, lit "]")] r (tok_one _ _)) as (ts & vs' & En & Eb). do 2 eexists. split; [exact (VaArray F parse o [(Some NLeftBracket, lit "[")] (joined (map pieces vs)) [(Some NRightBracket, lit "]")] r (lit "[") (lit "]") ts vs' (tok_one _ _) (tok_one _ _) En)|]. cbn [bare]. now rewrite Eb.
    - inversion H.
    - inversion H as [| | | | | | ? ? Hn | ? v ? Hn Hv Hc]; subst; cbn [pieces].
      + do 2 eexists. split; [apply (VaUnit F parse o _ r n); [apply tok_one|]|].
        * intros (k & s & r' & -> & I). destruct S as [S | (k' & s' & r2 & E & I')]; [discriminate|]. injection E as <- _ _. destruct I as [<- | [<- | []]]; cbn in I'; intuition discriminate.
        * cbn [bare option_map]. now rewrite (encode_ascii n (plain_ascii n Hn)).
      + set (e := [(Some NIdentifier, n); (Some NWhitespace, lit " ")]). destruct (IH v eq_refl Hv (o + len e) r S) as (t & v' & Vv & Bv). do 2 eexists. split.
        * apply (VaPayload F parse o e (pieces v) r n t v'); [exists [(Some NWhitespace, lit " ")]; split; [reflexivity | repeat constructor] | | assumption]. destruct Hc; cbn [pieces]; [exists NLeftBrace | exists NLeftBracket]; do 2 eexists; (split; [reflexivity | cbn; tauto]).
        * cbn [bare option_map]. now rewrite Bv, (encode_ascii n (plain_ascii n Hn)).
    - destruct v; try contradiction; inversion H as [| | b0 sp' Sb Lb | x' sp' [Nx Px] | | | |]; subst; cbn [pieces].
      + rewrite (chars_encode b0 Sb). do 2 eexists. split; [apply (VaString F parse o _ r (lit """" ++ b0 ++ lit """") b0 (tok_one _ _))|reflexivity]. destruct b0 as [| c b0]; [apply (CoEmpty [] 34%Z); [now left | now left]|].
        apply (CoFull [] 34%Z 1 (c :: b0)); [now left | now left | discriminate | discriminate | discriminate | now apply VonLexProofs.body_ends].
      + do 2 eexists. split; [apply (VaNumber F parse o _ r (show x) x (tok_one _ _))|reflexivity]. rewrite encode_ascii; [assumption|]. pose proof (number_ascii _ _ Nx) as A. clear - A. unfold without_underscores, ascii in *. apply Forall_forall. intros y I. apply filter_In in I. now apply (proj1 (Forall_forall _ _) A).
      + do 2 eexists. split; [apply (VaBool F parse o _ r (if b then lit "true" else lit "false") b (tok_one _ _))|reflexivity]. destruct b; split; congruence || discriminate.
      + do 2 eexists. split; [apply (VaNull F parse o _ r (lit "null") (tok_one _ _))|reflexivity].
  Qed.
  Lemma round_trip v : printable v -> at_root v -> (Z.of_nat (length (von_print show v)) < 2 ^ 32)%Z -> exists v', von_build parse (von_print show v) = Some (Some v', []) /\ bare v' = bare v.
  Proof.
    intros Hp Hr L. destruct (printed v Hp) as [E Sc]. destruct (written v Hp 0 [] (or_introl eq_refl)) as (t & v' & V & B). exists v'. split; [|assumption]. rewrite <- E in *.
    assert (C : cut von_piece (text_of_pieces (pieces v)) (pieces v)). { pose proof (value_cuts v Hp [] [] ltac:(intros c X; discriminate) (CutEnd _)) as C. now rewrite !app_nil_r in C. }
    apply (built_document F parse _ (pieces v) (pieces v) [] t v'); [assumption | assumption | assumption | now rewrite app_nil_r | intros p X; discriminate|]. apply DoValue; [|assumption].
    intros (k & s & r & Eq & [<- | []]). destruct Hp; cbn [pieces] in Eq; try discriminate; now cbn in Hr.
  Qed.
End Print.

(** ** The leaves of a tree *)
Definition triple (t : token) : nat * nat * nat := (tk_kind t, tk_start t, tk_end t).
Lemma spans_app a b : forall off, spans off (a ++ b) = spans off a ++ spans (off + len a) b.
Proof.
  induction a as [| [k s] a IH]; intros off; [cbn; now rewrite Nat.add_0_r|]. cbn [app spans]. rewrite IH, <- app_assoc. do 3 f_equal. unfold len. rewrite text_cons. cbn [snd]. rewrite encode_app, app_length. lia.
Qed.
Lemma leaves_lay k n ch off : TreeSpec.leaves (GNode k n ch) off = lay TreeSpec.leaves off ch.
Proof. cbn [TreeSpec.leaves]. revert off. induction ch as [| c r IH]; intros off; [reflexivity|]. cbn [lay]. now rewrite <- IH. Qed.
Lemma covers_spans ts e : covers ts e -> Forall (fun p => fst p <> None) e -> list_sum (map width ts) = len e /\ forall off, lay TreeSpec.leaves off ts = map triple (spans off e).
Proof.
  induction 1 as [| [k s] ts e C IH | k ch e1 ts e C1 IH1 C IH]; intros N.
  - split; [reflexivity | intros off; reflexivity].
  - inversion N as [| ? ? N1 N2]; subst. destruct (IH N2) as [W L]. destruct k as [k|]; [|easy]. split.
    + cbn [map list_sum fold_right width leaf snd]. change (fold_right Nat.add 0 (map width ts)) with (list_sum (map width ts)). rewrite W. unfold len. rewrite text_cons. cbn [snd]. now rewrite encode_app, app_length.
    + intros off. cbn [lay]. rewrite L. reflexivity.
  - apply Forall_app in N. destruct N as [N1 N2]. destruct (IH1 N1) as [W1 L1], (IH N2) as [W L]. split.
    + cbn [map list_sum fold_right width gnode]. change (fold_right Nat.add 0 (map width ts)) with (list_sum (map width ts)). rewrite W, W1. unfold len. now rewrite text_app, encode_app, app_length.
    + intros off. rewrite spans_app, map_app, <- L1, <- W1, <- L. cbn [lay]. unfold gnode. rewrite leaves_lay. reflexivity.
Qed.
