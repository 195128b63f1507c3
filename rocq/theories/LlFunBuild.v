(** Printing and building of LLVM IR functions. *)
From Verif Require Import Base Utf8 Utf8Facts ScanSpec CursorModel CursorSpec CursorProofs RopeModel LexModel LexSpec TreeModel TreeSpec TreeProofs VfsModel ParserModel ParserSpec ParserProofs.
From Verif Require Import JsonLangSpec LangModel LangSpec LangLexProofs LangParseProofs IniModel LlModel LlSpec LlLexProofs LlBuildSpec LlBuildProofs LlFunProofs.
From Verif Require JsonAstBuildProofs BareProofs.

(** ** The pieces of a function *)
Definition bl : piece := (Some LvWhitespace, [32%Z]).
Definition nlp : piece := (Some LvNewline, [10%Z]).
Definition bb : list piece := [bl; bl].
Definition pinst := (linst * list piece)%type.
Definition ops_text := (fix go (l : list str) : str := match l with [] => [] | [o] => o | o :: r => o ++ lit ", " ++ go r end).
(** What of an instruction is cut without a closer look *)
Definition itail (i : linst) : list Z := match li_result i with Some _ => 61%Z :: 32%Z :: li_opcode i ++ 32%Z :: ops_text (li_operands i) | None => ops_text (li_operands i) end.
Definition ihead (i : linst) : piece := match li_result i with Some r => (Some LvLocalVar, 37%Z :: r) | None => (Some LvKeyword, li_opcode i) end.
Definition icore (x : pinst) : list piece := ihead (fst x) :: bl :: snd x.
Definition ilead (l : list pinst) : list piece := match l with [] => [] | _ => bb end.
Fixpoint ipieces (l : list pinst) : list piece := match l with [] => [] | x :: r => icore x ++ (nlp :: ilead r) ++ ipieces r end.
Definition pblock := (option str * list pinst)%type.
Definition colon : piece := (Some LvColon, [58%Z]).
Definition bpieces (b : pblock) : list piece := match fst b with Some l => (Some LvKeyword, l) :: colon :: (nlp :: ilead (snd b)) ++ ipieces (snd b) | None => ipieces (snd b) end.
Definition sep0 (bs : list pblock) : list piece := nlp :: match bs with (None, _) :: _ => bb | _ => [] end.
Definition pparam := (lparam * list piece)%type.
Definition pcore (x : pparam) : list piece := snd x ++ [bl; (Some LvLocalVar, 37%Z :: lp_name (fst x))].
Definition psep (l : list pparam) : list piece := match l with [] => [] | _ => [(Some LvComma, [44%Z]); bl] end.
Fixpoint ppieces (l : list pparam) : list piece := match l with [] => [] | x :: r => pcore x ++ psep r ++ ppieces r end.
Record pfun := PFun { pf_name : str; pf_ret : str; pf_rp : list piece; pf_params : list pparam; pf_blocks : list pblock }.
Definition ffront (f : pfun) : list piece :=
  (Some LvKeyword, lit "define") :: bl :: (pf_rp f ++ [bl]) ++ (Some LvGlobalVar, 64%Z :: pf_name f) :: (Some LvLParen, [40%Z]) :: ppieces (pf_params f) ++
  (Some LvRParen, [41%Z]) :: bl :: (Some LvLBrace, [123%Z]) :: sep0 (pf_blocks f) ++ flat_map bpieces (pf_blocks f) ++ [(Some LvRBrace, [125%Z])].

(** What they stand for *)
Definition block_of (b : pblock) : lblock := LBlock (fst b) (map fst (snd b)).
Definition fun_of (f : pfun) : lfunction := LFunction (pf_name f) (pf_ret f) (map fst (pf_params f)) (map block_of (pf_blocks f)).

(** ** Their text *)
Lemma print_inst_eq i : ll_print_inst i = snd (ihead i) ++ 32%Z :: itail i.
Proof. unfold ll_print_inst, ihead, itail. fold ops_text. destruct (li_result i); cbn [snd]; change (lit "%") with [37%Z]; change (lit " = ") with [32; 61; 32]%Z; change (lit " ") with [32%Z]; repeat (first [rewrite <- app_assoc | progress (cbn [app])]); reflexivity. Qed.
Lemma icore_text x : text_of_pieces (snd x) = itail (fst x) -> text_of_pieces (icore x) = ll_print_inst (fst x).
Proof. intros E. rewrite print_inst_eq. unfold icore, text_of_pieces. cbn [flat_map]. change (flat_map snd (snd x)) with (text_of_pieces (snd x)). rewrite E. reflexivity. Qed.
Definition inst_fit (x : pinst) : Prop := text_of_pieces (snd x) = itail (fst x).
Lemma insts_text l : Forall inst_fit l -> text_of_pieces (ilead l ++ ipieces l) = flat_map (fun i => lit "  " ++ ll_print_inst i ++ [10%Z]) (map fst l).
Proof.
  induction 1 as [| x r X _ IH]; [reflexivity|]. cbn [ilead ipieces map flat_map]. rewrite !pieces_app, icore_text by exact X. rewrite pieces_app in IH. change (text_of_pieces (nlp :: ilead r)) with (10%Z :: text_of_pieces (ilead r)). cbn [app]. rewrite IH. change (text_of_pieces bb) with (lit "  "). rewrite <- !app_assoc. reflexivity.
Qed.
Definition labelled (b : pblock) : Prop := fst b <> None.
Lemma block_text b : Forall inst_fit (snd b) -> labelled b -> text_of_pieces (bpieces b) = ll_print_block (block_of b).
Proof.
  intros F L. destruct b as [[l|] is]; [|now destruct L]. unfold bpieces, block_of, ll_print_block. cbn [fst snd lb_label lb_insts] in *. rewrite <- (insts_text is F). change (text_of_pieces ((Some LvKeyword, l) :: colon :: (nlp :: ilead is) ++ ipieces is)) with (l ++ 58%Z :: 10%Z :: text_of_pieces (ilead is ++ ipieces is)). change (lit ":") with [58%Z]. rewrite <- !app_assoc. reflexivity.
Qed.
Definition block_fit (b : pblock) : Prop := Forall inst_fit (snd b) /\ (fst b = None -> snd b <> []).
Lemma blocks_text bs : Forall block_fit bs -> Forall labelled (tl bs) -> text_of_pieces (sep0 bs ++ flat_map bpieces bs) = 10%Z :: flat_map ll_print_block (map block_of bs).
Proof.
  assert (H : forall bs, Forall block_fit bs -> Forall labelled bs -> text_of_pieces (flat_map bpieces bs) = flat_map ll_print_block (map block_of bs)).
  { clear bs. induction bs as [| b bs IH]; intros F L; [reflexivity|]. cbn [flat_map map]. rewrite pieces_app, IH by (now apply Forall_inv_tail in F, L). apply Forall_inv in F, L. destruct F. now rewrite block_text. }
  intros F L. destruct bs as [| b bs]; [reflexivity|]. cbn [tl] in L. pose proof (Forall_inv F) as [Fb Nb]. apply Forall_inv_tail in F. destruct b as [[l|] is].
  - change (sep0 ((Some l, is) :: bs)) with [nlp]. cbn [app flat_map map]. change (text_of_pieces (nlp :: ?x)) with (10%Z :: text_of_pieces x). rewrite pieces_app, H, block_text by (try assumption; discriminate). reflexivity.
  - change (sep0 ((None, is) :: bs)) with (nlp :: bb). cbn [app flat_map map]. change (text_of_pieces (nlp :: ?x)) with (10%Z :: text_of_pieces x). f_equal. specialize (Nb eq_refl). cbn [snd] in Fb, Nb. pose proof (insts_text is Fb) as T. destruct is as [| i is]; [now destruct Nb|]. cbn [ilead] in T.
    change (bpieces (None, i :: is)) with (ipieces (i :: is)). change (bl :: bl :: ?x) with (bb ++ x). rewrite app_assoc, pieces_app, T, H by assumption. reflexivity.
Qed.
Definition param_fit (x : pparam) : Prop := text_of_pieces (snd x) = lp_ty (fst x).
Definition params_text := (fix go (l : list lparam) : str := match l with [] => [] | [p] => lp_ty p ++ lit " %" ++ lp_name p | p :: r => lp_ty p ++ lit " %" ++ lp_name p ++ lit ", " ++ go r end).
Lemma param_text l : Forall param_fit l -> text_of_pieces (ppieces l) = params_text (map fst l).
Proof.
  induction 1 as [| x r X _ IH]; [reflexivity|]. cbn [ppieces map]. assert (E : text_of_pieces (pcore x) = lp_ty (fst x) ++ lit " %" ++ lp_name (fst x)) by (unfold pcore; rewrite pieces_app, X; unfold text_of_pieces; cbn [flat_map snd bl app]; now rewrite app_nil_r).
  rewrite !pieces_app, E, IH. destruct r as [| y r]; [cbn [psep params_text map]; cbn; now rewrite app_nil_r|]. change (params_text (fst x :: map fst (y :: r))) with (lp_ty (fst x) ++ lit " %" ++ lp_name (fst x) ++ lit ", " ++ params_text (map fst (y :: r))). rewrite <- !app_assoc. reflexivity.
Qed.
Definition fun_fit (f : pfun) : Prop := text_of_pieces (pf_rp f) = pf_ret f /\ Forall param_fit (pf_params f) /\ Forall block_fit (pf_blocks f) /\ Forall labelled (tl (pf_blocks f)).
Lemma fun_text f : fun_fit f -> text_of_pieces (ffront f) ++ [10%Z] = ll_print_function (fun_of f).
Proof.
  intros (R & P & B & L). unfold ffront, ll_print_function. fold params_text. cbn [fun_of lf_name lf_ret lf_params lf_blocks]. rewrite <- (param_text _ P).
  pose proof (blocks_text _ B L) as T. rewrite pieces_app in T. revert T. generalize (sep0 (pf_blocks f)) (flat_map bpieces (pf_blocks f)) (flat_map ll_print_block (map block_of (pf_blocks f))) (ppieces (pf_params f)). intros s0 bp bt pp T.
  assert (Tc : forall p x, text_of_pieces (p :: x) = snd p ++ text_of_pieces x) by reflexivity.
  repeat first [rewrite pieces_app | rewrite Tc]. rewrite R. rewrite (app_assoc (text_of_pieces s0)), T. unfold bl, nlp. cbn [snd]. change (text_of_pieces []) with (@nil Z). change (lit "define ") with (lit "define" ++ [32%Z]). change (lit " @") with [32; 64]%Z. change (lit "(") with [40%Z]. change (lit ") {") with [41; 32; 123]%Z. change (lit "}") with [125%Z].
  generalize (lit "define"). intros d. repeat (first [rewrite <- app_assoc | progress (cbn [app])]). reflexivity.
Qed.

(** ** The text is cut into them *)
Section Cut.
  Variables alpha alnum : Z -> bool.
  Hypothesis Tb : tables alpha alnum.
  Notation cut := (cut (ll_piece alpha alnum)).

  Lemma piece_more2 k s r q : ll_piece alpha alnum k s r -> ~ In 34%Z s -> ~ In 59%Z s -> (forall c, hd_error q = Some c -> c = 10%Z \/ c = 32%Z) -> ll_piece alpha alnum k s (r ++ q).
  Proof.
    intros P N N' H. destruct P as [c r H0 | c r H0 | s r H0 | c k s r H0 R | c k r H0 | c s r H0 R | b r H0 | b H0 | b H0 | c s r H0 L R | c r N1 N2 N3 N4 N5].
    - now apply PBlank.
    - now apply PLine.
    - exfalso. apply N'. now left.
    - apply PVariable; [exact H0|]. apply stops_more; [exact R|]. intros d E. apply (not_name alpha alnum Tb). destruct (H d E); lia.
    - now apply PMark.
    - apply PNumber; [exact H0|]. apply stops_more; [exact R|]. intros d E. unfold vdigit. destruct (H d E); lia.
    - exfalso. apply N. now left.
    - exfalso. apply N. now left.
    - exfalso. apply N. now left.
    - apply PWord; [exact H0 | exact L|]. apply stops_more; [exact R|]. intros d E. apply (not_name alpha alnum Tb). destruct (H d E); lia.
    - now apply PError.
  Qed.
  Lemma cut_more2 b bp : cut b bp -> Forall (body_char alpha) b -> forall q qp, (forall c, hd_error q = Some c -> c = 10%Z \/ c = 32%Z) -> cut q qp -> cut (b ++ q) (bp ++ qp).
  Proof.
    induction 1 as [| k s r ps N P C IH]; intros F q qp H Cq; [exact Cq|]. apply Forall_app in F. destruct F as [Fs Fr]. rewrite <- app_assoc. cbn [app].
    assert (Ni : forall c, In c s -> c <> 34%Z /\ c <> 59%Z) by (intros c I; rewrite Forall_forall in Fs; apply Fs, body_not in I; tauto).
    constructor; [exact N | apply piece_more2; [exact P | intros I; now apply Ni in I | intros I; now apply Ni in I | exact H]|]. now apply IH.
  Qed.
  Lemma sign_in k s r c : ll_piece alpha alnum (Some k) s r -> In (c, k) [(64, LvGlobalVar); (44, LvComma); (41, LvRParen); (125, LvRBrace)]%Z -> In c s.
  Proof.
    intros P I. cbn [In] in I. remember (Some k) as K. destruct P as [d r H0 | d r H0 | s r H0 | d j s r H0 R | d j r H0 | d s r H0 R | b r H0 | b H0 | b H0 | d s r H0 L R | d r N1 N2 N3 N4 N5]; injection HeqK as HK;
      try (exfalso; rewrite <- HK in I; repeat (destruct I as [I | I]; [discriminate|]); contradiction).
    - subst j. left. unfold sigils in H0. cbn [In] in H0. repeat (destruct H0 as [H0 | H0]; [injection H0 as <- <-; repeat (destruct I as [I | I]; [try discriminate; now injection I as <-|]); contradiction|]). destruct H0.
    - subst j. left. unfold marks in H0. cbn [In] in H0. repeat (destruct H0 as [H0 | H0]; [injection H0 as <- <-; repeat (destruct I as [I | I]; [try discriminate; now injection I as <-|]); contradiction|]). destruct H0.
  Qed.
  Lemma cut_kinds no b bp : (forall c, In c no -> exists k, In (c, k) [(64, LvGlobalVar); (44, LvComma); (41, LvRParen); (125, LvRBrace)]%Z) -> cut b bp -> (forall c, In c b -> ~ In c no) ->
    Forall (fun p : piece => forall c k, In c no -> In (c, k) [(64, LvGlobalVar); (44, LvComma); (41, LvRParen); (125, LvRBrace)]%Z -> fst p <> Some k) bp.
  Proof.
    intros S C. induction C as [| k s r ps N P C IH]; intros F; [constructor|]. constructor; [|apply IH; intros c I; apply F, in_or_app; now right]. cbn [fst]. intros c k' I I' ->. apply (F c); [apply in_or_app; left; now apply (sign_in k' s r) | exact I].
  Qed.

  Definition whole (ps : list piece) : Prop := cut (text_of_pieces ps) ps.
  Definition next_ok (ps : list piece) : Prop := exists c, hd_error (text_of_pieces ps) = Some c /\ ((c < 45)%Z \/ c = 58%Z).
  Lemma next_stop ps : next_ok ps -> stops (vname alnum) (text_of_pieces ps).
  Proof. intros (c & E & H) d Ed. rewrite E in Ed. injection Ed as <-. intros V. apply (name_low alpha alnum Tb) in V; [|lia]. unfold vletter, vdigit in V. cbn in V. lia. Qed.
  Lemma w_bl ps : whole ps -> whole (bl :: ps).
  Proof. intros W. apply (CutPiece _ (Some LvWhitespace) [32%Z]); [discriminate | apply PBlank; now left | exact W]. Qed.
  Lemma w_nl ps : whole ps -> whole (nlp :: ps).
  Proof. intros W. apply (CutPiece _ (Some LvNewline) [10%Z]); [discriminate | apply PLine; now left | exact W]. Qed.
  Lemma w_mark c k ps : In (c, k) marks -> whole ps -> whole ((Some k, [c]) :: ps).
  Proof. intros I W. apply (CutPiece _ (Some k) [c]); [discriminate | now apply PMark | exact W]. Qed.
  Lemma w_var c k s ps : In (c, k) sigils -> Forall (vname alnum) s -> next_ok ps -> whole ps -> whole ((Some k, c :: s) :: ps).
  Proof. intros I F N W. apply (CutPiece _ (Some k) (c :: s)); [discriminate | apply PVariable; [exact I | split; [exact F | now apply next_stop]] | exact W]. Qed.
  Lemma w_word s ps : vlabel alpha alnum s -> next_ok ps -> whole ps -> whole ((Some LvKeyword, s) :: ps).
  Proof.
    intros (F & c & r & -> & L) N W. apply (CutPiece _ (Some LvKeyword) (c :: r)); [discriminate | | exact W].
    apply PWord; [left; apply Tb; [destruct L; lia | exact L] | destruct L; lia|]. split; [|now apply next_stop]. apply Forall_inv_tail in F. eapply Forall_impl; [|exact F]. now intros d [_ H].
  Qed.
  Lemma w_sub b bp ps : cut b bp -> Forall (body_char alpha) b -> (exists c, hd_error (text_of_pieces ps) = Some c /\ (c = 10%Z \/ c = 32%Z)) -> whole ps -> whole (bp ++ ps).
  Proof. intros C F (c & E & H) W. unfold whole. rewrite pieces_app, (cut_text _ _ _ C). apply cut_more2; try assumption. intros d Ed. rewrite E in Ed. now injection Ed as <-. Qed.

  Definition inst_ok (x : pinst) : Prop := good_inst alpha alnum (fst x) /\ cut (itail (fst x)) (snd x).
  Definition pblock_ok (b : pblock) : Prop := Forall inst_ok (snd b) /\ match fst b with Some l => vlabel alpha alnum l | None => snd b <> [] end.
  Definition pparam_ok (x : pparam) : Prop := good_param alpha alnum (fst x) /\ cut (lp_ty (fst x)) (snd x).
  Definition pfun_ok (f : pfun) : Prop :=
    vname_of alpha alnum (pf_name f) /\ vword_but alpha [64]%Z (pf_ret f) /\ cut (pf_ret f) (pf_rp f) /\ Forall pparam_ok (pf_params f) /\ Forall pblock_ok (pf_blocks f) /\ Forall labelled (tl (pf_blocks f)).

  Lemma plain_body w : Forall (vplain alpha) w -> Forall (body_char alpha) w.
  Proof. intros F. eapply Forall_impl; [|exact F]. intros c H. now right. Qed.
  Lemma names_plain w : vname_of alpha alnum w -> Forall (vplain alpha) w /\ Forall (vname alnum) w.
  Proof. intros F. split; (eapply Forall_impl; [|exact F]); now intros c [A B]. Qed.
  Lemma low_body c : char_is_whitespace c = false -> (0 <= c < 128)%Z -> c <> 34%Z -> c <> 59%Z -> body_char alpha c.
  Proof. intros W L A B. right. repeat split; try assumption; [|lia]. unfold is_scalar. lia. Qed.
  Lemma ops_body l : Forall (voperand alpha) l -> Forall (body_char alpha) (ops_text l).
  Proof.
    induction 1 as [| o r [[_ F] _] _ IH]; [constructor|]. destruct r as [| o' r]; [cbn [ops_text]; now apply plain_body|]. change (ops_text (o :: o' :: r)) with (o ++ lit ", " ++ ops_text (o' :: r)). apply Forall_app. split; [now apply plain_body|]. apply Forall_app. split; [|exact IH]. change (lit ", ") with [44; 32]%Z.
    constructor; [apply low_body; [reflexivity | lia | discriminate | discriminate]|]. constructor; [now left | constructor].
  Qed.
  Lemma itail_body i : good_inst alpha alnum i -> Forall (body_char alpha) (itail i).
  Proof.
    intros (_ & [O _] & F). apply ops_body in F. unfold itail. destruct (li_result i); [|exact F]. constructor; [apply low_body; [reflexivity | lia | discriminate | discriminate]|]. constructor; [now left|]. apply Forall_app. split; [apply plain_body, names_plain, O|]. constructor; [now left | exact F].
  Qed.
  Lemma w_insts l : Forall inst_ok l -> forall ps, whole ps -> whole (ipieces l ++ ps).
  Proof.
    induction 1 as [| [i bp] r [G C] _ IH]; intros ps W; [exact W|]. cbn [fst snd] in *. cbn [ipieces]. rewrite <- !app_assoc. unfold icore. cbn [app fst snd].
    assert (W1 : whole (bl :: bp ++ nlp :: ilead r ++ ipieces r ++ ps)).
    { apply w_bl, (w_sub _ _ _ C (itail_body i G)); [exists 10%Z; split; [reflexivity | now left]|]. apply w_nl. specialize (IH ps W). destruct r; [exact IH|]. now apply w_bl, w_bl. }
    assert (N : next_ok (bl :: bp ++ nlp :: ilead r ++ ipieces r ++ ps)) by (exists 32%Z; split; [reflexivity | lia]). destruct G as (Gr & Go & _). unfold ihead. destruct (li_result i) as [v|].
    - apply w_var; [unfold sigils; cbn; tauto | apply names_plain, Gr | exact N | exact W1].
    - now apply w_word.
  Qed.
  Lemma w_blocks bs : Forall pblock_ok bs -> forall ps, whole ps -> whole (flat_map bpieces bs ++ ps).
  Proof.
    induction 1 as [| [lab is] bs [F L] _ IH]; intros ps W; [exact W|]. cbn [flat_map fst snd] in *. rewrite <- app_assoc. specialize (w_insts is F _ (IH ps W)). intros Wi. unfold bpieces at 1. cbn [fst snd]. destruct lab as [l|]; [|exact Wi].
    cbn [app]. rewrite <- !app_assoc. apply w_word; [exact L | exists 58%Z; split; [reflexivity | now right]|]. apply w_mark; [unfold marks; cbn; tauto|]. apply w_nl. destruct is; [exact Wi|]. now apply w_bl, w_bl.
  Qed.
  Lemma w_params l : Forall pparam_ok l -> forall ps, next_ok ps -> whole ps -> whole (ppieces l ++ ps).
  Proof.
    induction 1 as [| [p bp] r [[Gt Gn] C] _ IH]; intros ps N W; [exact W|]. cbn [fst snd] in *. cbn [ppieces]. rewrite <- !app_assoc. unfold pcore. cbn [fst snd]. rewrite <- app_assoc. apply (w_sub _ _ _ C); [apply plain_body, Gt | exists 32%Z; split; [reflexivity | now right]|].
    cbn [app]. apply w_bl, w_var; [unfold sigils; cbn; tauto | apply names_plain, Gn | |].
    - destruct r; [exact N|]. exists 44%Z. split; [reflexivity | lia].
    - specialize (IH ps N W). destruct r as [| y r]; [exact IH|]. cbn [psep app]. apply w_mark; [unfold marks; cbn; tauto|]. now apply w_bl.
  Qed.
  Lemma low_label w : Forall (fun c => (97 <= c <= 122)%Z) w -> w <> [] -> vlabel alpha alnum w.
  Proof.
    intros F N. split; [|destruct w as [| c r]; [contradiction|]; exists c, r; split; [reflexivity | apply Forall_inv in F; now right]]. eapply Forall_impl; [|exact F]. intros c H. cbn beta in H. split; [|left; apply Tb; [lia|]; left; now right].
    split; [unfold is_scalar; lia|]. split; [|split; [lia|]; split; [lia|]; lia]. destruct (char_is_whitespace c) eqn:E; [|reflexivity]. exfalso. revert E. assert (D : In c (map Z.of_nat (seq 97 26))) by (apply in_map_iff; exists (Z.to_nat c); split; [lia | apply in_seq; lia]). cbn in D. repeat (destruct D as [<- | D]; [discriminate|]). destruct D.
  Qed.
  Lemma w_fun f ps : pfun_ok f -> whole ps -> whole (ffront f ++ ps).
  Proof.
    intros (N & R & C & P & B & _) W0. unfold ffront. repeat (first [rewrite <- app_assoc | progress (cbn [app])]). apply w_word; [apply low_label; [apply Forall_forall; intros c I; vm_compute in I; lia | discriminate] | exists 32%Z; split; [reflexivity | lia]|].
    apply w_bl, (w_sub _ _ _ C); [apply plain_body, R | exists 32%Z; split; [reflexivity | now right]|]. apply w_bl, w_var; [unfold sigils; cbn; tauto | apply names_plain, N | exists 40%Z; split; [reflexivity | lia]|].
    apply w_mark; [unfold marks; cbn; tauto|]. apply w_params; [exact P | exists 41%Z; split; [reflexivity | lia]|]. apply w_mark; [unfold marks; cbn; tauto|]. apply w_bl, w_mark; [unfold marks; cbn; tauto|].
    assert (W : whole (flat_map bpieces (pf_blocks f) ++ (Some LvRBrace, [125%Z]) :: ps)) by (apply w_blocks; [exact B|]; apply w_mark; [unfold marks; cbn; tauto | exact W0]).
    unfold sep0. cbn [app]. apply w_nl. destruct (pf_blocks f) as [| [[l|] is] bs]; [exact W | exact W|]. now apply w_bl, w_bl.
  Qed.
  Lemma ok_fit f : pfun_ok f -> fun_fit f.
  Proof.
    intros (N & R & C & P & B & L). split; [exact (cut_text _ _ _ C)|]. split; [eapply Forall_impl; [|exact P]; intros x [_ Cx]; exact (cut_text _ _ _ Cx)|]. split; [|exact L].
    eapply Forall_impl; [|exact B]. intros b [Fb Lb]. split; [eapply Forall_impl; [|exact Fb]; intros x [_ Cx]; exact (cut_text _ _ _ Cx)|]. intros E. now rewrite E in Lb.
  Qed.
  Lemma pfun_exists f : good_function alpha alnum f -> exists p, pfun_ok p /\ fun_of p = f.
  Proof.
    intros (N & R & P & B & L).
    assert (Ex : forall b, Forall (body_char alpha) b -> exists bp, cut b bp) by (intros b F; apply (ll_cut_exists alpha alnum (length b) b (le_n _)); eapply Forall_impl; [|exact F]; intros c; apply body_narrow).
    assert (Xp : exists pp, Forall pparam_ok pp /\ map fst pp = lf_params f).
    { clear - P Ex. induction P as [| p ps Gp _ (pp & F & E)]; [exists []; now split|]. destruct (Ex (lp_ty p)) as [bp C]; [apply plain_body, Gp|]. exists ((p, bp) :: pp). split; [constructor; [now split | exact F] | cbn [map fst]; now rewrite E]. }
    assert (Xi : forall l, Forall (good_inst alpha alnum) l -> exists pl, Forall inst_ok pl /\ map fst pl = l).
    { intros l F. induction F as [| p ps Gp _ (pp & F & E)]; [exists []; now split|]. destruct (Ex (itail p)) as [bp C]; [now apply itail_body|]. exists ((p, bp) :: pp). split; [constructor; [now split | exact F] | cbn [map fst]; now rewrite E]. }
    assert (Xb : exists pb, Forall pblock_ok pb /\ map block_of pb = lf_blocks f).
    { clear - B Xi. induction B as [| b bs [Gi Gl] _ (pb & F & E)]; [exists []; now split|]. destruct (Xi _ Gi) as (pl & Fl & El). exists ((lb_label b, pl) :: pb). split.
      - constructor; [|exact F]. split; [exact Fl|]. cbn [fst snd]. destruct (lb_label b); [exact Gl|]. intros ->. now apply Gl.
      - cbn [map]. rewrite E. unfold block_of at 1. cbn [fst snd]. rewrite El. now destruct b. }
    destruct Xp as (pp & Fp & Ep), Xb as (pb & Fb & Eb), (Ex (lf_ret f)) as [rp Cr]; [apply plain_body, R|]. exists (PFun (lf_name f) (lf_ret f) rp pp pb). split.
    - split; [exact N|]. split; [exact R|]. split; [exact Cr|]. split; [exact Fp|]. split; [exact Fb|]. cbn [pf_blocks]. rewrite <- Eb in L. clear - L. destruct pb as [| b pb]; [constructor|]. cbn [map tl] in *. rewrite Forall_map in L. exact L.
    - unfold fun_of. cbn [pf_name pf_ret pf_params pf_blocks]. rewrite Ep, Eb. now destruct f.
  Qed.
End Cut.

(** ** Their tokens and trees *)
Fixpoint igreens (l : list pinst) : list green := match l with [] => [] | x :: r => gnode LvInstruction (map pleaf (icore x)) :: map pleaf (nlp :: ilead r) ++ igreens r end.
Definition bchildren (b : pblock) : list green := match fst b with Some l => map pleaf ((Some LvKeyword, l) :: colon :: nlp :: ilead (snd b)) | None => [] end ++ igreens (snd b).
Definition bgreen (b : pblock) : green := gnode LvBlock (bchildren b).
Fixpoint pgreens (l : list pparam) : list green := match l with [] => [] | x :: r => gnode LvParameter (map pleaf (pcore x)) :: map pleaf (psep r) ++ pgreens r end.
Definition fchildren (f : pfun) : list green :=
  map pleaf [(Some LvKeyword, lit "define"); bl] ++ gnode LvIdentifier (map pleaf (pf_rp f ++ [bl])) :: pleaf (Some LvGlobalVar, 64%Z :: pf_name f) ::
  gnode LvParameter (pleaf (Some LvLParen, [40%Z]) :: pgreens (pf_params f) ++ map pleaf [(Some LvRParen, [41%Z]); bl]) :: map pleaf ((Some LvLBrace, [123%Z]) :: sep0 (pf_blocks f)) ++
  map bgreen (pf_blocks f) ++ [pleaf (Some LvRBrace, [125%Z])].

Lemma spans_kinds (Q : nat -> Prop) ps : Forall (fun p : piece => exists k, fst p = Some k /\ Q k) ps -> forall off, Forall (fun t => Q (tk_kind t)) (spans off ps) /\ map tokleaf (spans off ps) = map pleaf ps.
Proof.
  intros F off. split; [|apply spans_leaves; eapply Forall_impl; [|exact F]; intros p (k & -> & _); discriminate]. revert off. induction F as [| [k s] ps (k' & E & H) _ IH]; intros off; [constructor|]. cbn [fst] in E. subst k. cbn [spans app]. constructor; [exact H | apply IH].
Qed.
Lemma sep_toks l off : sep_ok (spans off (nlp :: ilead l)) /\ map tokleaf (spans off (nlp :: ilead l)) = map pleaf (nlp :: ilead l).
Proof.
  split; [|apply spans_leaves; destruct l; repeat constructor; discriminate]. unfold nlp. cbn [spans app]. eexists _, _. split; [reflexivity|]. split; [reflexivity|]. destruct l; repeat constructor.
Qed.
Definition closed (st : list green * list green * bool) : list green := let '(p, c, f) := st in if f then p ++ [gnode LvBlock c] else p.

Section Tokens.
  Variables alpha alnum : Z -> bool.
  Hypothesis Tb : tables alpha alnum.
  Notation inst_ok := (inst_ok alpha alnum).
  Notation pblock_ok := (pblock_ok alpha alnum).
  Notation pparam_ok := (pparam_ok alpha alnum).

  Lemma not_in_name w c : vname_of alpha alnum w -> In c w -> (c < 45)%Z \/ c = 61%Z \/ c = 64%Z -> False.
  Proof. intros F I H. unfold vname_of in F. rewrite Forall_forall in F. destruct (F c I) as [_ V]. exact (not_name alpha alnum Tb c H V). Qed.
  Lemma name_no_brace w c : vname_of alpha alnum w -> In c w -> c <> 125%Z.
  Proof. intros F I ->. unfold vname_of in F. rewrite Forall_forall in F. destruct (F _ I) as [_ V]. apply (name_low alpha alnum Tb) in V; [|lia]. unfold vletter, vdigit in V. cbn in V. lia. Qed.
  Lemma ops_in l c : In c (ops_text l) -> c = 44%Z \/ c = 32%Z \/ exists o, In o l /\ In c o.
  Proof.
    induction l as [| o r IH]; [intros []|]. destruct r as [| o' r]; [intros I; right; right; exists o; split; [now left | exact I]|]. change (ops_text (o :: o' :: r)) with (o ++ lit ", " ++ ops_text (o' :: r)). intros I. apply in_app_or in I. destruct I as [I | I]; [right; right; exists o; split; [now left | exact I]|].
    apply in_app_or in I. destruct I as [I | I]; [vm_compute in I; lia|]. destruct (IH I) as [E | [E | (x & X & Y)]]; [now left | right; now left | right; right; exists x; split; [now right | exact Y]].
  Qed.
  Lemma itail_no_brace i : good_inst alpha alnum i -> ~ In 125%Z (itail i).
  Proof.
    intros (_ & [O _] & F) I. assert (Io : ~ In 125%Z (ops_text (li_operands i))). { intros J. apply ops_in in J. destruct J as [J | [J | (o & Io & J)]]; [discriminate | discriminate|]. rewrite Forall_forall in F. destruct (F o Io) as [_ [N _]]. now apply N. }
    unfold itail in I. destruct (li_result i); [|contradiction]. destruct I as [I | [I | I]]; [discriminate | discriminate|]. apply in_app_or in I. destruct I as [I | [I | I]]; [now apply (name_no_brace _ _ O I) | discriminate | contradiction].
  Qed.
  Lemma icore_kinds x : inst_ok x -> Forall (fun p : piece => exists k, fst p = Some k /\ k <> LvNewline /\ k <> LvRBrace) (icore x).
  Proof.
    destruct x as [i bp]. intros [G C]. cbn [fst snd] in *. unfold icore. cbn [fst snd]. constructor; [unfold ihead; destruct (li_result i); eexists; split; [reflexivity | split; discriminate | reflexivity | split; discriminate]|]. constructor; [eexists; split; [reflexivity | split; discriminate]|].
    pose proof (body_kinds alpha alnum _ _ C (itail_body alpha alnum i G)) as K. pose proof (cut_kinds alpha alnum [125%Z] _ _ ltac:(intros c [<- | []]; exists LvRBrace; cbn; tauto) C ltac:(intros c I [<- | []]; now apply (itail_no_brace i G))) as K2.
    rewrite Forall_forall in *. intros p I. destruct (K p I) as (k & E & N & _). exists k. split; [exact E|]. split; [exact N|]. intros ->. apply (K2 p I 125%Z LvRBrace); [now left | cbn; tauto | exact E].
  Qed.
  Lemma insts_toks l : Forall inst_ok l -> forall off, exists es, flat_map tok_entry es = spans off (ipieces l) /\ Forall entry_ok es /\
    forall pre cur flag rest, grow (es ++ rest) (pre, cur, flag) = grow rest (pre, cur ++ igreens l, flag || match l with [] => false | _ => true end).
  Proof.
    induction 1 as [| x r X _ IH]; intros off.
    - exists []. split; [reflexivity|]. split; [constructor|]. intros. cbn [app igreens]. now rewrite app_nil_r, orb_false_r.
    - cbn [ipieces igreens]. set (o1 := off + length (encode (text_of_pieces (icore x)))). set (o2 := o1 + length (encode (text_of_pieces (nlp :: ilead r)))). destruct (IH o2) as (es & Et & Eo & Eg). destruct (sep_toks r o1) as [S1 S2]. destruct (spans_kinds _ _ (icore_kinds x X) off) as [K1 K2].
      exists (TIns (spans off (icore x)) (spans o1 (nlp :: ilead r)) :: es). split; [|split].
      + cbn [flat_map tok_entry]. rewrite Et, !spans_app. fold o1 o2. now rewrite <- app_assoc.
      + constructor; [|exact Eo]. split; [exact S1|]. split; [exact K1|]. unfold icore, ihead. destruct (li_result (fst x)); cbn [spans app bl]; (eexists _, _, _; split; [reflexivity|]; split; [cbn; tauto | discriminate]).
      + intros. cbn [app grow entry_trees]. rewrite Eg. rewrite K2, S2. rewrite <- app_assoc. cbn [app orb]. now rewrite orb_true_r.
  Qed.
  Lemma block_toks b : pblock_ok b -> forall off, exists es, flat_map tok_entry es = spans off (bpieces b) /\ Forall entry_ok es /\
    forall pre cur flag rest, (labelled b \/ (cur = [] /\ flag = false)) -> grow (es ++ rest) (pre, cur, flag) = grow rest (if flag then pre ++ [gnode LvBlock cur] else pre, bchildren b, true).
  Proof.
    destruct b as [[l|] is]; intros [Fi L] off; unfold bpieces, bchildren; cbn [fst snd] in *.
    - set (o1 := off + length (encode l)). set (o2 := o1 + length (encode [58%Z])). set (o3 := o2 + length (encode (text_of_pieces (nlp :: ilead is)))). destruct (insts_toks is Fi o3) as (es & Et & Eo & Eg). destruct (sep_toks is o2) as [S1 S2].
      exists (TLab (Token LvKeyword off o1) (Token LvColon o1 o2) (spans o2 (nlp :: ilead is)) :: es). split; [|split].
      + cbn [flat_map tok_entry]. rewrite Et. unfold colon. cbn [spans]. fold o1 o2. cbn [app]. f_equal. f_equal. change (nlp :: ilead is ++ ipieces is) with ((nlp :: ilead is) ++ ipieces is). now rewrite spans_app.
      + constructor; [|exact Eo]. split; [reflexivity|]. split; [reflexivity | exact S1].
      + intros pre cur flag rest _. cbn [app grow entry_trees]. rewrite Eg. cbn [orb]. cbn [map]. rewrite S2. unfold o2, o1. rewrite !tokleaf_span. reflexivity.
    - destruct (insts_toks is Fi off) as (es & Et & Eo & Eg). exists es. split; [exact Et|]. split; [exact Eo|]. intros pre cur flag rest [A | [-> ->]]; [now destruct A|]. rewrite Eg. destruct is; [now destruct L | reflexivity].
  Qed.
  Lemma more_blocks bs : Forall pblock_ok bs -> Forall labelled bs -> forall off, exists es, flat_map tok_entry es = spans off (flat_map bpieces bs) /\ Forall entry_ok es /\
    forall pre cur, closed (grow es (pre, cur, true)) = pre ++ gnode LvBlock cur :: map bgreen bs.
  Proof.
    induction bs as [| b bs IH]; intros F L off.
    - exists []. split; [reflexivity|]. split; [constructor | reflexivity].
    - destruct (block_toks b (Forall_inv F) off) as (e1 & T1 & O1 & G1). destruct (IH (Forall_inv_tail F) (Forall_inv_tail L) (off + length (encode (text_of_pieces (bpieces b))))) as (e2 & T2 & O2 & G2).
      exists (e1 ++ e2). split; [cbn [flat_map]; now rewrite flat_map_app, T1, T2, spans_app|]. split; [apply Forall_app; now split|]. intros pre cur. rewrite G1 by (left; now apply Forall_inv in L). rewrite G2, <- app_assoc. reflexivity.
  Qed.
  Lemma blocks_toks bs : Forall pblock_ok bs -> Forall labelled (tl bs) -> forall off, exists es, flat_map tok_entry es = spans off (flat_map bpieces bs) /\ Forall entry_ok es /\ blocks_of es = map bgreen bs.
  Proof.
    intros F L off. destruct bs as [| b bs]; [exists []; split; [reflexivity|]; split; [constructor | reflexivity]|].
    destruct (block_toks b (Forall_inv F) off) as (e1 & T1 & O1 & G1). destruct (more_blocks bs (Forall_inv_tail F) L (off + length (encode (text_of_pieces (bpieces b))))) as (e2 & T2 & O2 & G2).
    exists (e1 ++ e2). split; [cbn [flat_map]; now rewrite flat_map_app, T1, T2, spans_app|]. split; [apply Forall_app; now split|]. unfold blocks_of. rewrite G1 by (right; now split). exact (G2 [] (bchildren b)).
  Qed.

  Lemma head_gapless w bp : vword alpha w -> cut (ll_piece alpha alnum) w bp -> exists k s r, bp = (Some k, s) :: r /\ gapless k.
  Proof.
    intros [N F] C. destruct w as [| c w]; [contradiction|]. destruct (body_head alpha alnum _ _ c w C eq_refl (Forall_inv F)) as (k & s & r & E & K). pose proof (body_kinds alpha alnum _ _ C (plain_body alpha _ F)) as B. rewrite E in B. apply Forall_inv in B. destruct B as (k' & [= <-] & B1 & B2). exists k, s, r. split; [exact E | now repeat split].
  Qed.
  Lemma params_toks l : Forall pparam_ok l -> forall off, exists ps, flat_map par_toks ps = spans off (ppieces l) /\ pars_ok ps /\ flat_map par_trees ps = pgreens l /\ (l = [] <-> ps = []).
  Proof.
    induction 1 as [| [p bp] r [[[Gt Gf] Gn] C] _ IH]; intros off.
    - exists []. split; [reflexivity|]. split; [exact I|]. split; [reflexivity | tauto].
    - cbn [ppieces pgreens fst snd] in *. set (o1 := off + length (encode (text_of_pieces (pcore (p, bp))))). set (o2 := o1 + length (encode (text_of_pieces (psep r)))). destruct (IH o2) as (ps & Et & Eo & Eg & En).
      assert (K : Forall (fun q : piece => exists k, fst q = Some k /\ k <> LvComma /\ k <> LvRParen) (pcore (p, bp))).
      { unfold pcore. cbn [fst snd]. apply Forall_app. split; [|constructor; [eexists; split; [reflexivity | split; discriminate]|]; constructor; [eexists; split; [reflexivity | split; discriminate] | constructor]].
        pose proof (body_kinds alpha alnum _ _ C (plain_body alpha _ (proj2 Gt))) as K. pose proof (cut_kinds alpha alnum [44; 41]%Z _ _ ltac:(intros c [<- | [<- | []]]; [exists LvComma | exists LvRParen]; cbn; tauto) C Gf) as K2.
        rewrite Forall_forall in *. intros q Iq. destruct (K q Iq) as (k & E & _). exists k. split; [exact E|]. split; intros ->; [apply (K2 q Iq 44%Z LvComma); [now left | cbn; tauto | exact E] | apply (K2 q Iq 41%Z LvRParen); [right; now left | cbn; tauto | exact E]]. }
      destruct (spans_kinds _ _ K off) as [K1 K2]. exists ((spans off (pcore (p, bp)), spans o1 (psep r)) :: ps). split; [|split; [|split]].
      + cbn [flat_map]. unfold par_toks at 1. cbn [fst snd]. rewrite Et, !spans_app. fold o1 o2. now rewrite <- app_assoc.
      + cbn [pars_ok]. split; [|split; [|exact Eo]].
        * split; [exact K1|]. destruct (head_gapless _ _ Gt C) as (k & s & q & -> & G). unfold pcore. cbn [fst snd app spans]. eexists _, _. split; [reflexivity | exact G].
        * destruct r as [| y r]; [rewrite (proj1 En eq_refl); reflexivity|]. destruct ps as [| z ps]; [discriminate (proj2 En eq_refl)|]. cbn [psep spans app]. eexists _, _. split; [reflexivity|]. split; [reflexivity | repeat constructor].
      + cbn [flat_map]. unfold par_trees at 1. cbn [fst snd]. rewrite K2, Eg. rewrite (spans_leaves (psep r)) by (destruct r; repeat constructor; discriminate). reflexivity.
      + split; discriminate.
  Qed.
End Tokens.

(** ** Words and blanks *)
Lemma strip_skip p a : Forall (fun c => p c = true) a -> forall w, ll_strip p (a ++ w) = ll_strip p w.
Proof. induction 1 as [| c a H _ IH]; intros w; [reflexivity|]. cbn [app ll_strip]. now rewrite H. Qed.
Definition edges (p : Z -> bool) (w : list Z) : Prop := (exists c r, w = c :: r /\ p c = false) /\ (exists c r, w = r ++ [c] /\ p c = false).
Lemma trim_edges p a w b : Forall (fun c => p c = true) a -> Forall (fun c => p c = true) b -> edges p w -> ll_trim p (a ++ w ++ b) = w.
Proof.
  intros A B [(c & r & E1 & P1) (d & q & E2 & P2)]. unfold ll_trim. rewrite (strip_skip p a A). assert (S1 : ll_strip p (w ++ b) = w ++ b) by (rewrite E1; cbn [app ll_strip]; now rewrite P1). rewrite S1, rev_app_distr. rewrite strip_skip by (apply Forall_rev, B).
  assert (S2 : ll_strip p (rev w) = rev w) by (rewrite E2, rev_app_distr; cbn [rev app ll_strip]; now rewrite P2). rewrite S2. apply rev_involutive.
Qed.
Lemma trim_tail p w b : Forall (fun c => p c = true) b -> edges p w -> ll_trim p (w ++ b) = w.
Proof. exact (trim_edges p [] w b (Forall_nil _)). Qed.
Lemma trim_lead p a w : Forall (fun c => p c = true) a -> edges p w -> ll_trim p (a ++ w) = w.
Proof. intros A E. rewrite <- (app_nil_r w) at 1. now apply trim_edges. Qed.
Lemma edges_all p w : Forall (fun c => p c = false) w -> w <> [] -> edges p w.
Proof.
  intros F N. split; [destruct w as [| c r]; [contradiction|]; exists c, r; split; [reflexivity | now apply Forall_inv in F]|]. destruct (exists_last N) as (r & c & ->). exists c, r. split; [reflexivity|]. apply Forall_app in F. destruct F as [_ F]. now apply Forall_inv in F.
Qed.
Lemma edges_app p a x b : edges p a -> edges p b -> edges p (a ++ x ++ b).
Proof. intros [(c & r & -> & P1) _] [_ (d & q & -> & P2)]. split; [exists c, (r ++ x ++ q ++ [d]); now split|]. exists d, ((c :: r) ++ x ++ q). split; [now rewrite <- !app_assoc | exact P2]. Qed.
Lemma word_edges alpha w : vword alpha w -> edges char_is_whitespace w.
Proof. intros [N F]. apply edges_all; [|exact N]. eapply Forall_impl; [|exact F]. now intros c (_ & H & _). Qed.
Lemma spaced_edges alpha w ws : vword alpha w -> Forall (vword alpha) ws -> edges char_is_whitespace (spaced (w :: ws)).
Proof.
  revert w. induction ws as [| w' ws IH]; intros w W F; [cbn [spaced]; now apply word_edges with alpha|]. change (spaced (w :: w' :: ws)) with (w ++ [32%Z] ++ spaced (w' :: ws)). apply edges_app; [now apply word_edges with alpha|]. apply IH; [now apply Forall_inv in F | now apply Forall_inv_tail in F].
Qed.
Fixpoint commas (l : list str) : list str := match l with [] => [] | [o] => [o] | o :: r => (o ++ [44%Z]) :: commas r end.
Lemma ops_spaced l : ops_text l = spaced (commas l).
Proof.
  induction l as [| o r IH]; [reflexivity|]. destruct r as [| o' r]; [reflexivity|]. change (ops_text (o :: o' :: r)) with (o ++ lit ", " ++ ops_text (o' :: r)). rewrite IH. assert (N : commas (o' :: r) <> []) by (destruct r; discriminate). change (commas (o :: o' :: r)) with ((o ++ [44%Z]) :: commas (o' :: r)).
  destruct (commas (o' :: r)) as [| x xs]; [contradiction|]. change (spaced ((o ++ [44%Z]) :: x :: xs)) with ((o ++ [44%Z]) ++ 32%Z :: spaced (x :: xs)). now rewrite <- app_assoc.
Qed.
Lemma split_first a b : ~ In 61%Z a -> ll_split (a ++ 61%Z :: b) = (a, Some b).
Proof. induction a as [| c a IH]; intros N; [reflexivity|]. cbn [app ll_split]. destruct (c =? 61)%Z eqn:E; [apply Z.eqb_eq in E; subst c; exfalso; apply N; now left|]. rewrite IH; [reflexivity | intros I; apply N; now right]. Qed.
Lemma split_none a : ~ In 61%Z a -> ll_split a = (a, None).
Proof. induction a as [| c a IH]; intros N; [reflexivity|]. cbn [ll_split]. destruct (c =? 61)%Z eqn:E; [apply Z.eqb_eq in E; subst c; exfalso; apply N; now left|]. rewrite IH; [reflexivity | intros I; apply N; now right]. Qed.

Section Values.
  Variables alpha alnum : Z -> bool.
  Hypothesis Tb : tables alpha alnum.

  Lemma name_strip c w : vname_of alpha alnum w -> (c < 45)%Z \/ c = 61%Z \/ c = 64%Z -> ll_strip (Z.eqb c) (c :: w) = w.
  Proof.
    intros F H. cbn [ll_strip]. rewrite Z.eqb_refl. destruct w as [| d w]; [reflexivity|]. cbn [ll_strip]. destruct (c =? d)%Z eqn:E; [|reflexivity]. apply Z.eqb_eq in E. subst d. exfalso. exact (not_in_name alpha alnum Tb _ c F (or_introl eq_refl) H).
  Qed.
  Lemma name_white c w : vname_of alpha alnum w -> char_is_whitespace c = false -> edges char_is_whitespace (c :: w).
  Proof. intros F H. apply edges_all; [|discriminate]. constructor; [exact H|]. eapply Forall_impl; [|exact F]. now intros d [(_ & W & _) _]. Qed.
  Lemma label_word w : vlabel alpha alnum w -> vword alpha w.
  Proof. intros (F & c & r & E & _). split; [rewrite E; discriminate | now apply (names_plain alpha alnum)]. Qed.
  Lemma comma_words l : Forall (voperand alpha) l -> Forall (vword alpha) (commas l) /\ map (ll_trim (Z.eqb 44)) (commas l) = l.
  Proof.
    assert (Tr : forall o b, voperand alpha o -> Forall (fun c => (44 =? c)%Z = true) b -> ll_trim (Z.eqb 44) (o ++ b) = o).
    { intros o b [[N F] (_ & H1 & H2)] B. apply (trim_edges (Z.eqb 44) [] o b (Forall_nil _) B). split.
      - destruct o as [| c r]; [contradiction|]. exists c, r. split; [reflexivity|]. apply Z.eqb_neq. intros <-. now apply H1.
      - destruct (exists_last N) as (r & c & E). exists c, r. split; [exact E|]. apply Z.eqb_neq. intros <-. apply H2. now rewrite E, rev_app_distr. }
    induction 1 as [| o r Ho _ [IH1 IH2]]; [split; [constructor | reflexivity]|]. pose proof Ho as [[N F] _]. destruct r as [| o' r].
    - cbn [commas map]. split; [constructor; [now split | constructor]|]. f_equal. rewrite <- (app_nil_r o) at 1. now apply Tr.
    - change (commas (o :: o' :: r)) with ((o ++ [44%Z]) :: commas (o' :: r)). split.
      + constructor; [|exact IH1]. split; [now destruct o|]. apply Forall_app. split; [exact F|]. constructor; [|constructor]. split; [unfold is_scalar; lia|]. split; [reflexivity|]. split; [lia|]. split; [lia|]. intros _. lia.
      + cbn [map]. rewrite IH2. f_equal. apply Tr; [exact Ho | repeat constructor].
  Qed.
  Lemma build_inst i : good_inst alpha alnum i -> ll_build_instruction (ll_trim char_is_whitespace (ll_print_inst i)) = [i].
  Proof.
    intros (R & O & F). pose proof (label_word _ O) as Ow. destruct (comma_words _ F) as [Cw Ct]. set (core := spaced (li_opcode i :: commas (li_operands i))).
    assert (Ec : exists b, Forall (fun c => char_is_whitespace c = true) b /\ li_opcode i ++ 32%Z :: ops_text (li_operands i) = core ++ b).
    { unfold core. rewrite ops_spaced. destruct (commas (li_operands i)) as [| x xs]; [exists [32%Z]; split; [repeat constructor | reflexivity]|]. exists []. split; [constructor|]. now rewrite app_nil_r. }
    destruct Ec as (b & Fb & Eb). pose proof (spaced_edges alpha _ _ Ow Cw) as Ed. fold core in Ed. pose proof (words_spaced alpha (li_opcode i :: commas (li_operands i)) ltac:(now constructor)) as Wd. fold core in Wd.
    rewrite print_inst_eq. unfold ihead, itail, ll_build_instruction. destruct (li_result i) as [r|] eqn:Er; cbn [snd].
    - rewrite Eb. assert (Ep : (37%Z :: r) ++ 32%Z :: 61%Z :: 32%Z :: core ++ b = [] ++ ((37%Z :: r) ++ [32; 61; 32]%Z ++ core) ++ b) by (cbn [app]; rewrite <- ?app_assoc; reflexivity).
      assert (Et : ll_trim char_is_whitespace ([] ++ ((37%Z :: r) ++ [32; 61; 32]%Z ++ core) ++ b) = (37%Z :: r) ++ [32; 61; 32]%Z ++ core) by (apply trim_edges; [constructor | exact Fb | apply edges_app; [now apply name_white | exact Ed]]). rewrite Ep, Et. clear Ep Et.
      assert (Es : (37%Z :: r) ++ [32; 61; 32]%Z ++ core = ((37%Z :: r) ++ [32%Z]) ++ 61%Z :: 32%Z :: core) by (rewrite <- app_assoc; reflexivity).
      rewrite Es, split_first. 2: { intros I. apply in_app_or in I. destruct I as [[I | I] | [I | []]]; [discriminate | | discriminate]. apply (not_in_name alpha alnum Tb r 61%Z R I). lia. }
      rewrite (trim_tail char_is_whitespace (37%Z :: r) [32%Z] ltac:(constructor; [reflexivity | constructor]) (name_white 37%Z r R eq_refl)). rewrite name_strip by (try exact R; lia).
      change (32%Z :: core) with ([32%Z] ++ core). rewrite (trim_lead char_is_whitespace [32%Z] core ltac:(constructor; [reflexivity | constructor]) Ed). unfold ll_operation. rewrite Wd, Ct. destruct i. cbn in *. now subst.
    - rewrite Eb. rewrite (trim_tail _ core b Fb Ed). rewrite split_none.
      + unfold ll_operation. rewrite Wd, Ct. destruct i. cbn in *. now subst.
      + intros I. assert (J : In 61%Z (li_opcode i ++ 32%Z :: ops_text (li_operands i))) by (rewrite Eb; apply in_or_app; now left). apply in_app_or in J. destruct J as [J | [J | J]]; [apply (not_in_name alpha alnum Tb _ 61%Z (proj1 O) J); lia | discriminate|].
        apply ops_in in J. destruct J as [J | [J | (o & Io & J)]]; [discriminate | discriminate|]. rewrite Forall_forall in R. exact (R o Io J).
  Qed.
End Values.

(** ** Building *)
Definition measured (gs : list green) (t : list Z) : Prop := list_sum (map glen gs) = length (encode t) /\ list_sum (map width gs) = length (encode t).
Lemma m_app a b s t : measured a s -> measured b t -> measured (a ++ b) (s ++ t).
Proof. intros [A1 A2] [B1 B2]. split; rewrite map_app, list_sum_app, encode_app, app_length; lia. Qed.
Lemma m_leaves ps : measured (map pleaf ps) (text_of_pieces ps).
Proof. split; [|apply leaves_width]. rewrite <- leaves_width. f_equal. rewrite !map_map. apply map_ext. intros [k s]. reflexivity. Qed.
Lemma m_node k ch t : measured ch t -> measured [gnode k ch] t.
Proof. intros [_ M]. split; cbn [map list_sum fold_right]; [unfold gnode; cbn [glen] | rewrite gnode_wide]; lia. Qed.
Lemma m_cons g r s t : measured [g] s -> measured r t -> measured (g :: r) (s ++ t).
Proof. apply (m_app [g] r). Qed.
Lemma seg p a b s : measured a s -> ll_placed (length (encode p)) (a ++ b) = ll_placed (length (encode p)) a ++ ll_placed (length (encode (p ++ s))) b.
Proof. intros [M _]. rewrite placed_app, M, encode_app, app_length. reflexivity. Qed.
Lemma node_text cs p s q k ch : Forall is_scalar cs -> cs = p ++ s ++ q -> measured ch s -> ll_text (encode cs) (length (encode p)) (gnode k ch) = s.
Proof. intros F E [_ M]. apply (text_at cs p s q); [exact F | exact E | reflexivity | unfold gnode; cbn [glen]; exact M]. Qed.
Lemma leaf_text cs p s q k : Forall is_scalar cs -> cs = p ++ s ++ q -> ll_text (encode cs) (length (encode p)) (pleaf (Some k, s)) = s.
Proof. intros F E. apply (text_at cs p s q); [exact F | exact E | reflexivity | reflexivity]. Qed.
Lemma m_insts l : measured (igreens l) (text_of_pieces (ipieces l)).
Proof. induction l as [| x r IH]; [now split|]. cbn [igreens ipieces]. rewrite !pieces_app. apply m_cons; [apply m_node, m_leaves|]. apply m_app; [apply m_leaves | exact IH]. Qed.
Lemma m_block b : measured (bchildren b) (text_of_pieces (bpieces b)).
Proof.
  destruct b as [[l|] is]; unfold bchildren, bpieces; cbn [fst snd]; [|apply m_insts]. change ((Some LvKeyword, l) :: colon :: (nlp :: ilead is) ++ ipieces is) with (((Some LvKeyword, l) :: colon :: nlp :: ilead is) ++ ipieces is). rewrite pieces_app. apply m_app; [apply m_leaves | apply m_insts].
Qed.
Lemma m_blocks bs : measured (map bgreen bs) (text_of_pieces (flat_map bpieces bs)).
Proof. induction bs as [| b bs IH]; [now split|]. cbn [map flat_map]. rewrite pieces_app. apply m_cons; [apply m_node, m_block | exact IH]. Qed.
Lemma m_params l : measured (pgreens l) (text_of_pieces (ppieces l)).
Proof. induction l as [| x r IH]; [now split|]. cbn [pgreens ppieces]. rewrite !pieces_app. apply m_cons; [apply m_node, m_leaves|]. apply m_app; [apply m_leaves | exact IH]. Qed.
Lemma m_fun f : measured (fchildren f) (text_of_pieces (ffront f)).
Proof.
  unfold fchildren, ffront. change ((Some LvKeyword, lit "define") :: bl :: ?x) with ([(Some LvKeyword, lit "define"); bl] ++ x). rewrite pieces_app. apply m_app; [apply m_leaves|]. rewrite pieces_app. apply m_cons; [apply m_node, m_leaves|].
  change ((Some LvGlobalVar, 64%Z :: pf_name f) :: ?x) with ([(Some LvGlobalVar, 64%Z :: pf_name f)] ++ x). rewrite pieces_app. apply m_cons; [apply (m_leaves [_])|].
  match goal with |- measured _ (text_of_pieces (?a :: ?b ++ ?c :: bl :: ?r)) => change (a :: b ++ c :: bl :: r) with ([a] ++ b ++ ([c; bl] ++ r)) end. rewrite (app_assoc [_]), (app_assoc (_ ++ _)), pieces_app. apply m_cons.
  - apply m_node. rewrite !pieces_app. rewrite <- app_assoc. apply m_cons; [apply (m_leaves [_])|]. apply m_app; [apply m_params | apply m_leaves].
  - match goal with |- measured _ (text_of_pieces (?a :: ?b ++ ?r)) => change (a :: b ++ r) with ((a :: b) ++ r) end. rewrite !pieces_app. apply m_app; [apply m_leaves|]. apply m_app; [apply m_blocks | apply (m_leaves [_])].
Qed.

Section Built.
  Variables alpha alnum : Z -> bool.
  Hypothesis Tb : tables alpha alnum.
  Variable cs : list Z.
  Hypothesis Sc : Forall is_scalar cs.

  Lemma block_leaves ps : Forall (fun p : piece => fst p <> Some LvKeyword) ps -> forall o b, fold_left (ll_block_part (encode cs)) (ll_placed o (map pleaf ps)) b = b.
  Proof.
    induction 1 as [| [k s] ps K _ IH]; intros o b; [reflexivity|]. cbn [map ll_placed fold_left]. rewrite IH. unfold ll_block_part, pleaf, leaf. cbn [fst snd] in *. destruct (lb_label b); [reflexivity|]. destruct k as [k|]; [|reflexivity]. destruct (k =? LvKeyword) eqn:E; [|reflexivity]. apply Nat.eqb_eq in E. subst k. now destruct K.
  Qed.
  Lemma sep_plain r : Forall (fun p : piece => fst p <> Some LvKeyword) (nlp :: ilead r).
  Proof. destruct r; repeat constructor; discriminate. Qed.
  Lemma fold_insts l : Forall (inst_ok alpha alnum) l -> forall p q lab acc, cs = p ++ text_of_pieces (ipieces l) ++ q ->
    fold_left (ll_block_part (encode cs)) (ll_placed (length (encode p)) (igreens l)) (LBlock lab acc) = LBlock lab (acc ++ map fst l).
  Proof.
    induction 1 as [| x r [G C] _ IH]; intros p q lab acc E; [cbn [igreens ll_placed fold_left map]; now rewrite app_nil_r|]. cbn [igreens ipieces] in *. rewrite !pieces_app, <- !app_assoc in E.
    change (gnode LvInstruction (map pleaf (icore x)) :: ?y) with ([gnode LvInstruction (map pleaf (icore x))] ++ y). rewrite (seg _ _ _ _ (m_node LvInstruction _ _ (m_leaves (icore x)))), fold_left_app, (seg _ _ _ _ (m_leaves (nlp :: ilead r))), fold_left_app. cbn [ll_placed fold_left].
    assert (T : ll_text (encode cs) (length (encode p)) (gnode LvInstruction (map pleaf (icore x))) = ll_print_inst (fst x)) by (rewrite (node_text cs p _ _ LvInstruction _ Sc E (m_leaves (icore x))); apply icore_text; exact (cut_text _ _ _ C)).
    unfold ll_block_part at 3. cbn [fst snd]. rewrite T. unfold gnode at 1. cbn iota. rewrite Nat.eqb_refl, (build_inst alpha alnum Tb _ G). cbn [lb_label lb_insts]. rewrite block_leaves by apply sep_plain.
    rewrite (IH ((p ++ text_of_pieces (icore x)) ++ text_of_pieces (nlp :: ilead r)) q) by (rewrite E; now rewrite <- !app_assoc). rewrite <- app_assoc. reflexivity.
  Qed.
  Lemma fold_block b : pblock_ok alpha alnum b -> forall p q, cs = p ++ text_of_pieces (bpieces b) ++ q ->
    fold_left (ll_block_part (encode cs)) (ll_placed (length (encode p)) (bchildren b)) (LBlock None []) = block_of b.
  Proof.
    destruct b as [[l|] is]; intros [Fi L] p q E; unfold bchildren, bpieces, block_of in *; cbn [fst snd] in *; [|now apply (fold_insts is Fi p q)].
    change ((Some LvKeyword, l) :: colon :: (nlp :: ilead is) ++ ipieces is) with ([(Some LvKeyword, l)] ++ (colon :: nlp :: ilead is) ++ ipieces is) in E. rewrite !pieces_app, <- !app_assoc in E.
    change (map pleaf ((Some LvKeyword, l) :: colon :: nlp :: ilead is) ++ igreens is) with (map pleaf [(Some LvKeyword, l)] ++ map pleaf (colon :: nlp :: ilead is) ++ igreens is). rewrite (seg _ _ _ _ (m_leaves [(Some LvKeyword, l)])), fold_left_app, (seg _ _ _ _ (m_leaves (colon :: nlp :: ilead is))), fold_left_app.
    change (text_of_pieces [(Some LvKeyword, l)]) with (l ++ []) in *. rewrite app_nil_r in *.
    assert (T : ll_block_part (encode cs) (LBlock None []) (length (encode p), pleaf (Some LvKeyword, l)) = LBlock (Some l) []).
    { pose proof (leaf_text cs p l _ LvKeyword Sc E) as Tl. exact (f_equal (fun t => LBlock (Some t) []) Tl). }
    change (fold_left (ll_block_part (encode cs)) (ll_placed (length (encode p)) (map pleaf [(Some LvKeyword, l)])) (LBlock None [])) with (ll_block_part (encode cs) (LBlock None []) (length (encode p), pleaf (Some LvKeyword, l))). rewrite T.
    rewrite block_leaves by (constructor; [discriminate | apply sep_plain]). apply (fold_insts is Fi ((p ++ l) ++ text_of_pieces (colon :: nlp :: ilead is)) q). rewrite E. now rewrite <- !app_assoc.
  Qed.
  Lemma build_params l : Forall (pparam_ok alpha alnum) l -> forall p q, cs = p ++ text_of_pieces (ppieces l) ++ q -> flat_map (ll_build_parameter (encode cs)) (ll_placed (length (encode p)) (pgreens l)) = map fst l.
  Proof.
    assert (Lf : forall ps o, flat_map (ll_build_parameter (encode cs)) (ll_placed o (map pleaf ps)) = []) by (induction ps as [| x ps IHp]; intros o; [reflexivity | exact (IHp _)]).
    induction 1 as [| [x bp] r [[[Gt Gf] Gn] C] _ IH]; intros p q E; [reflexivity|]. cbn [pgreens ppieces fst snd] in *. rewrite !pieces_app, <- !app_assoc in E.
    change (gnode LvParameter (map pleaf (pcore (x, bp))) :: ?y) with ([gnode LvParameter (map pleaf (pcore (x, bp)))] ++ y). rewrite (seg _ _ _ _ (m_node LvParameter _ _ (m_leaves (pcore (x, bp))))), flat_map_app, (seg _ _ _ _ (m_leaves (psep r))), flat_map_app, Lf.
    rewrite (IH ((p ++ text_of_pieces (pcore (x, bp))) ++ text_of_pieces (psep r)) q) by (rewrite E; now rewrite <- !app_assoc). cbn [ll_placed flat_map app map fst]. rewrite app_nil_r.
    assert (T : ll_text (encode cs) (length (encode p)) (gnode LvParameter (map pleaf (pcore (x, bp)))) = spaced [lp_ty x; 37%Z :: lp_name x]).
    { rewrite (node_text cs p _ _ LvParameter _ Sc E (m_leaves (pcore (x, bp)))). unfold pcore. rewrite pieces_app. cbn [fst snd]. rewrite (cut_text _ _ _ C). unfold text_of_pieces. cbn [flat_map snd bl app spaced]. now rewrite app_nil_r. }
    assert (W : Forall (vword alpha) [lp_ty x; 37%Z :: lp_name x]).
    { constructor; [exact Gt|]. constructor; [|constructor]. split; [discriminate|]. constructor; [|now apply (names_plain alpha alnum)]. split; [unfold is_scalar; lia|]. split; [reflexivity|]. split; [lia|]. split; [lia|]. intros _. lia. }
    pose proof (spaced_edges alpha _ _ (Forall_inv W) (Forall_inv_tail W)) as Ed.
    assert (Et : ll_trim char_is_whitespace (spaced [lp_ty x; 37%Z :: lp_name x]) = spaced [lp_ty x; 37%Z :: lp_name x]) by (rewrite <- (app_nil_r (spaced _)) at 1; now apply trim_tail).
    unfold ll_build_parameter. cbn [fst snd]. rewrite T. unfold gnode at 1. cbn iota. rewrite Nat.eqb_refl. cbv zeta. rewrite Et, (words_spaced alpha _ W). rewrite (name_strip alpha alnum Tb 37%Z (lp_name x) Gn) by lia. destruct Gt as [Nt _]. destruct x as [ty nm]. cbn [lp_ty lp_name] in *. destruct ty; [contradiction | reflexivity].
  Qed.

  Lemma fun_leaves ps : Forall (fun p : piece => fst p <> Some LvGlobalVar) ps -> forall o f, fold_left (ll_function_part (encode cs)) (ll_placed o (map pleaf ps)) f = f.
  Proof.
    induction 1 as [| [k s] ps K _ IH]; intros o f; [reflexivity|]. cbn [map ll_placed fold_left]. rewrite IH. unfold ll_function_part, pleaf, leaf. cbn [fst snd] in *. destruct k as [k|]; [|reflexivity]. destruct (k =? LvGlobalVar) eqn:E; [|reflexivity]. apply Nat.eqb_eq in E. subst k. now destruct K.
  Qed.
  Lemma fold_blocks bs : Forall (pblock_ok alpha alnum) bs -> forall p q n r ps acc, cs = p ++ text_of_pieces (flat_map bpieces bs) ++ q ->
    fold_left (ll_function_part (encode cs)) (ll_placed (length (encode p)) (map bgreen bs)) (LFunction n r ps acc) = LFunction n r ps (acc ++ map block_of bs).
  Proof.
    induction 1 as [| b bs B _ IH]; intros p q n r ps acc E; [cbn [map ll_placed fold_left]; now rewrite app_nil_r|]. cbn [map flat_map] in *. rewrite pieces_app, <- app_assoc in E.
    change (bgreen b :: ?y) with ([bgreen b] ++ y). rewrite (seg p [bgreen b] _ _ (m_node LvBlock _ _ (m_block b))), fold_left_app.
    assert (T : fold_left (ll_function_part (encode cs)) (ll_placed (length (encode p)) [bgreen b]) (LFunction n r ps acc) = LFunction n r ps (acc ++ [block_of b])).
    { pose proof (fold_block b B p _ E) as Tb'. cbn [ll_placed fold_left]. unfold ll_function_part, bgreen, gnode. cbn [ll_children]. change (LvBlock =? LvIdentifier) with false. change (LvBlock =? LvParameter) with false. rewrite Nat.eqb_refl. cbn [andb lf_name lf_ret lf_params lf_blocks]. now rewrite Tb'. }
    rewrite T, (IH (p ++ text_of_pieces (bpieces b)) q) by (rewrite E; now rewrite <- app_assoc). now rewrite <- app_assoc.
  Qed.
  Lemma build_fun f : pfun_ok alpha alnum f -> forall p q, cs = p ++ text_of_pieces (ffront f) ++ q -> ll_build_function (encode cs) (length (encode p)) (gnode LvFunction (fchildren f)) = fun_of f.
  Proof.
    intros (N & [Wr R] & C & P & B & L) p q E. unfold ll_build_function. cbn [ll_children gnode]. unfold fchildren. unfold ffront in E.
    set (A := [(Some LvKeyword, lit "define"); bl]) in *. set (nm := (Some LvGlobalVar, 64%Z :: pf_name f) : piece) in *. set (lp := (Some LvLParen, [40%Z]) : piece) in *. set (rp := [(Some LvRParen, [41%Z]); bl]) in *. set (lb := (Some LvLBrace, [123%Z]) : piece) in *. set (rb := (Some LvRBrace, [125%Z]) : piece) in *.
    set (F := ll_function_part (encode cs)).
    assert (E' : cs = p ++ text_of_pieces A ++ text_of_pieces (pf_rp f ++ [bl]) ++ text_of_pieces [nm] ++ (text_of_pieces [lp] ++ text_of_pieces (ppieces (pf_params f)) ++ text_of_pieces rp) ++ text_of_pieces (lb :: sep0 (pf_blocks f)) ++ text_of_pieces (flat_map bpieces (pf_blocks f)) ++ text_of_pieces [rb] ++ q).
    { rewrite E. f_equal. rewrite <- !pieces_app, !app_assoc. f_equal. rewrite <- !pieces_app. f_equal. unfold A, rp. repeat (first [rewrite <- app_assoc | progress (cbn [app])]). reflexivity. }
    clear E. rename E' into E. set (I := gnode LvIdentifier (map pleaf (pf_rp f ++ [bl]))). set (G := gnode LvParameter (pleaf lp :: pgreens (pf_params f) ++ map pleaf rp)).
    change (I :: pleaf nm :: G :: ?x) with ([I] ++ map pleaf [nm] ++ [G] ++ x).
    assert (MG : measured [G] (text_of_pieces [lp] ++ text_of_pieces (ppieces (pf_params f)) ++ text_of_pieces rp)) by (apply m_node; apply m_cons; [apply (m_leaves [lp])|]; apply m_app; [apply m_params | apply m_leaves]).
    rewrite (seg _ _ _ _ (m_leaves A)), fold_left_app. unfold F at 2. rewrite fun_leaves by (repeat constructor; discriminate).
    set (p1 := p ++ text_of_pieces A). rewrite (seg p1 [I] _ _ (m_node LvIdentifier _ _ (m_leaves (pf_rp f ++ [bl])))), fold_left_app.
    assert (E1 : cs = p1 ++ text_of_pieces (pf_rp f ++ [bl]) ++ text_of_pieces [nm] ++ (text_of_pieces [lp] ++ text_of_pieces (ppieces (pf_params f)) ++ text_of_pieces rp) ++ text_of_pieces (lb :: sep0 (pf_blocks f)) ++ text_of_pieces (flat_map bpieces (pf_blocks f)) ++ text_of_pieces [rb] ++ q) by (rewrite E; unfold p1; rewrite <- !app_assoc; reflexivity).
    assert (T1 : fold_left F (ll_placed (length (encode p1)) [I]) (LFunction [] [] [] []) = LFunction [] (pf_ret f) [] []).
    { pose proof (node_text cs p1 _ _ LvIdentifier _ Sc E1 (m_leaves (pf_rp f ++ [bl]))) as T. cbn [ll_placed fold_left]. unfold F, ll_function_part. unfold I at 1. unfold gnode at 1. cbn iota. rewrite Nat.eqb_refl. cbn [lf_name lf_ret lf_params lf_blocks andb]. fold I in T. rewrite T. rewrite pieces_app, (cut_text _ _ _ C).
      change (text_of_pieces [bl]) with [32%Z]. rewrite (trim_tail char_is_whitespace (pf_ret f) [32%Z] ltac:(constructor; [reflexivity | constructor]) (word_edges alpha _ Wr)). reflexivity. }
    rewrite T1. set (p2 := p1 ++ text_of_pieces (pf_rp f ++ [bl])). rewrite (seg _ _ _ _ (m_leaves [nm])), fold_left_app.
    assert (E2 : cs = p2 ++ (64%Z :: pf_name f) ++ (text_of_pieces [lp] ++ text_of_pieces (ppieces (pf_params f)) ++ text_of_pieces rp) ++ text_of_pieces (lb :: sep0 (pf_blocks f)) ++ text_of_pieces (flat_map bpieces (pf_blocks f)) ++ text_of_pieces [rb] ++ q).
    { rewrite E1. unfold p2, nm. change (text_of_pieces [(Some LvGlobalVar, 64%Z :: pf_name f)]) with ((64%Z :: pf_name f) ++ []). rewrite app_nil_r. rewrite <- !app_assoc. reflexivity. }
    assert (T2 : fold_left F (ll_placed (length (encode p2)) (map pleaf [nm])) (LFunction [] (pf_ret f) [] []) = LFunction (pf_name f) (pf_ret f) [] []).
    { pose proof (leaf_text cs p2 _ _ LvGlobalVar Sc E2) as T. etransitivity; [exact (f_equal (fun t => LFunction (ll_strip (Z.eqb 64) t) (pf_ret f) [] []) T)|]. cbv beta. now rewrite (name_strip alpha alnum Tb 64%Z _ N) by lia. }
    rewrite T2. set (p3 := p2 ++ text_of_pieces [nm]). rewrite (seg _ _ _ _ MG), fold_left_app.
    assert (E3 : cs = p3 ++ (text_of_pieces [lp] ++ text_of_pieces (ppieces (pf_params f)) ++ text_of_pieces rp) ++ text_of_pieces (lb :: sep0 (pf_blocks f)) ++ text_of_pieces (flat_map bpieces (pf_blocks f)) ++ text_of_pieces [rb] ++ q) by (rewrite E1; unfold p3, p2; now rewrite <- !app_assoc).
    assert (T3 : fold_left F (ll_placed (length (encode p3)) [G]) (LFunction (pf_name f) (pf_ret f) [] []) = LFunction (pf_name f) (pf_ret f) (map fst (pf_params f)) []).
    { assert (Lf : forall ps o, flat_map (ll_build_parameter (encode cs)) (ll_placed o (map pleaf ps)) = []) by (induction ps as [| x ps IHp]; intros o; [reflexivity | exact (IHp _)]).
      cbn [ll_placed fold_left]. unfold F, ll_function_part, G, gnode. cbn [ll_children]. change (LvParameter =? LvIdentifier) with false. rewrite Nat.eqb_refl. cbn [andb lf_name lf_ret lf_params lf_blocks app]. f_equal. change (pleaf lp :: ?x) with (map pleaf [lp] ++ x).
      rewrite (seg _ _ _ _ (m_leaves [lp])), flat_map_app, Lf, (seg _ _ _ _ (m_params (pf_params f))), flat_map_app, Lf, app_nil_r. cbn [app]. eapply (build_params (pf_params f) P (p3 ++ text_of_pieces [lp])). rewrite E3. rewrite <- !app_assoc. reflexivity. }
    rewrite T3. match goal with |- context [p3 ++ ?t] => set (p4 := p3 ++ t) end. rewrite (seg _ _ _ _ (m_leaves (lb :: sep0 (pf_blocks f)))), fold_left_app. unfold F at 2. rewrite fun_leaves by (unfold sep0; constructor; [discriminate|]; constructor; [discriminate|]; destruct (pf_blocks f) as [| [[l|] is] bs]; repeat constructor; discriminate).
    rewrite (seg _ _ _ _ (m_blocks (pf_blocks f))), fold_left_app. unfold F at 2. rewrite (fold_blocks (pf_blocks f) B _ (text_of_pieces [rb] ++ q)) by (rewrite E3; unfold p4; now rewrite <- !app_assoc).
    unfold F. rewrite (fun_leaves [rb]) by (repeat constructor; discriminate). reflexivity.
  Qed.
End Built.
