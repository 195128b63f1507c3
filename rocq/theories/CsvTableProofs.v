(** Tables are read as they were written. *)
From Verif Require Import Base Utf8 Utf8Facts ScanSpec CursorModel CursorSpec CursorProofs LexModel.
From Verif Require Import TreeModel TreeSpec TreeProofs ParserModel ParserSpec ParserProofs.
From Verif Require Import JsonLangSpec JsonLexProofs LangModel LangSpec LangLexProofs LangParseProofs CsvModel CsvSpec CsvProofs.

(** The pieces of a table. *)
Definition blanks_p (l : list Z) : list piece := match l with [] => [] | _ => [(Some CWhitespace, l)] end.
Definition field_p (c : cell) : list piece :=
  match c with
  | Plain _ [] => []
  | Plain _ s => [(Some CField, s)]
  | Quoted _ s t => (Some CField, quoted s) :: blanks_p t
  end.
Definition cell_p (c : cell) : list piece := blanks_p (cell_lead c) ++ field_p c.
Definition more_p (cs : list cell) : list piece := flat_map (fun c => (Some CComma, [44%Z]) :: cell_p c) cs.
Definition row_p (r : row) : list piece := cell_p (fst r) ++ more_p (snd r).
Fixpoint lines_p (ls : list (row * line_end)) (after : list piece) : list piece :=
  match ls with
  | [] => after
  | (r, e) :: ls => row_p r ++ (Some CNewline, end_text e) :: lines_p ls after
  end.
Definition last_p (o : option row) : list piece := match o with Some r => row_p r | None => [] end.
Definition table_p (t : table) : list piece := lines_p (fst t) (last_p (snd t)).

Notation ctok := (csv_token csv_default).

(** ** Lexing *)
Definition ends_cell (r : list Z) : Prop := match r with [] => True | c :: _ => c = 44%Z \/ line_char c end.
Lemma ends_not_blank r : ends_cell r -> forall c, hd_error r = Some c -> ~ blank c.
Proof. intros E c H. destruct r; [discriminate|]. injection H as ->. unfold blank. destruct E as [-> | [-> | ->]]; intros [X | X]; discriminate. Qed.

Lemma cut_blanks l r ps : Forall blank l -> (forall c, hd_error r = Some c -> ~ blank c) -> cut ctok r ps -> cut ctok (l ++ r) (blanks_p l ++ ps).
Proof. intros F H C. destruct l as [| c l]; [exact C|]. cbn [blanks_p]. apply (CutPiece ctok (Some CWhitespace) (c :: l) r ps); [discriminate | now constructor | assumption]. Qed.
Lemma twice_doubled s : doubled 34 (twice s).
Proof. induction s as [| c s IH]; [constructor|]. cbn [twice flat_map]. destruct (Z.eqb_spec c 34) as [-> | N]; [now apply DQuote | now apply DChar]. Qed.
Lemma default_quoting : quoting csv_default.
Proof. unfold quoting, blank, line_char. cbn. repeat split; try (intros [X | X]; discriminate). discriminate. Qed.

Lemma cut_field c r ps : cell_ok c -> ends_cell r -> cut ctok r ps ->
  cut ctok (match c with Plain _ s => s | Quoted _ s t => quoted s ++ t end ++ r) (field_p c ++ ps) /\ (forall x, hd_error (match c with Plain _ s => s | Quoted _ s t => quoted s ++ t end ++ r) = Some x -> ~ blank x).
Proof.
  intros K E C. destruct c as [l s | l s t]; destruct K as (L & F & H).
  - destruct s as [| c s]; cbn [app field_p]; [split; [assumption | now apply ends_not_blank]|]. destruct (H c eq_refl) as [B Q]. split; [|intros x X; injection X as <-; assumption].
    apply (CutPiece ctok (Some CField) (c :: s) r ps); [discriminate | | assumption]. apply TkPlain; [assumption | exact Q | |].
    + revert F. apply Forall_impl. intros x (_ & X1 & X2). now split.
    + intros x X. destruct r as [| y r]; [discriminate|]. injection X as ->. destruct E as [-> | E]; [now right | now left].
  - cbn [field_p app]. split; [|intros x X; injection X as <-; intros [Y | Y]; discriminate]. rewrite <- app_assoc. apply (CutPiece ctok (Some CField) (quoted s) (t ++ r) (blanks_p t ++ ps)); [discriminate | |].
    + apply (TkQuoted csv_default (twice s)); [apply default_quoting | apply twice_doubled|]. cbn. destruct t as [| y t]; [destruct r as [| y r]; [discriminate|]; cbn; destruct E as [-> | [-> | ->]]; discriminate|]. inversion H as [| a b Hy _]. cbn. destruct Hy as [-> | ->]; discriminate.
    + apply cut_blanks; [assumption | now apply ends_not_blank | assumption].
Qed.
Lemma cut_cell c r ps : cell_ok c -> ends_cell r -> cut ctok r ps -> cut ctok (cell_text c ++ r) (cell_p c ++ ps).
Proof.
  intros K E C. destruct (cut_field c r ps K E C) as [C1 H1]. unfold cell_p. rewrite <- app_assoc.
  replace (cell_text c ++ r) with (cell_lead c ++ match c with Plain _ s => s | Quoted _ s t => quoted s ++ t end ++ r) by (destruct c; cbn [cell_text cell_lead]; now rewrite !app_assoc).
  apply cut_blanks; [destruct c; apply K | assumption | assumption].
Qed.
Lemma cut_comma r ps : cut ctok r ps -> cut ctok (44%Z :: r) ((Some CComma, [44%Z]) :: ps).
Proof. intros C. apply (CutPiece ctok (Some CComma) [44%Z] r ps); [discriminate | | assumption]. apply (TkSep csv_default); intros [X | X]; discriminate. Qed.
Lemma cut_more cs r ps : Forall cell_ok cs -> ends_cell r -> cut ctok r ps -> cut ctok (flat_map (fun c => 44%Z :: cell_text c) cs ++ r) (more_p cs ++ ps) /\ ends_cell (flat_map (fun c => 44%Z :: cell_text c) cs ++ r).
Proof.
  intros F E C. induction F as [| c cs K _ [IH1 IH2]]; [now split|]. cbn [flat_map more_p app]. split; [|now left]. rewrite <- !app_assoc. apply cut_comma. fold (more_p cs). now apply cut_cell.
Qed.
Lemma cut_row r t ps : row_ok r -> ends_cell t -> cut ctok t ps -> cut ctok (row_text r ++ t) (row_p r ++ ps).
Proof. intros [K F] E C. unfold row_text, row_p. rewrite <- !app_assoc. destruct (cut_more (snd r) t ps F E C) as [C1 E1]. now apply cut_cell. Qed.
Lemma cut_lines ls after ps : lines_ok ls after -> cut ctok after ps -> cut ctok (lines_text ls after) (lines_p ls ps).
Proof.
  induction ls as [| [r e] ls IH]; intros H C; [assumption|]. cbn [lines_ok lines_text lines_p] in *. destruct H as (K & Hc & H). apply cut_row; [assumption | destruct e; cbn; [right; now left | right; now right | right; now right]|].
  apply (CutPiece ctok (Some CNewline) (end_text e)); [now destruct e | | now apply IH]. destruct e; cbn [end_text]; [constructor | constructor | apply TkCr; now apply Hc].
Qed.
Lemma cut_table t : table_ok t -> cut ctok (table_text t) (table_p t).
Proof.
  intros [H K]. apply cut_lines; [assumption|]. destruct (snd t) as [r|]; [|constructor]. destruct K as [K _]. cbn [last_text last_p]. rewrite <- (app_nil_r (row_text r)), <- (app_nil_r (row_p r)). apply cut_row; [assumption | exact I | constructor].
Qed.

(** ** Parsing *)
Notation ys_of := (flat_map piece_yield).
Definition ends_y (ys : list (nat * nat)) : Prop := match ys with [] => False | y :: _ => fst y = CComma \/ fst y = CNewline \/ fst y = CEof end.
Lemma ends_nxt ys : ends_y ys -> nxt ys = ys /\ tri ys = [].
Proof. destruct ys as [| y r]; [contradiction|]. cbn. intros [-> | [-> | ->]]; now cbn. Qed.
Lemma blanks_nxt l ys : nxt (ys_of (blanks_p l) ++ ys) = nxt ys /\ map yleaf (tri (ys_of (blanks_p l) ++ ys)) = blanks l ++ map yleaf (tri ys).
Proof. destruct l; [now split|]. now split. Qed.

(** After the blanks before it a cell begins with its field. *)
Lemma field_nxt c ys : ends_y ys -> nxt (ys_of (field_p c) ++ ys) = ys_of (field_p c) ++ ys /\ tri (ys_of (field_p c) ++ ys) = [].
Proof. intros E. destruct c as [l [| x s] | l s t]; cbn [field_p flat_map app]; [now apply ends_nxt | now split | now split]. Qed.
Lemma pfield_cell c ys : ends_y ys -> pfield (ys_of (field_p c) ++ ys) = (field_tree c, ys).
Proof.
  intros E. destruct (ends_nxt ys E) as [N T]. destruct c as [l [| x s] | l s t].
  - cbn [field_p flat_map app]. destruct ys as [| y r]; [contradiction|]. cbn [pfield]. destruct (Nat.eqb_spec (fst y) CField) as [X|]; [|reflexivity]. destruct E as [E | [E | E]]; rewrite X in E; discriminate.
  - cbn [field_p flat_map app piece_yield fst snd pfield]. cbn [Nat.eqb CField]. now rewrite N, T.
  - cbn [field_p flat_map app piece_yield fst snd pfield]. cbn [Nat.eqb CField]. destruct (blanks_nxt t ys) as [N' T']. now rewrite N', T', N, T, app_nil_r.
Qed.

Lemma ends_more cs ys : ends_y ys -> ends_y (ys_of (more_p cs) ++ ys).
Proof. destruct cs; [auto|]. intros _. now left. Qed.
Lemma pfields_more cs : forall n ys, ends_y ys -> match ys with y :: _ => fst y <> CComma | [] => True end -> length cs <= n ->
  pfields n (ys_of (more_p cs) ++ ys) = (flat_map (fun c => leaf CComma [44%Z] :: blanks (cell_lead c) ++ [field_tree c]) cs, ys).
Proof.
  induction cs as [| c cs IH]; intros n ys E Nc L.
  - cbn [more_p flat_map app]. destruct n as [| n]; [reflexivity|]. destruct ys as [| y r]; [reflexivity|]. cbn [pfields]. destruct (Nat.eqb_spec (fst y) CComma); [contradiction | reflexivity].
  - cbn [length] in L. destruct n as [| n]; [lia|]. cbn [more_p flat_map app piece_yield fst snd pfields]. cbn [Nat.eqb CComma]. fold (more_p cs). unfold cell_p. rewrite !flat_map_app, <- !app_assoc.
    set (ys' := ys_of (more_p cs) ++ ys). change (flat_map piece_yield (more_p cs) ++ ys) with ys'. assert (E' : ends_y ys') by now apply ends_more.
    destruct (blanks_nxt (cell_lead c) (ys_of (field_p c) ++ ys')) as [N1 T1]. destruct (field_nxt c ys' E') as [N2 T2]. rewrite N1, T1, N2, T2. rewrite (pfield_cell c ys' E'). unfold ys'. rewrite (IH n ys E Nc) by lia.
    cbn [map]. rewrite !app_nil_r. cbn [app]. f_equal.
Qed.
Lemma more_length cs ys : length cs <= length (ys_of (more_p cs) ++ ys).
Proof.
  rewrite app_length. enough (length cs <= length (ys_of (more_p cs))) by lia. induction cs as [| c cs IH]; [cbn; lia|]. change (more_p (c :: cs)) with ((Some CComma, [44%Z]) :: cell_p c ++ more_p cs). cbn [flat_map piece_yield fst app length]. rewrite flat_map_app, app_length. apply le_n_S.
  apply (Nat.le_trans _ _ _ IH). apply Nat.le_add_l.
Qed.

Definition body_y (r : row) : list (nat * nat) := ys_of (field_p (fst r)) ++ ys_of (more_p (snd r)).
Lemma precord_row r ys : ends_y ys -> match ys with y :: _ => fst y <> CComma | [] => True end -> precord (body_y r ++ ys) = (record_tree r, ys).
Proof.
  intros E N. unfold precord, body_y. rewrite <- app_assoc. rewrite (pfield_cell (fst r) _ (ends_more (snd r) ys E)). rewrite pfields_more; [reflexivity | assumption | assumption | apply more_length].
Qed.
Lemma row_nxt r ys : ends_y ys -> nxt (ys_of (row_p r) ++ ys) = body_y r ++ ys /\ map yleaf (tri (ys_of (row_p r) ++ ys)) = blanks (cell_lead (fst r)).
Proof.
  intros E. unfold row_p, cell_p, body_y. rewrite !flat_map_app, <- !app_assoc. pose proof (ends_more (snd r) ys E) as E'. destruct (blanks_nxt (cell_lead (fst r)) (ys_of (field_p (fst r)) ++ ys_of (more_p (snd r)) ++ ys)) as [-> ->]. destruct (field_nxt (fst r) _ E') as [-> ->]. split; [reflexivity|]. now rewrite app_nil_r.
Qed.

Notation eof_y := (CEof, 0).
Definition start (ys : list (nat * nat)) : Prop := match ys with y :: _ => fst y <> CEof | [] => False end.
Lemma body_start r ys : ends_y ys -> start ys \/ (forall l, r <> (Plain l [], [])) -> start (body_y r ++ ys).
Proof.
  intros E H. unfold body_y. destruct r as [[l [| x s] | l s t] cs]; cbn [fst snd field_p flat_map app piece_yield start]; try discriminate. destruct cs as [| c cs]; cbn [more_p flat_map app piece_yield fst start]; [|discriminate]. destruct H as [H | H]; [assumption|]. exfalso. now apply (H l).
Qed.

Lemma precords_table ls o : match o with Some r => forall l, r <> (Plain l [], []) | None => True end ->
  let ys := ys_of (lines_p ls (last_p o)) ++ [eof_y] in
  forall n, length (nxt ys) <= n -> map yleaf (tri ys) ++ fst (precords n (nxt ys)) =
    flat_map (fun le => row_trees (fst le) ++ [leaf CNewline (end_text (snd le))]) ls ++ match o with Some r => row_trees r | None => [] end.
Proof.
  intros Ho. induction ls as [| [r e] ls IH]; intros ys n L; subst ys.
  - cbn [lines_p flat_map app] in *. destruct o as [r|]; cbn [last_p] in *.
    + assert (E : ends_y [eof_y]) by (right; now right). destruct (row_nxt r [eof_y] E) as [N T]. rewrite N in *. rewrite T. unfold row_trees. f_equal. pose proof (body_start r [eof_y] E (or_intror Ho)) as St.
      destruct n as [| n]; [rewrite app_length in L; cbn in L; lia|]. destruct (body_y r ++ [eof_y]) as [| y b] eqn:Eb; [contradiction|]. cbn [precords]. destruct (Nat.eqb_spec (fst y) CEof); [contradiction|]. rewrite <- Eb, (precord_row r [eof_y] E) by (cbn; discriminate). cbn. destruct n; reflexivity.
    + cbn. destruct n; reflexivity.
  - cbn [lines_p] in *. rewrite flat_map_app, <- app_assoc in *. cbn [flat_map piece_yield fst snd app] in *. set (tail := ys_of (lines_p ls (last_p o)) ++ [eof_y]) in *. set (ny := (CNewline, length (encode (end_text e)))) in *.
    assert (E : ends_y (ny :: tail)) by (right; now left). destruct (row_nxt r (ny :: tail) E) as [N T]. rewrite N in *. rewrite T. unfold row_trees at 1. rewrite <- !app_assoc. f_equal.
    assert (St : start (body_y r ++ ny :: tail)) by (apply body_start; [assumption | left; cbn; discriminate]). destruct n as [| n]; [rewrite app_length in L; cbn in L; lia|]. destruct (body_y r ++ ny :: tail) as [| y b] eqn:Eb; [contradiction|]. cbn [precords]. destruct (Nat.eqb_spec (fst y) CEof); [contradiction|].
    rewrite <- Eb, (precord_row r _ E) by (cbn; discriminate). cbn [pnewline]. change (fst ny =? CNewline) with true. cbn iota.
    assert (Ln : length (nxt tail) <= n). { pose proof (nxt_length tail). apply (f_equal (@length (nat * nat))) in Eb. rewrite app_length in Eb. cbn [length] in *. lia. }
    specialize (IH n Ln). destruct (precords n (nxt tail)) as [gs r2]. cbn [fst] in *. cbn [app]. f_equal. unfold ny. rewrite yleaf_leaf. f_equal. rewrite <- IH. reflexivity.
Qed.

(** ** The text of a table *)
Lemma blank_scalar l : Forall blank l -> Forall is_scalar l.
Proof. apply Forall_impl. intros c [-> | ->]; unfold is_scalar; lia. Qed.
Lemma twice_scalar s : Forall is_scalar s -> Forall is_scalar (twice s).
Proof. induction 1 as [| c s H _ IH]; [constructor|]. cbn [twice flat_map]. apply Forall_app. split; [|assumption]. destruct (c =? 34)%Z; repeat (apply Forall_cons; [assumption|]); apply Forall_nil. Qed.
Lemma cell_scalar c : cell_ok c -> Forall is_scalar (cell_text c).
Proof.
  destruct c as [l s | l s t]; cbn [cell_ok cell_text]; intros (L & F & T); repeat (apply Forall_app; split).
  - now apply blank_scalar.
  - revert F. apply Forall_impl. now intros x (X & _).
  - now apply blank_scalar.
  - unfold quoted. constructor; [unfold is_scalar; lia|]. apply Forall_app. split; [now apply twice_scalar|]. constructor; [unfold is_scalar; lia | constructor].
  - now apply blank_scalar.
Qed.
Lemma row_scalar r : row_ok r -> Forall is_scalar (row_text r).
Proof.
  intros [K F]. unfold row_text. apply Forall_app. split; [now apply cell_scalar|]. induction F as [| c cs H _ IH]; [constructor|]. cbn [flat_map app]. constructor; [unfold is_scalar; lia|]. apply Forall_app. split; [now apply cell_scalar | assumption].
Qed.
Lemma table_scalar t : table_ok t -> Forall is_scalar (table_text t).
Proof.
  intros [H K]. unfold table_text. assert (A : Forall is_scalar (last_text (snd t))) by (destruct (snd t); [apply row_scalar, K | constructor]). revert H A. generalize (last_text (snd t)). intros after. induction (fst t) as [| [r e] ls IH]; intros H A; [assumption|].
  cbn [lines_ok lines_text] in *. destruct H as (R & _ & H). apply Forall_app; split; [now apply row_scalar|]; apply Forall_app; split; [destruct e; repeat (apply Forall_cons; [unfold is_scalar; lia|]); apply Forall_nil | now apply IH].
Qed.

(** ** Any text *)
Lemma token_known cfg k s r : csv_token cfg k s r -> exists x, k = Some x /\ In x [CWhitespace; CNewline; CField; CComma].
Proof. intros [ | | | | | | | ]; eexists; (split; [reflexivity | cbn; tauto]). Qed.
Lemma cut_known cfg cs ps : cut (csv_token cfg) cs ps -> known (ys_of ps ++ [eof_y]) /\ Forall (fun y => fst y <> CEof) (ys_of ps).
Proof.
  induction 1 as [| k s r ps N T C [IH1 IH2]]; [split; [constructor; [cbn; tauto | constructor] | constructor]|]. destruct (token_known cfg k s r T) as (x & -> & X). cbn [flat_map piece_yield fst snd app]. split.
  - constructor; [cbn in X |- *; tauto | assumption].
  - constructor; [|assumption]. cbn. intros ->. cbn in X. repeat (destruct X as [X | X]; [discriminate|]). contradiction.
Qed.

Lemma parse_cut cs ps : Forall is_scalar cs -> (Z.of_nat (length (encode cs)) < 2 ^ 32)%Z -> cut ctok cs ps ->
  csv_parse (encode cs) = Some (ptree (ys_of ps ++ [eof_y]), []).
Proof.
  intros F L C. unfold csv_parse. assert (V : valid (encode cs)) by now exists cs. rewrite (csv_lex_is (flat_source (encode cs)) (encode cs) csv_default cs ps (flat_serves _ V) (all_reads cs F) C).
  set (toks := spans 0 ps ++ [Token CEof (length (encode cs)) (length (encode cs))]). assert (Y : map tok_yield toks = ys_of ps ++ [eof_y]). { unfold toks. rewrite map_app, spans_yields. cbn [map]. unfold tok_yield at 1. cbn. now rewrite Nat.sub_diag. }
  rewrite (root_of toks).
  - now rewrite Y.
  - apply (spans_fit cs); [now apply cut_text in C | assumption].
  - rewrite Y. now apply cut_known in C.
Qed.

Lemma csv_table t : table_ok t -> (forall c, hd_error (table_text t) = Some c -> ~ blank c) -> (Z.of_nat (length (encode (table_text t))) < 2 ^ 32)%Z -> csv_parse (encode (table_text t)) = Some (table_tree t, []).
Proof.
  intros K B L. rewrite (parse_cut (table_text t) (table_p t) (table_scalar t K) L (cut_table t K)). unfold ptree, table_tree. apply (f_equal (fun x => Some (gnode ESourceFile x, []))).
  destruct K as [H Ho]. pose proof (precords_table (fst t) (snd t)) as P. cbv zeta in P. fold (table_p t) in P. specialize (P ltac:(destruct (snd t); [apply Ho | exact I]) _ (le_n _)).
  assert (T : tri (ys_of (table_p t) ++ [eof_y]) = []). 2: { rewrite T in P. exact P. }
  pose proof (cut_table t (conj H Ho)) as C. destruct (cut_cases _ _ _ C) as [[E ->] | (k & s & r & ps & E & -> & N & Tk & _)]; [reflexivity|].
  destruct (token_known csv_default k s r Tk) as (x & -> & X). cbn [flat_map piece_yield fst app ytrivia]. destruct x as [| x]; [|reflexivity]. exfalso. inversion Tk as [s0 r0 Fb Hb Ek Es Er | | | | | | |]. subst s0. destruct s as [| c s]; [contradiction|]. inversion Fb as [| a b Hc _]. apply (B c); [now rewrite E | assumption].
Qed.
