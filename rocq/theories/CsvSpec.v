(** What the CSV lexer and parser are expected to do. *)
From Verif Require Import Base Utf8 TreeModel TreeSpec LexModel JsonLangSpec LangSpec CsvModel.

(** ** Tokens *)
Definition blank (c : Z) : Prop := c = 32%Z \/ c = 9%Z.
Definition line_char (c : Z) : Prop := c = 10%Z \/ c = 13%Z.

(** The inside of a quoted field: quotes come in pairs. *)
Inductive doubled (q : Z) : list Z -> Prop :=
| DNil : doubled q []
| DChar c s : c <> q -> doubled q s -> doubled q (c :: s)
| DQuote s : doubled q s -> doubled q (q :: q :: s).

(** The quote begins a field unless it means something else. *)
Definition quoting (cfg : csv_config) : Prop :=
  ~ blank (cs_quote cfg) /\ ~ line_char (cs_quote cfg) /\ cs_quote cfg <> cs_sep cfg.

(** [csv_token cfg k s r]: [s] followed by [r] is a token of kind [k]. *)
Inductive csv_token (cfg : csv_config) : option nat -> list Z -> list Z -> Prop :=
| TkSpace s r : Forall blank s -> (forall c, hd_error r = Some c -> ~ blank c) -> csv_token cfg (Some CWhitespace) s r
| TkLf r : csv_token cfg (Some CNewline) [10%Z] r
| TkCrLf r : csv_token cfg (Some CNewline) [13%Z; 10%Z] r
| TkCr r : hd_error r <> Some 10%Z -> csv_token cfg (Some CNewline) [13%Z] r
| TkSep r : ~ blank (cs_sep cfg) -> ~ line_char (cs_sep cfg) -> csv_token cfg (Some CComma) [cs_sep cfg] r
| TkQuoted b r : quoting cfg -> doubled (cs_quote cfg) b -> hd_error r <> Some (cs_quote cfg) ->
    csv_token cfg (Some CField) (cs_quote cfg :: b ++ [cs_quote cfg]) r
| TkOpen b : quoting cfg -> doubled (cs_quote cfg) b -> csv_token cfg (Some CField) (cs_quote cfg :: b) []
| TkPlain c s r : ~ blank c -> c <> cs_quote cfg -> Forall (fun x => ~ line_char x /\ x <> cs_sep cfg) (c :: s) ->
    (forall x, hd_error r = Some x -> line_char x \/ x = cs_sep cfg) -> csv_token cfg (Some CField) (c :: s) r.

(** ** Tables *)
Inductive cell :=
| Plain (lead s : list Z)
| Quoted (lead s trail : list Z).

Definition twice (s : list Z) : list Z := flat_map (fun c => if (c =? 34)%Z then [c; c] else [c]) s.
Definition quoted (s : list Z) : list Z := 34%Z :: twice s ++ [34%Z].
Definition cell_lead (c : cell) : list Z := match c with Plain l _ => l | Quoted l _ _ => l end.
Definition cell_text (c : cell) : list Z := match c with Plain l s => l ++ s | Quoted l s t => l ++ quoted s ++ t end.
Definition cell_ok (c : cell) : Prop :=
  match c with
  | Plain l s => Forall blank l /\ Forall (fun x => is_scalar x /\ ~ line_char x /\ x <> 44%Z) s /\ (forall x, hd_error s = Some x -> ~ blank x /\ x <> 34%Z)
  | Quoted l s t => Forall blank l /\ Forall is_scalar s /\ Forall blank t
  end.

Definition row := (cell * list cell)%type.
Definition row_ok (r : row) : Prop := cell_ok (fst r) /\ Forall cell_ok (snd r).
Definition row_text (r : row) : list Z := cell_text (fst r) ++ flat_map (fun c => 44%Z :: cell_text c) (snd r).

Inductive line_end := Lf | CrLf | Cr.
Definition end_text (e : line_end) : list Z := match e with Lf => [10%Z] | CrLf => [13%Z; 10%Z] | Cr => [13%Z] end.

(** Rows with their line ends, and perhaps a last row without. *)
Definition table := (list (row * line_end) * option row)%type.
Fixpoint lines_text (ls : list (row * line_end)) (after : list Z) : list Z :=
  match ls with
  | [] => after
  | (r, e) :: ls => row_text r ++ end_text e ++ lines_text ls after
  end.
Definition last_text (o : option row) : list Z := match o with Some r => row_text r | None => [] end.
Definition table_text (t : table) : list Z := lines_text (fst t) (last_text (snd t)).

(** A carriage return that ends a line is not followed by a line feed; a last row without a line end is not blank. *)
Fixpoint lines_ok (ls : list (row * line_end)) (after : list Z) : Prop :=
  match ls with
  | [] => True
  | (r, e) :: ls => row_ok r /\ (e = Cr -> hd_error (lines_text ls after) <> Some 10%Z) /\ lines_ok ls after
  end.
Definition table_ok (t : table) : Prop :=
  lines_ok (fst t) (last_text (snd t)) /\
  match snd t with Some r => row_ok r /\ (forall l, r <> (Plain l [], [])) | None => True end.

(** ** The tree of a table *)
Definition blanks (s : list Z) : list green := match s with [] => [] | _ => [leaf CWhitespace s] end.
Definition field_tree (c : cell) : green :=
  gnode EField match c with
               | Plain _ [] => []
               | Plain _ s => [leaf CField s]
               | Quoted _ s t => leaf CField (quoted s) :: blanks t
               end.
Definition record_tree (r : row) : green :=
  gnode ERecord (field_tree (fst r) :: flat_map (fun c => leaf CComma [44%Z] :: blanks (cell_lead c) ++ [field_tree c]) (snd r)).
Definition row_trees (r : row) : list green := blanks (cell_lead (fst r)) ++ [record_tree r].
Definition table_tree (t : table) : green :=
  gnode ESourceFile (flat_map (fun le => row_trees (fst le) ++ [leaf CNewline (end_text (snd le))]) (fst t) ++
                     match snd t with Some r => row_trees r | None => [] end).
