(** Theorems about writing Rust values as XML and reading them. *)
From Verif Require Import Base Utf8 Utf8Facts RopeModel CursorModel CursorProofs VfsModel VfsProofs TreeModel ParserModel JsonModel JsonAstModel SerdeModel SerdeSpec SerdeProofs IniModel XmlModel XmlSpec XmlBuildProofs XmlProps XmlSerdeModel XmlSerdeSpec XmlSerdeProofs.

(** [from_value(to_value(v))] *)
Definition xml_trip {F} (of_int : Z -> F) show show_int struct_name (t : ty) (v : val F) : writing (val F) :=
  wbind (xml_to_value F of_int show show_int struct_name v) (fun x => Some (xml_from F t x)).

(** C171: values that survive.  Partial: [whole] leaves out all numbers and truth values, and the cases of
    [xml_trip_refuted]. *)
Theorem xml_values_survive_partial F of_int show show_int struct_name t (v : val F) : declared t -> has_type F t v -> whole v ->
  xml_trip of_int show show_int struct_name t v = done v.
Proof.
  intros D T W. destruct (proj1 (all_survive F of_int show show_int struct_name t D v T) W) as (x & E & R). unfold xml_trip. rewrite E. cbn [wbind done]. now rewrite R.
Qed.
Print Assumptions xml_values_survive_partial.

Ltac no_mark := split; [discriminate | intros r; discriminate].
Definition survivor_type : ty := TyStruct [(lit "title", TyString); (lit "tags", TySeq TyString); (lit "next", TyOption (TyStruct [(lit "title", TyString)])); (lit "names", TyMap TyString (TyTuple [TyString; TyString]))].
Definition survivor {F} : val F :=
  RStruct [(lit "title", RString (lit "a")); (lit "tags", RSeq [RString (lit "x"); RString []]); (lit "next", RSome (RStruct [(lit "title", RString [])]));
           (lit "names", RMap [(RString (lit "k"), RTuple [RString (lit "p"); RString (lit "q")])])].
Lemma lit_valid_nil : valid [].
Proof. exists []. now split. Qed.
Example survivor_whole : declared survivor_type /\ has_type unit survivor_type survivor /\ whole (F := unit) survivor.
Proof.
  assert (V : forall cs, Forall (fun c => 0 <= c < 128)%Z cs -> valid cs).
  { intros cs H. exists cs. split; [eapply Forall_impl; [|exact H]; intros c Hc; cbn beta in Hc; unfold is_scalar; lia|]. induction H as [| c cs Hc _ IH]; [reflexivity|]. cbn beta in Hc. cbn [encode]. rewrite <- IH. unfold encode_char. now rewrite (proj2 (Z.ltb_lt c 128)) by lia. }
  split; [|split].
  - cbn. repeat split; repeat constructor; cbn; intuition discriminate.
  - cbn [has_type survivor survivor_type fst snd map].
    repeat match goal with |- _ /\ _ => split | |- Forall _ _ => constructor | |- valid _ => apply V; repeat (apply Forall_cons; [cbn; lia|]); apply Forall_nil | |- NoDup _ => constructor | |- _ = _ => reflexivity | |- True => exact I | |- ~ _ => cbn; tauto | |- _ => progress cbn [fst snd has_type] end.
  - apply WhStruct. repeat (apply Forall_cons; [split; [no_mark|]|]); [| | | | apply Forall_nil]; cbn [fst snd].
    + repeat constructor.
    + apply FiMany. repeat constructor.
    + apply FiSome. apply FiSingle. apply SiStruct. repeat (apply Forall_cons; [split; [no_mark | repeat constructor]|]). apply Forall_nil.
    + apply FiSingle. apply SiMap. apply Forall_cons; [|apply Forall_nil]. split; [no_mark|]. apply FiTuple. repeat constructor.
Qed.

(** What does not survive, and how it comes back *)
Theorem xml_trip_refuted F of_int show show_int struct_name :
  let trip := @xml_trip F of_int show show_int struct_name in
  let field t := TyStruct [(lit "f", t)] in
  let in_field v := RStruct [(lit "f", v)] in
  (* [None] in a field *)
  trip (field (TyOption TyString)) (in_field RNone) = done (in_field (RSome (RString []))) /\
  trip (TyOption TyString) (RSome (RString [])) = done RNone /\
  (* no element, and one structure *)
  trip (field (TySeq TyString)) (in_field (RSeq [])) = Some Err /\
  trip (field (TySeq (TyStruct [(lit "n", TyString)]))) (in_field (RSeq [RStruct [(lit "n", RString (lit "x"))]])) = Some Err /\
  (* a character, a variant *)
  trip (field TyChar) (in_field (RChar 97)) = Some Err /\
  trip (field (TyEnum [(lit "A", ShUnit); (lit "B", ShUnit)])) (in_field (RVariant (lit "A") PaUnit)) = Some Err /\
  trip (TyStruct [(lit "B", TyEnum [(lit "A", ShUnit); (lit "B", ShUnit)])]) (RStruct [(lit "B", RVariant (lit "A") PaUnit)]) = done (RStruct [(lit "B", RVariant (lit "B") PaUnit)]) /\
  (* a structure or a sequence in a variant *)
  trip (TyEnum [(lit "V", ShNewtype (TyStruct [(lit "n", TyString)]))]) (RVariant (lit "V") (PaNewtype (RStruct [(lit "n", RString (lit "x"))]))) = Some Err /\
  trip (TyEnum [(lit "V", ShNewtype (TySeq TyString))]) (RVariant (lit "V") (PaNewtype (RSeq [RString (lit "x"); RString (lit "y")]))) = done (RVariant (lit "V") (PaNewtype (RSeq [RString (lit "xy")]))) /\
  trip (TyEnum [(lit "V", ShStruct [(lit "f", TyMap TyString TyString)])]) (RVariant (lit "V") (PaStruct [(lit "f", RMap [(RString (lit "k"), RString (lit "x"))])])) = Some Err /\
  (* sequences in a sequence in a field *)
  trip (field (TySeq (TySeq TyString))) (in_field (RSeq [RSeq [RString (lit "x")]; RSeq [RString (lit "y"); RString (lit "z")]])) = done (in_field (RSeq [RSeq [RString (lit "x")]; RSeq [RString (lit "yz")]])).
Proof.
  cbv zeta. repeat split; try reflexivity. unfold xml_trip.
  change (Some (xml_from F (TyEnum [(lit "V", ShNewtype (TyStruct [(lit "n", TyString)]))]) (element_of (lit "V") [VElement (struct_name [lit "n"]) [] [element_of (lit "n") [VText (lit "x")]] xspan])) = Some Err).
  erewrite (xfrom_enum F _ _ (lit "V")); [| reflexivity | repeat constructor; cbn; tauto | now left]. generalize (struct_name [lit "n"]). intros s.
  cbn [xread_variant x_newtype_variant]. rewrite xfrom_struct. unfold x_any, element_of at 1. cbn [xv_map x_both]. unfold x_fields, map_entries. cbn [map fold_left group_child group_push fst snd entry_value x_read_struct xnamed].
  destruct (list_eq_dec Z.eq_dec (lit "n") s); reflexivity.
Qed.
Print Assumptions xml_trip_refuted.

(** C172: no truth value, number or unit is ever read. *)
Theorem xml_numbers_unread F t x (v : val F) : xml_from F t x = Ok v -> wordy v.
Proof. apply all_reads_words. Qed.
Print Assumptions xml_numbers_unread.
Example xml_numbers_case : xml_from unit (TySeq TyString) (VFragment [VText (lit "1")]) = Ok (RSeq [RString (lit "1")]) /\ ~ wordy (F := unit) (RSeq [RInt 1]) /\ ~ wordy (F := unit) (RStruct [(lit "b", RSome (RBool true))]).
Proof.
  split; [reflexivity|]. split; intros H; inversion H as [| | | | | ? G | | | ? G | | | |]; subst; inversion G as [| ? ? G1 _]; subst; [inversion G1|]. inversion G1 as [| | | ? G2 | | | | | | | | |]; inversion G2.
Qed.
Theorem xml_numbers_refuted F of_int show show_int struct_name : exists t (v : val F), declared t /\ has_type F t v /\ (exists x, xml_to_value F of_int show show_int struct_name v = done x) /\ xml_trip of_int show show_int struct_name t v = Some Err.
Proof. exists (TyStruct [(lit "x", TyInt)]), (RStruct [(lit "x", RInt 1)]). split; [cbn; repeat split; repeat constructor; cbn; tauto|]. split; [cbn; tauto|]. split; [eexists; reflexivity | reflexivity]. Qed.
Print Assumptions xml_numbers_refuted.

(** C173: attributes cannot be written: a key that begins with the mark of attributes panics. *)
Theorem xml_attribute_key_panics F of_int show show_int struct_name name (v : val F) before after :
  (exists x, xml_to_value F of_int show show_int struct_name v = done x) ->
  (forall o, exists o', xml_fields F (xml_to_value F of_int show show_int struct_name) before o = done o') ->
  xml_to_value F of_int show show_int struct_name (RStruct (before ++ (encode [8623%Z] ++ name, v) :: after)) = None.
Proof.
  intros (x & W) B. cbn [xml_to_value]. match goal with |- wbind ?y _ = _ => assert (y = None) as ->; [|reflexivity] end.
  assert (Go : forall before after' o o', xml_fields F (xml_to_value F of_int show show_int struct_name) before o = done o' -> xml_fields F (xml_to_value F of_int show show_int struct_name) (before ++ after') o = xml_fields F (xml_to_value F of_int show show_int struct_name) after' o').
  { clear. induction before as [| [n v] before IH]; intros after' o o'; cbn [xml_fields app]; [intros X; now injection X as ->|]. fold (xml_fields F (xml_to_value F of_int show show_int struct_name)).
    destruct (xml_to_value F of_int show show_int struct_name v) as [[x |] |]; try discriminate. cbn [wbind]. destruct (add_entry n x o) as [[o1 |] |]; try discriminate. cbn [wbind]. apply IH. }
  destruct (B ([], [])) as ([attrs kids] & E). rewrite (Go _ _ _ _ E). cbn [xml_fields]. rewrite W. cbn [wbind done]. unfold add_entry. change (encode [8623%Z]) with mark. replace (prefixb mark (mark ++ name)) with true by (symmetry; apply prefixb_iff; now exists name).
  now replace (str_get_from (mark ++ name) 1) with (@None str).
Qed.
Print Assumptions xml_attribute_key_panics.
Example xml_attribute_key_case : xml_to_value unit (fun _ => tt) (fun _ => []) (fun _ => []) (fun _ => lit "S") (RStruct [(lit "a", RString (lit "x")); (encode [8623%Z] ++ lit "id", RString (lit "1"))]) = None.
Proof. reflexivity. Qed.
(** … while [from_value] gives the attributes of an element under these names. *)
Theorem xml_attribute_read F name value n k sp : xml_from F (TyStruct [(encode [8623%Z] ++ name, TyString)]) (VElement n [XAttr name value k] [] sp) = Ok (RStruct [(encode [8623%Z] ++ name, RString value)]).
Proof.
  rewrite xfrom_struct. unfold x_any. cbn [xv_map x_both map_entries map fold_left fst snd xa_name xa_value entry_value]. unfold x_fields. cbn [x_read_struct xnamed]. change mark with (encode [8623%Z]).
  destruct (list_eq_dec Z.eq_dec (encode [8623%Z] ++ name) (encode [8623%Z] ++ name)) as [_ | N]; [|contradiction]. cbn [known find option_map bind app XmlSerdeModel.xml_from x_str xv_string x_string finish_struct fst snd]. unfold known. cbn [find fst snd].
  destruct (list_eq_dec Z.eq_dec (encode [8623%Z] ++ name) (encode [8623%Z] ++ name)) as [_ | N]; [reflexivity | contradiction].
Qed.
Print Assumptions xml_attribute_read.

(** C174: reading a text does not panic and gives values without content only. *)
Theorem xml_text_hollow F t cs : Forall is_scalar cs -> fits (encode cs) ->
  exists r, @xml_read F t (encode cs) = Some r /\ forall v, r = Ok v -> hollow v.
Proof.
  intros Hs L. destruct (xml_value_bare cs Hs L) as (r & E & B). unfold xml_read. rewrite E. destruct r as [x |]; [|exists Err; split; [reflexivity | discriminate]]. exists (xml_from F t x). split; [reflexivity|]. intros v R. apply (all_reads_hollow F t x v); [|assumption]. destruct (B x eq_refl) as [-> | Bx]; [now left | right; now left].
Qed.
Print Assumptions xml_text_hollow.
Theorem xml_text_trip_refuted F of_int show show_int :
  (forall struct_name, exists s, @xml_write F of_int show show_int struct_name (RStruct [(lit "a", RString (lit "x"))]) = done s /\ s = lit "<" ++ struct_name [lit "a"] ++ lit "><a>x</a></" ++ struct_name [lit "a"] ++ lit ">") /\
  @xml_read F (TyStruct [(lit "a", TyString)]) (lit "<S><a>x</a></S>") = Some (Ok (RStruct [(lit "a", RString [])])) /\
  @xml_read F (TySeq TyString) (lit "<l><a>x</a><a>y</a></l>") = Some (Ok (RSeq [RString []; RString []])) /\
  @xml_read F TyString (lit "abc") = Some (Ok (RString [])).
Proof. split; [intros sn; eexists; split; [reflexivity|]; cbn; now rewrite <- ?app_assoc|]. repeat split; vm_compute; reflexivity. Qed.
Print Assumptions xml_text_trip_refuted.
(** A value with content is read from no text. *)
Theorem xml_text_trip_never F t (v : val F) cs : Forall is_scalar cs -> fits (encode cs) -> ~ hollow v -> @xml_read F t (encode cs) <> Some (Ok v).
Proof. intros Hs L N E. destruct (xml_text_hollow F t cs Hs L) as (r & R & H). rewrite R in E. injection E as ->. now apply N, H. Qed.
Print Assumptions xml_text_trip_never.
Example xml_text_trip_case : ~ hollow (F := unit) (RStruct [(lit "a", RString (lit "x"))]) /\ hollow (F := unit) (RStruct [(lit "a", RSome (RString []))]).
Proof.
  split; [|repeat constructor]. intros H. inversion H as [| | | | | | | ? G | | | |]; subst. inversion G as [| ? ? G1 _]; subst. inversion G1 as [? [E | [r E]] | | | | | | | | | | |]; discriminate.
Qed.
(** … and the text of an element under the name for texts. *)
Theorem xml_content_read F t n sp : xml_from F (TyStruct [(lit "$value", TyString)]) (VElement n [] [VText t] sp) = Ok (RStruct [(lit "$value", RString t)]).
Proof. rewrite xfrom_struct. reflexivity. Qed.
Print Assumptions xml_content_read.
