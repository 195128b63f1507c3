(** Conversion between Rust values and JSON: the theorems. *)
From Coq Require Import Floats.SpecFloat.
From Verif Require Import Base Utf8 Utf8Facts RopeModel TreeModel ParserModel JsonModel JsonSpec JsonAstModel JsonAstSpec JsonAstProps SerdeModel SerdeSpec SerdeProofs.

(** ** Writing a value and reading it *)
(** All values of a type come back exactly when the type survives. *)
Theorem values_survive_exact : forall (F : Type) (of_int : Z -> F) (show : F -> str) (show_int : Z -> str) t, declared t ->
  (survives t <-> forall v, has_type F t v -> exists a, to_value F of_int show show_int v = Ok a /\ from_value F t a = Ok v).
Proof.
  intros F of_int show show_int t D. split.
  - intros S v T. now apply survive.
  - intros H. destruct (perish F of_int show show_int t D) as [S | (v & T & B)]; [assumption|]. exfalso. apply B. now apply H.
Qed.
Print Assumptions values_survive_exact.

(** No integer can be read, whatever the JSON value. *)
Theorem integers_unreadable : forall (F : Type) a, from_value F TyInt a = Err.
Proof. intros F a. destruct a; reflexivity. Qed.
Print Assumptions integers_unreadable.

(** An integer; an option in an option; a variant with named fields; a map with booleans as keys. *)
Theorem values_survive_refuted : forall (F : Type) (of_int : Z -> F) (show : F -> str) (show_int : Z -> str),
  (exists a, to_value F of_int show show_int (RInt 5) = Ok a /\ from_value F TyInt a = Err) /\
  (exists a, has_type F (TyOption (TyOption TyBool)) (RSome RNone) /\ to_value F of_int show show_int (RSome RNone) = Ok a /\ from_value F (TyOption (TyOption TyBool)) a = Ok RNone) /\
  (let t := TyEnum [(lit "Circle", ShStruct [(lit "r", TyFloat)])] in
   forall f, exists a, has_type F t (RVariant (lit "Circle") (PaStruct [(lit "r", RFloat f)])) /\
     to_value F of_int show show_int (RVariant (lit "Circle") (PaStruct [(lit "r", RFloat f)])) = Ok a /\ from_value F t a = Err) /\
  (exists a, has_type F (TyMap TyBool TyBool) (RMap [(RBool true, RBool false)]) /\
     to_value F of_int show show_int (RMap [(RBool true, RBool false)]) = Ok a /\ from_value F (TyMap TyBool TyBool) a = Err).
Proof.
  intros F of_int show show_int. split; [|split; [|split]].
  - eexists. split; reflexivity.
  - eexists. split; [exact I|]. split; reflexivity.
  - intros t f. eexists. split; [left; repeat split|]. split; reflexivity.
  - eexists. split; [split; [repeat constructor | constructor; [intros [] | constructor]]|]. split; reflexivity.
Qed.
Print Assumptions values_survive_refuted.

(** ** Structures *)
(** A structure is read from an object exactly if every field comes once and can be read, or does not come and is
    optional.  The order of the entries, and entries with other names, do not matter. *)
Theorem struct_by_name : forall (F : Type) fs l s v, NoDup (map fst fs) ->
  (from_value F (TyStruct fs) (AObject l s) = Ok v <-> exists vs, v = RStruct vs /\ Forall2 (field_from l) fs vs).
Proof.
  intros F fs l s v N. rewrite from_struct_object. split.
  - intros H. destruct (read_fields F fs l) as [vs |] eqn:R; [|discriminate]. cbn in H. injection H as <-. exists vs. split; [reflexivity|]. now apply struct_reads.
  - intros (vs & -> & H). apply struct_reads in H; [|assumption]. now rewrite H.
Qed.
Print Assumptions struct_by_name.

Lemma values_perm {F} n (l l' : list (str * span * ast F * span)) : NoDup (map (fun e => fst (fst (fst e))) l) -> Permutation.Permutation l l' -> values_named n l = values_named n l'.
Proof.
  intros N P. induction P as [| x l l' P IH | [[[a s1] x] s2] [[[b s3] y] s4] l | l l' l'' P1 IH1 P2 IH2].
  - reflexivity.
  - cbn [map] in N. inversion N as [| ? ? N1 N2]; subst. destruct x as [[[m s] a] s']. rewrite !values_cons. now rewrite IH.
  - rewrite !values_cons. cbn [map fst] in N. inversion N as [| ? ? N1 N2]; subst. destruct (list_eq_dec Z.eq_dec a n) as [-> |], (list_eq_dec Z.eq_dec b n) as [-> |]; try reflexivity. exfalso. apply N1. now left.
  - rewrite IH1 by assumption. apply IH2. eapply Permutation.Permutation_NoDup; [|exact N]. now apply Permutation.Permutation_map.
Qed.
Theorem struct_order_irrelevant : forall (F : Type) fs l l' s, NoDup (map fst fs) -> NoDup (map (fun e => fst (fst (fst e))) l) -> Permutation.Permutation l l' ->
  from_value F (TyStruct fs) (AObject l s) = from_value F (TyStruct fs) (AObject l' s).
Proof.
  intros F fs l l' s N N' P. assert (E : forall f e, field_from l f e <-> field_from (F:=F) l' f e) by (intros f e; unfold field_from; now rewrite (values_perm _ _ _ N' P)).
  destruct (from_value F (TyStruct fs) (AObject l s)) as [v |] eqn:A.
  - symmetry. apply struct_by_name in A as (vs & -> & A); [|assumption]. apply struct_by_name; [assumption|]. exists vs. split; [reflexivity|]. revert A. apply forall2_imp. intros f e. apply E.
  - destruct (from_value F (TyStruct fs) (AObject l' s)) as [v |] eqn:B; [|reflexivity]. apply struct_by_name in B as (vs & -> & B); [|assumption]. exfalso.
    assert (from_value F (TyStruct fs) (AObject l s) = Ok (RStruct vs)) as C; [|rewrite A in C; discriminate C]. apply struct_by_name; [assumption|]. exists vs. split; [reflexivity|]. revert B. apply forall2_imp. intros f e. apply E.
Qed.
Print Assumptions struct_order_irrelevant.

(** ** Arrays as tuples *)
(** Too short an array is an error; of a longer one the first elements are taken. *)
Theorem tuple_length_partial : forall (F : Type) ts l s,
  (length l < length ts -> from_value F (TyTuple ts) (AArray l s) = Err) /\
  (forall v, from_value F (TyTuple ts) (AArray l s) = Ok v <-> exists vs, v = RTuple vs /\ length ts <= length l /\ Forall2 (fun ta v => from_value F (fst ta) (snd ta) = Ok v) (combine ts l) vs).
Proof.
  intros F ts l s. rewrite from_tuple. cbn [deserialize_any visit_seq on_seq].
  assert (M : forall l vs, read_each F (map (from_value F) ts) l = Ok vs <-> length ts <= length l /\ Forall2 (fun ta v => from_value F (fst ta) (snd ta) = Ok v) (combine ts l) vs).
  { clear l. induction ts as [| t ts IH]; intros l vs; cbn [map read_each combine].
    - split; [intros E; injection E as <-; split; [cbn; lia | constructor] | intros [_ H]; inversion H; reflexivity].
    - destruct l as [| a l]; [split; [discriminate | cbn; lia]|]. cbn [length]. split.
      + intros E. destruct (from_value F t a) as [v |] eqn:A; [|discriminate]. destruct (read_each F (map (from_value F) ts) l) as [vs' |] eqn:R; [|discriminate]. injection E as <-. apply IH in R as [L R]. split; [lia | now constructor].
      + intros [L H]. inversion H as [| ? v ? vs' A R]; subst. cbn [fst snd] in A. rewrite A. assert (read_each F (map (from_value F) ts) l = Ok vs') as -> by (apply IH; split; [lia | assumption]). reflexivity. }
  split.
  - intros L. destruct (read_each F (map (from_value F) ts) l) as [vs |] eqn:R; [|reflexivity]. apply M in R as [R _]. lia.
  - intros v. split.
    + intros H. destruct (read_each F (map (from_value F) ts) l) as [vs |] eqn:R; [|discriminate]. cbn in H. injection H as <-. exists vs. split; [reflexivity|]. now apply M.
    + intros (vs & -> & H). apply M in H. now rewrite H.
Qed.
Print Assumptions tuple_length_partial.

(** An array of three numbers is read as a pair, and as a structure with one field. *)
Theorem tuple_length_refuted : forall (F : Type) (x y z : F) s,
  from_value F (TyTuple [TyFloat; TyFloat]) (AArray [ANumber x s; ANumber y s; ANumber z s] s) = Ok (RTuple [RFloat x; RFloat y]) /\
  from_value F (TyStruct [(lit "x", TyFloat)]) (AArray [ANumber x s; ANumber y s; ANumber z s] s) = Ok (RStruct [(lit "x", RFloat x)]).
Proof. intros F x y z s. split; reflexivity. Qed.
Print Assumptions tuple_length_refuted.

(** ** Integers *)
Theorem integer_kept_partial : forall show show_int z, (Z.abs z <= 2 ^ 53)%Z ->
  exists f s, to_value spec_float int_as_f64 show show_int (RInt z) = Ok (ANumber f s) /\ is_int f z.
Proof.
  intros show show_int z L. exists (int_as_f64 z), nospan. split; [reflexivity|]. unfold int_as_f64, binary_normalize. destruct z as [| p | p].
  - reflexivity.
  - apply (small_exact false p). lia.
  - apply (small_exact true p). lia.
Qed.
Print Assumptions integer_kept_partial.

(** Two different 64-bit integers are written as the same number. *)
Theorem integer_kept_refuted : exists x y, x <> y /\ (0 <= x < 2 ^ 63)%Z /\ (0 <= y < 2 ^ 63)%Z /\
  forall show show_int, to_value spec_float int_as_f64 show show_int (RInt x) = to_value spec_float int_as_f64 show show_int (RInt y).
Proof. exists (2 ^ 53)%Z, (2 ^ 53 + 1)%Z. split; [discriminate|]. split; [split; reflexivity || discriminate|]. split; [split; reflexivity || discriminate|]. intros show show_int. vm_compute. reflexivity. Qed.
Print Assumptions integer_kept_refuted.

(** ** Texts *)
Theorem text_survives_partial : forall (F : Type) (of_int : Z -> F) parse_f64 (show : F -> str) show_int alpha alnum t v a,
  (forall s, jnumber s -> exists f : F, parse_f64 s = Some f) -> declared t -> survives t -> has_type F t v ->
  to_value F of_int show show_int v = Ok a -> printable F parse_f64 show a -> (Z.of_nat (length (to_string F show a)) < 2 ^ 32)%Z ->
  exists text, serde_to_string of_int show show_int v = Ok text /\ serde_from_str alpha alnum parse_f64 t text = Some (Ok v).
Proof.
  intros F of_int parse_f64 show show_int alpha alnum t v a Tot D S T A Pr L. exists (to_string F show a). unfold serde_to_string. rewrite A. split; [reflexivity|].
  destruct (json_roundtrip_partial F parse_f64 show alpha alnum a Tot Pr L) as (a' & P & E & _). unfold serde_from_str. rewrite P. f_equal. rewrite (from_erased F t a' a E).
  destruct (survive F of_int show show_int t D S v T) as (b & B & R). rewrite A in B. injection B as <-. exact R.
Qed.
Print Assumptions text_survives_partial.

(** A string with a quote comes back shortened; a backslash cannot be read. *)
Theorem text_survives_refuted : forall (F : Type) (of_int : Z -> F) (parse_f64 : str -> option F) (show : F -> str) show_int alpha alnum,
  (exists text, serde_to_string of_int show show_int (RString (lit "a""b")) = Ok text /\ serde_from_str alpha alnum parse_f64 TyString text = Some (Ok (RString (lit "a")))) /\
  (exists text, serde_to_string of_int show show_int (RString (lit "\")) = Ok text /\ serde_from_str alpha alnum parse_f64 TyString text = Some Err).
Proof. intros F of_int parse_f64 show show_int alpha alnum. split; eexists; (split; [reflexivity|]); vm_compute; reflexivity. Qed.
Print Assumptions text_survives_refuted.

(** ** Concrete cases *)
Definition shape_ty : ty :=
  TyStruct [(lit "name", TyString); (lit "tags", TySeq TyString); (lit "pos", TyOption (TyTuple [TyFloat; TyFloat]));
            (lit "by", TyMap TyString TyBool); (lit "kind", TyEnum [(lit "Dot", ShUnit); (lit "Pair", ShTuple [TyChar; TyBool]); (lit "Box", ShNewtype TyString)])].
Definition shape_val : val str :=
  RStruct [(lit "name", RString (lit "p")); (lit "tags", RSeq [RString (lit "x"); RString []]); (lit "pos", RSome (RTuple [RFloat (lit "1"); RFloat (lit "2")]));
           (lit "by", RMap [(RString (lit "a"), RBool true); (RString (lit "b"), RBool false)]); (lit "kind", RVariant (lit "Pair") (PaTuple [RChar 233; RBool true]))].
Lemma ascii_valid s : forallb is_scalarb s = true -> encode s = s -> valid s.
Proof. intros H E. exists s. split; [|now symmetry]. apply Forall_forall. intros c I. apply is_scalarb_spec. rewrite forallb_forall in H. now apply H. Qed.
Example shape_declared_ok : declared shape_ty /\ survives shape_ty /\ has_type str shape_ty shape_val.
Proof.
  split; [|split].
  - repeat (split || constructor || discriminate); try (apply ascii_valid; reflexivity); intros H; cbn in H; repeat (destruct H as [H | H]; [discriminate|]); exact H.
  - cbn. tauto.
  - cbn. repeat match goal with
                | |- _ /\ _ => split
                | |- _ = _ => reflexivity
                | |- Forall _ _ => constructor
                | |- NoDup _ => constructor
                | |- valid _ => apply ascii_valid; reflexivity
                | |- ~ _ => let H := fresh in intros H; cbn in H; repeat (destruct H as [H | H]; [discriminate|]); exact H
                | |- True => exact I
                | |- match _ with _ => _ end => progress cbn [fst snd]
                end.
    right. left. split; [reflexivity|]. split; [|split; exact I]. now apply is_scalarb_spec.
Qed.
Definition str_of_int (z : Z) : str := lit "0".
Definition id_show (s : str) : str := s.
Example shape_text : serde_to_string str_of_int id_show str_of_int shape_val =
  Ok (lit "{""name"":""p"",""tags"":[""x"",""""],""pos"":[1,2],""by"":{""a"":true,""b"":false},""kind"":{""Pair"":[""" ++ encode [233%Z] ++ lit """,true]}}").
Proof. reflexivity. Qed.
Example shape_read : match serde_to_string str_of_int id_show str_of_int shape_val with
                     | Ok text => serde_from_str (fun _ => false) (fun _ => false) text_f64 shape_ty text = Some (Ok shape_val)
                     | Err => False
                     end.
Proof. vm_compute. reflexivity. Qed.
Example shape_printable : match to_value str str_of_int id_show str_of_int shape_val with Ok a => printable str text_f64 id_show a | Err => False end.
Proof.
  assert (P : forall b s, s = encode b -> forallb is_scalarb b = true -> forallb (fun c => negb (c =? 34)%Z && negb (c =? 92)%Z) b = true -> printable_string s).
  { intros b s -> Sc Pl. exists b. split; [reflexivity|]. rewrite forallb_forall in Sc, Pl. split; [apply Forall_forall; intros c I; apply is_scalarb_spec; now apply Sc|].
    assert (E : escaped_body b).
    { clear Sc. induction b as [| c b IH]; [constructor|]. pose proof (Pl c (or_introl eq_refl)) as H. apply andb_true_iff in H as [H1 H2]. apply EBPlain; [intros ->; discriminate | intros ->; discriminate | apply IH; intros x I; apply Pl; now right]. }
    split; [exact E|]. destruct b as [| c b]; [discriminate|]. intros H. assert (In (last (c :: b) 0%Z) (c :: b)) as I by (destruct (exists_last (l := c :: b) ltac:(discriminate)) as (l' & x & ->); rewrite last_last; apply in_elt).
    rewrite H in I. apply Pl in I. discriminate I. }
  cbn. repeat split; try exact one_number; try exact two_number;
    first [apply (P (lit "name")); reflexivity | apply (P (lit "tags")); reflexivity | apply (P (lit "pos")); reflexivity | apply (P (lit "by")); reflexivity | apply (P (lit "kind")); reflexivity | apply (P (lit "Pair")); reflexivity | apply (P (lit "p")); reflexivity | apply (P (lit "x")); reflexivity | apply (P (lit "a")); reflexivity | apply (P (lit "b")); reflexivity | apply (P (@nil Z)); reflexivity | apply (P [233%Z]); reflexivity].
Qed.
Example big_kept : is_int (int_as_f64 (- 9007199254740991)) (- 9007199254740991).
Proof. vm_compute. left. split; [discriminate | reflexivity]. Qed.
Example extra_fields : from_value str (TyStruct [(lit "x", TyFloat); (lit "y", TyOption TyFloat)]) (AObject [(lit "z", (0, 0), ANull (0, 0), (0, 0)); (lit "x", (0, 0), ANumber (lit "1") (0, 0), (0, 0))] (0, 0))
  = Ok (RStruct [(lit "x", RFloat (lit "1")); (lit "y", RNone)]).
Proof. reflexivity. Qed.

(** ** Enumerations and maps *)
(** A variant is read from its own shape and from nothing else. *)
Theorem enum_exact : forall (F : Type) vs a v, NoDup (map fst vs) -> (from_value F (TyEnum vs) a = Ok v <-> variant_from vs a v).
Proof.
  intros F vs a v N. split.
  - intros H. destruct (deserialize_enum F a) as [[n value] |] eqn:E; [|cbn [from_value] in H; rewrite E in H; discriminate].
    destruct (in_dec (list_eq_dec Z.eq_dec) n (map fst vs)) as [I | I].
    2:{ rewrite (from_enum_unknown F vs a n value E) in H; [discriminate|]. intros sh J. apply I. apply in_map_iff. now exists (n, sh). }
    apply in_map_iff in I. destruct I as ([n' sh] & En & I). cbn in En. subst n'. rewrite (from_enum F vs a n value sh E N I) in H.
    destruct a as [| | | s sp | |l sp]; try discriminate.
    + injection E as <- <-. destruct sh; cbn in H; try discriminate. injection H as <-. now constructor.
    + destruct l as [| [[[n0 s1] x] s2] [|]]; try discriminate. cbn in E. injection E as <- <-. destruct sh as [| t | ts | fs]; cbn [read_variant unit_variant newtype_variant tuple_variant struct_variant] in H.
      * discriminate.
      * destruct (from_value F t x) as [y |] eqn:V; [|discriminate]. cbn in H. injection H as <-. now apply VfNewtype with t.
      * destruct x as [| | | | l s' |]; try discriminate. destruct (read_each F (map (from_value F) ts) l) as [r |] eqn:R; [|discriminate]. cbn in H. injection H as <-.
        apply VfTuple with ts; [assumption|]. rewrite from_tuple. cbn [deserialize_any visit_seq on_seq]. now rewrite R.
      * destruct x as [| | | | | l s']; try discriminate. destruct (read_fields F fs l) as [r |] eqn:R; [|discriminate]. cbn in H. injection H as <-. apply VfStruct with fs; [assumption|]. rewrite from_struct_object. now rewrite R.
  - intros H. destruct H.
    + now rewrite (from_enum F vs (AString n s) n None ShUnit eq_refl N H).
    + rewrite (from_enum F vs (AObject [(n, s1, a, s2)] s) n (Some a) (ShNewtype t) eq_refl N H). cbn [read_variant newtype_variant]. now rewrite H0.
    + rewrite (from_enum F vs (AObject [(n, s1, AArray l s', s2)] s) n (Some (AArray l s')) (ShTuple ts) eq_refl N H). cbn [read_variant tuple_variant]. rewrite from_tuple in H0. cbn [deserialize_any visit_seq on_seq] in H0.
      destruct (read_each F (map (from_value F) ts) l); [|discriminate]. cbn in *. now injection H0 as ->.
    + rewrite (from_enum F vs (AObject [(n, s1, AObject l s', s2)] s) n (Some (AObject l s')) (ShStruct fs) eq_refl N H). rewrite from_struct_object in H0. cbn [read_variant struct_variant]. destruct (read_fields F fs l) eqn:R; [|discriminate]. cbn in H0. injection H0 as ->. reflexivity.
Qed.
Print Assumptions enum_exact.

Lemma entry_insert {F} (m : list (val F * val F)) k v n : Forall (fun e => exists s, fst e = RString s) m -> NoDup (map fst m) ->
  entry_of (map_insert F m (RString k) v) n = (if list_eq_dec Z.eq_dec k n then [v] else entry_of m n) /\
  Forall (fun e => exists s, fst e = RString s) (map_insert F m (RString k) v) /\ NoDup (map fst (map_insert F m (RString k) v)) /\
  (forall x, In x (map fst (map_insert F m (RString k) v)) -> x = RString k \/ In x (map fst m)).
Proof.
  intros S N. induction m as [| [k' v'] m IH].
  - cbn. split; [unfold entry_of; cbn; now destruct (list_eq_dec Z.eq_dec k n)|]. split; [constructor; [now exists k | constructor]|]. split; [constructor; [intros [] | constructor]|]. intros x [<- | []]. now left.
  - apply Forall_cons_iff in S. destruct S as [[s' Es] S]. cbn in Es. subst k'. cbn [map fst] in N. inversion N as [| ? ? N1 N2]; subst. destruct (IH S N2) as (A & B & C & D). cbn [map_insert key_eqb]. destruct (list_eq_dec Z.eq_dec s' k) as [-> | Q].
    + split; [|split; [constructor; [now exists k | exact S]|split; [exact N|intros x [<- | I]; [now left | right; now right]]]].
      unfold entry_of. cbn [filter fst map]. destruct (list_eq_dec Z.eq_dec k n) as [-> | Q]; [|reflexivity]. cbn [map snd]. f_equal.
      assert (E : forall l : list (val F * val F), ~ In (RString n) (map fst l) -> filter (fun e => match fst e with RString k => if list_eq_dec Z.eq_dec k n then true else false | _ => false end) l = []).
      { clear. induction l as [| [x y] l IH]; intros H; [reflexivity|]. cbn [filter fst map] in *. rewrite IH by (intros J; apply H; now right). destruct x; try reflexivity. destruct (list_eq_dec Z.eq_dec s n) as [-> |]; [exfalso; apply H; now left | reflexivity]. }
      now rewrite E.
    + split; [|split; [constructor; [now exists s' | exact B]|split]].
      * unfold entry_of in *. cbn [filter fst]. destruct (list_eq_dec Z.eq_dec s' n) as [-> | Q']; cbn [map snd]; rewrite A; [|reflexivity]. destruct (list_eq_dec Z.eq_dec k n); [congruence | reflexivity].
      * cbn [map fst]. constructor; [|exact C]. intros J. apply D in J. destruct J as [J | J]; [congruence | contradiction].
      * intros x [<- | J]; [right; now left|]. apply D in J. destruct J; [now left | right; now right].
Qed.

(** A map from strings is read from an object exactly if every value can be read; of several entries with one name
    the last counts. *)
Theorem map_exact : forall (F : Type) t l s,
  ((exists v, from_value F (TyMap TyString t) (AObject l s) = Ok v) <-> Forall (fun e => exists v, from_value F t (snd (fst e)) = Ok v) l) /\
  (forall v, from_value F (TyMap TyString t) (AObject l s) = Ok v -> exists m, v = RMap m /\ NoDup (map fst m) /\
     forall n, match rev (values_named n l) with
               | [] => entry_of m n = []
               | a :: _ => exists x, from_value F t a = Ok x /\ entry_of m n = [x]
               end).
Proof.
  intros F t l s. cbn [from_value deserialize_any visit_map on_map].
  assert (T : forall l acc, (exists m, read_entries F (fun a => deserialize_any F a (on_string F (fun s => Ok (RString s)))) (from_value F t) l acc = Ok m) <-> Forall (fun e => exists v, from_value F t (snd (fst e)) = Ok v) l).
  { clear. induction l as [| [[[n sp] a] s2] l IH]; intros acc; cbn [read_entries deserialize_any visit_string on_string]; [split; [constructor | now exists acc]|].
    rewrite Forall_cons_iff. cbn [fst snd]. destruct (from_value F t a) as [x |]; [rewrite IH; split; [intros H; split; [now exists x | exact H] | now intros []]|]. split; [intros [m H]; discriminate | intros [[v H] _]; discriminate]. }
  assert (M : forall l acc m, Forall (fun e => exists s, fst e = RString s) acc -> NoDup (map fst acc) ->
     read_entries F (fun a => deserialize_any F a (on_string F (fun s => Ok (RString s)))) (from_value F t) l acc = Ok m ->
     NoDup (map fst m) /\ forall n, match rev (values_named n l) with [] => entry_of m n = entry_of acc n | a :: _ => exists x, from_value F t a = Ok x /\ entry_of m n = [x] end).
  { clear. induction l as [| [[[k sp] a] s2] l IH]; intros acc m S N H; cbn [read_entries deserialize_any visit_string on_string] in H; [injection H as <-; split; [exact N | reflexivity]|].
    destruct (from_value F t a) as [x |] eqn:X; [|discriminate].
    assert (K := fun n => entry_insert acc k x n S N). destruct (K []) as (_ & B & C & _). destruct (IH _ _ B C H) as [Nm V]. split; [exact Nm|]. intros n. specialize (V n). rewrite values_cons. destruct (K n) as (A & _). rewrite A in V.
    destruct (list_eq_dec Z.eq_dec k n) as [-> | Q]; [|exact V]. cbn [rev]. destruct (rev (values_named n l)) as [| b r]; cbn [app]; [now exists x | exact V]. }
  split.
  - rewrite <- (T l []). split; intros [v H].
    + destruct (read_entries F _ (from_value F t) l []) as [m |]; [now exists m | discriminate].
    + rewrite H. now exists (RMap v).
  - intros v H. destruct (read_entries F _ (from_value F t) l []) as [m |] eqn:R; [|discriminate]. cbn in H. injection H as <-. exists m. split; [reflexivity|]. destruct (M l [] m (Forall_nil _) (NoDup_nil _) R) as [N V]. now split.
Qed.
Print Assumptions map_exact.

Example enum_map_cases : forall s,
  from_value str (TyEnum [(lit "Dot", ShUnit); (lit "Box", ShNewtype TyBool)]) (AObject [(lit "Box", s, ABool true s, s)] s) = Ok (RVariant (lit "Box") (PaNewtype (RBool true))) /\
  from_value str (TyEnum [(lit "Dot", ShUnit); (lit "Box", ShNewtype TyBool)]) (AObject [(lit "Dot", s, ANull s, s)] s) = Err /\
  from_value str (TyMap TyString TyBool) (AObject [(lit "a", s, ABool true s, s); (lit "b", s, ABool true s, s); (lit "a", s, ABool false s, s)] s)
    = Ok (RMap [(RString (lit "a"), RBool false); (RString (lit "b"), RBool true)]).
Proof. intros s. repeat split. Qed.
