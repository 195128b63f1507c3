From Verif Require Import Base Utf8 JsonAstModel VfsModel MacroModel MacroSpec.

Scheme written_ind2 := Minimality for written Sort Prop
with elements_ind2 := Minimality for elements Sort Prop
with fields_ind2 := Minimality for fields Sort Prop.
Combined Scheme written_mutual from written_ind2, elements_ind2, fields_ind2.

Section Json.
  Variable (E F : Type) (rust : list tt -> option (E * list tt)) (number : lit_tok -> F) (value_of : E -> ast F).
  Hypothesis HR : reads_integers E F rust number value_of.
  Notation ev := (evaluate E F number value_of).
  Notation one := (json_expr E rust).

  Lemma ends_lit : forall r, ends r -> parse_lit r = None.
  Proof. intros r [->|[r' ->]]; [reflexivity|]. cbn. destruct r' as [|[]]; reflexivity. Qed.
  Lemma ends_comma : forall r, ends r -> eat_comma r = None -> r = [].
  Proof. intros r [->|[r' ->]] H; [reflexivity | discriminate]. Qed.

  Lemma other_int : forall s r, ends r ->
    (exists j, parse_other E rust (TLit (LInt s) :: r) = Some (j, r) /\ ev j = ANumber (number (LInt s)) (0, 0)) /\
    (exists j, parse_other E rust (TPunct 45%Z :: TLit (LInt s) :: r) = Some (j, r) /\ ev j = ANumber (number (LInt (45%Z :: s))) (0, 0)).
  Proof.
    intros s r H. destruct (HR s r H) as ((e1 & R1 & V1) & (e2 & R2 & V2)). unfold parse_other.
    cbn [parse_lit]. rewrite (ends_lit r H), R1, R2. split; eexists; (split; [reflexivity|]); assumption.
  Qed.

  Definition P (ts : list tt) (v : ast F) := exists n, forall fuel r, n <= fuel -> ends r ->
    exists j, one fuel (ts ++ r) = Some (j, r) /\ ev j = v.
  Definition Q (ts : list tt) (l : list (ast F)) := exists n, forall fuel f, n <= fuel -> n <= f ->
    exists js, parse_elements E (one fuel) f ts = Some js /\ map ev js = l.
  Definition R (ts : list tt) (l : list (str * span * ast F * span)) := exists n, forall fuel f, n <= fuel -> n <= f ->
    exists js, parse_fields E (one fuel) f ts = Some js /\
      map (fun f => let '(k, v) := f in (k, (0, 0), ev v, (0, 0))) js = l.

  Lemma written_nonempty : forall ts v, written F number ts v -> ts <> [].
  Proof. intros ts v []; discriminate. Qed.

  Lemma expand_all :
    (forall ts v, written F number ts v -> P ts v) /\ (forall ts l, elements F number ts l -> Q ts l) /\
    (forall ts l, fields F number ts l -> R ts l).
  Proof.
    apply (written_mutual F number P Q R).
    1-3: intros; exists 1; intros [|fuel] r Hf He; [lia|]; eexists; split; reflexivity.
    - intros s. exists 1. intros [|fuel] r Hf He; [lia|]. destruct (other_int s r He) as [H _]. exact H.
    - intros s. exists 1. intros [|fuel] r Hf He; [lia|]. eexists. split; reflexivity.
    - intros s. exists 1. intros [|fuel] r Hf He; [lia|]. destruct (other_int s r He) as [_ H]. exact H.
    - intros s. exists 1. intros [|fuel] r Hf He; [lia|]. eexists. split; reflexivity.
    - intros ts l _ [n H]. exists (S n). intros [|fuel] r Hf He; [lia|].
      destruct (H fuel fuel) as (js & H1 & H2); [lia | lia|]. cbn [app json_expr]. rewrite H1.
      eexists. split; [reflexivity|]. cbn [evaluate]. now rewrite H2.
    - intros ts l _ [n H]. exists (S n). intros [|fuel] r Hf He; [lia|].
      destruct (H fuel fuel) as (js & H1 & H2); [lia | lia|]. cbn [app json_expr]. rewrite H1.
      eexists. split; [reflexivity|]. cbn [evaluate]. now rewrite H2.
    - exists 1. intros fuel [|f] _ Hf; [lia|]. exists []. split; reflexivity.
    - intros ts v W [n H]. exists (S (S n)). intros fuel [|f] H1 H2; [lia|].
      destruct (H fuel []) as (j & A & B); [lia | now left|]. rewrite app_nil_r in A.
      cbn [parse_elements]. destruct ts as [|t ts]; [now apply written_nonempty in W|]. rewrite A. cbn [eat_comma].
      destruct f as [|f]; [lia|]. cbn [parse_elements]. eexists. split; [reflexivity|]. cbn. now rewrite B.
    - intros ts v r l W [n H] _ [m G]. exists (S (n + m)). intros fuel [|f] H1 H2; [lia|].
      destruct (H fuel (TPunct 44%Z :: r)) as (j & A & B); [lia | right; eauto|].
      destruct (G fuel f) as (js & C & D); [lia | lia|].
      cbn [parse_elements]. destruct (ts ++ TPunct 44%Z :: r) as [|t ts'] eqn:X; [now apply app_eq_nil in X as [_ X]|].
      rewrite A. cbn [eat_comma]. rewrite C. eexists. split; [reflexivity|]. cbn. now rewrite B, D.
    - exists 1. intros fuel [|f] _ Hf; [lia|]. exists []. split; reflexivity.
    - intros nm k ts v N W [n H]. exists (S (S n)). intros fuel [|f] H1 H2; [lia|].
      destruct (H fuel []) as (j & A & B); [lia | now left|]. rewrite app_nil_r in A.
      assert (X : (match nm :: TPunct 58%Z :: ts with
                   | TLit (LStr s) :: TPunct 58%Z :: r => Some (s, r)
                   | TIdent s :: TPunct 58%Z :: r => Some (s, r)
                   | _ => None end) = Some (k, ts)) by (destruct N; reflexivity).
      cbn [parse_fields]. rewrite X, A. cbn [eat_comma].
      destruct f as [|f]; [lia|]. cbn [parse_fields]. eexists. split; [reflexivity|]. cbn. now rewrite B.
    - intros nm k ts v r l N W [n H] _ [m G]. exists (S (n + m)). intros fuel [|f] H1 H2; [lia|].
      destruct (H fuel (TPunct 44%Z :: r)) as (j & A & B); [lia | right; eauto|].
      destruct (G fuel f) as (js & C & D); [lia | lia|].
      assert (X : (match nm :: TPunct 58%Z :: ts ++ TPunct 44%Z :: r with
                   | TLit (LStr s) :: TPunct 58%Z :: r => Some (s, r)
                   | TIdent s :: TPunct 58%Z :: r => Some (s, r)
                   | _ => None end) = Some (k, ts ++ TPunct 44%Z :: r)) by (destruct N; reflexivity).
      cbn [parse_fields]. rewrite X, A. cbn [eat_comma]. rewrite C. eexists. split; [reflexivity|]. cbn. now rewrite B, D.
  Qed.
End Json.

(** ** C140 [json!] builds the value it is given *)
Theorem json_macro_exact : forall E F rust number value_of, reads_integers E F rust number value_of ->
  forall ts v, written F number ts v ->
  exists n, forall fuel, n <= fuel -> json_macro E F rust number value_of fuel ts = Some v.
Proof.
  intros E F rust number value_of HR ts v W.
  destruct (expand_all E F rust number value_of HR) as [H _]. destruct (H ts v W) as [n A].
  exists n. intros fuel Hf. destruct (A fuel [] Hf) as (j & B & C); [now left|]. rewrite app_nil_r in B.
  unfold json_macro. now rewrite B, C.
Qed.
Print Assumptions json_macro_exact.

(** A parser of expressions that knows integer literals only. *)
Definition ints (ts : list tt) : option (str * list tt) :=
  match ts with
  | TLit (LInt s) :: r => Some (s, r)
  | TPunct 45%Z :: TLit (LInt s) :: r => Some (45%Z :: s, r)
  | _ => None
  end.
Definition spelling (l : lit_tok) : str := match l with LInt s | LFloat s | LStr s => s | LBool _ => [] end.
Definition int_value (s : str) : ast str := ANumber s (0, 0).
Lemma ints_ok : reads_integers str str ints spelling int_value.
Proof. intros s r _. split; eexists; split; reflexivity. Qed.

(** json!({ name: "x", "list": [1, -2, 3.5, ], nested: { n: null }, }) *)
Definition sample_macro : list tt :=
  [TGroup DBrace [TIdent (lit "name"); TPunct 58%Z; TLit (LStr (lit "x")); TPunct 44%Z;
     TLit (LStr (lit "list")); TPunct 58%Z;
       TGroup DBracket [TLit (LInt (lit "1")); TPunct 44%Z; TPunct 45%Z; TLit (LInt (lit "2")); TPunct 44%Z; TLit (LFloat (lit "3.5")); TPunct 44%Z];
     TPunct 44%Z; TIdent (lit "nested"); TPunct 58%Z; TGroup DBrace [TIdent (lit "n"); TPunct 58%Z; TIdent (lit "null")]; TPunct 44%Z]].
Definition sample_value : ast str :=
  AObject [(lit "name", (0, 0), AString (lit "x") (0, 0), (0, 0));
    (lit "list", (0, 0), AArray [ANumber (lit "1") (0, 0); ANumber (lit "-2") (0, 0); ANumber (lit "3.5") (0, 0)] (0, 0), (0, 0));
    (lit "nested", (0, 0), AObject [(lit "n", (0, 0), ANull (0, 0), (0, 0))] (0, 0), (0, 0))] (0, 0).
Example sample_written : written str spelling sample_macro sample_value /\
  json_macro str str ints spelling int_value 9 sample_macro = Some sample_value.
Proof.
  split; [|reflexivity]. apply WObject.
  apply (FMore str spelling _ _ [TLit (LStr (lit "x"))]); [constructor | apply (WString str spelling) |].
  match goal with |- fields _ _ (?a :: ?b :: ?c :: ?d) _ => apply (FMore str spelling a _ [c]) end; [constructor| |].
  - apply WArray. apply (EMore str spelling [TLit (LInt (lit "1"))]); [apply (WInt str spelling)|].
    apply (EMore str spelling [TPunct 45%Z; TLit (LInt (lit "2"))]); [apply (WMinusInt str spelling)|].
    apply (EMore str spelling [TLit (LFloat (lit "3.5"))]); [apply (WFloat str spelling) | constructor].
  - match goal with |- fields _ _ (?a :: ?b :: ?c :: ?d) _ => apply (FMore str spelling a _ [c]) end; [constructor | | constructor].
    apply WObject. apply FLast; constructor.
Qed.

(** Without the comma the first number is lost: json!([1 2]) is [2, 2]. *)
Theorem json_macro_numbers_refuted : exists ts v w,
  json_macro str str ints spelling int_value 9 [TGroup DBracket ts] = Some (AArray [v; w] (0, 0)) /\
  (forall s, v = ANumber s (0, 0) \/ w = ANumber s (0, 0) -> s = lit "2") /\
  In (TLit (LInt (lit "1"))) ts /\ ~ In (TPunct 44%Z) ts.
Proof.
  exists [TLit (LInt (lit "1")); TLit (LInt (lit "2"))]. eexists _, _. split; [vm_compute; reflexivity|].
  split; [intros s [H|H]; injection H as <-; reflexivity|]. split; [now left|]. intros [H|[H|[]]]; discriminate.
Qed.
Print Assumptions json_macro_numbers_refuted.
