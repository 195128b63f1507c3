(** Theorems about [define_rules!] and the configuration of [test_lexer!] and [test_parser!]. *)
From Verif Require Import Base Utf8 VfsModel VfsProofs MacroModel RuleMacroModel.

Definition comma : tt := TPunct 44%Z.
Definition colon : tt := TPunct 58%Z.
Definition arrow : list tt := [TPunct 61%Z; TPunct 62%Z].
Definition name (s : str) : Prop := s <> lit "if".
(** What may stand behind a field: a comma, or nothing if no comma follows. *)
Definition behind (sep r : list tt) : Prop := sep = [comma] \/ (sep = [] /\ forall r', r <> comma :: r').
Fixpoint commas (l : list str) : list tt := match l with [] => [] | [s] => [TIdent s] | s :: r => TIdent s :: comma :: commas r end.
Definition last_of {A B} (f : A -> option B) (l : list A) : option B := fold_left (fun acc x => match f x with Some b => Some b | None => acc end) l None.

(** ** What is written *)
Section Written.
  Variable (E : Type) (rust : list tt -> option (E * list tt)).
  Inductive field := FPriority (e : E) | FNode (h : handler E) | FToken (h : handler E).
  (** Rust reads [e] from [ts] where [r] follows. *)
  Definition reads_expr (ts : list tt) (e : E) (r : list tt) : Prop := rust (ts ++ r) = Some (e, r).
  Inductive fields : list tt -> list field -> Prop :=
  | FdNone : fields [] []
  | FdPriority ts e sep r fs : reads_expr ts e (sep ++ r) -> behind sep r -> fields r fs ->
      fields (TIdent (lit "priority") :: colon :: ts ++ sep ++ r) (FPriority e :: fs)
  | FdNode args cs c bs b sep r fs : length args = 4 -> Forall name args -> reads_expr cs c (arrow ++ bs ++ sep ++ r) -> reads_expr bs b (sep ++ r) -> behind sep r -> fields r fs ->
      fields (TIdent (lit "node") :: TGroup DParen (commas args) :: TIdent (lit "if") :: cs ++ arrow ++ bs ++ sep ++ r) (FNode (Handler args c b) :: fs)
  | FdToken args cs c bs b sep r fs : length args = 3 -> Forall name args -> reads_expr cs c (arrow ++ bs ++ sep ++ r) -> reads_expr bs b (sep ++ r) -> behind sep r -> fields r fs ->
      fields (TIdent (lit "token") :: TGroup DParen (commas args) :: TIdent (lit "if") :: cs ++ arrow ++ bs ++ sep ++ r) (FToken (Handler args c b) :: fs).
  Definition as_priority (f : field) := match f with FPriority e => Some e | _ => None end.
  Definition as_node (f : field) := match f with FNode h => Some h | _ => None end.
  Definition as_token (f : field) := match f with FToken h => Some h | _ => None end.
  Inductive rules : list tt -> list (rule_def E) -> Prop :=
  | RlNone : rules [] []
  | RlOne s c fs p r l : name s -> fields c fs -> last_of as_priority fs = Some p -> rules r l ->
      rules (TIdent s :: TGroup DBrace c :: r) (RuleDef s p (last_of as_node fs) (last_of as_token fs) :: l).
End Written.
Arguments FPriority {E}. Arguments FNode {E}. Arguments FToken {E}. Arguments fields {E}. Arguments rules {E}. Arguments reads_expr {E}.
Arguments as_priority {E}. Arguments as_node {E}. Arguments as_token {E}.

(** ** The parser reads what is written *)
Lemma str_eqbP a b : reflect (a = b) (str_eqb a b).
Proof. apply iff_reflect. symmetry. apply str_eqb_spec. Qed.
Lemma ident_name s r : name s -> parse_ident (TIdent s :: r) = Some (s, r).
Proof. intros N. cbn [parse_ident]. destruct (str_eqbP s (lit "if")); [contradiction | reflexivity]. Qed.
Lemma ident_inv ts s r : parse_ident ts = Some (s, r) -> ts = TIdent s :: r /\ name s.
Proof. destruct ts as [| [x | | |] ts]; try discriminate. cbn [parse_ident]. destruct (str_eqbP x (lit "if")); [discriminate|]. intros E. injection E as <- <-. now split. Qed.
Lemma skip_behind sep r : behind sep r -> skip_comma (sep ++ r) = r.
Proof.
  intros [-> | [-> N]]; [reflexivity|]. cbn [app]. unfold skip_comma, eat_comma. destruct r as [| t r]; [reflexivity|]. destruct t; try reflexivity. destruct c; try reflexivity. repeat (destruct p; try reflexivity). now elim (N r).
Qed.
Lemma eat_inv ts r : eat_comma ts = Some r -> ts = comma :: r.
Proof. unfold eat_comma. destruct ts as [| t ts]; [discriminate|]. destruct t; try discriminate. destruct c; try discriminate. repeat (destruct p; try discriminate). intros E. injection E as <-. reflexivity. Qed.
Lemma skip_inv ts : exists sep, ts = sep ++ skip_comma ts /\ behind sep (skip_comma ts).
Proof.
  unfold skip_comma. destruct (eat_comma ts) as [r |] eqn:E.
  - exists [comma]. split; [now apply eat_inv | now left].
  - exists []. split; [reflexivity|]. right. split; [reflexivity|]. intros r' ->. discriminate.
Qed.
Lemma names_read : forall l, l <> [] -> Forall name l -> parse_names (length l - 1) (commas l) = Some l.
Proof.
  induction l as [| s l IH]; [congruence|]. intros _ F. inversion F as [| ? ? N Fl]; subst. destruct l as [| s2 l].
  - cbn [commas length Nat.sub parse_names]. now rewrite (ident_name s [] N).
  - change (commas (s :: s2 :: l)) with (TIdent s :: comma :: commas (s2 :: l)). cbn [length Nat.sub parse_names]. rewrite (ident_name _ _ N). cbn [eat_comma comma].
    assert (IH' : parse_names (length l) (commas (s2 :: l)) = Some (s2 :: l)) by (rewrite <- IH; [cbn [length Nat.sub]; now rewrite Nat.sub_0_r | discriminate | assumption]). now rewrite IH'.
Qed.
Lemma names_inv : forall n ts l, parse_names n ts = Some l -> length l = S n /\ Forall name l /\ ts = commas l.
Proof.
  induction n as [| n IH]; intros ts l; cbn [parse_names]; destruct (parse_ident ts) as [[s r] |] eqn:Ei; try discriminate; apply ident_inv in Ei as [-> N].
  - destruct r; [|discriminate]. intros E. injection E as <-. split; [reflexivity|]. split; [now constructor | reflexivity].
  - destruct (eat_comma r) as [r' |] eqn:Ee; [|discriminate]. apply eat_inv in Ee as ->. destruct (parse_names n r') as [l' |] eqn:En; [|discriminate]. intros E. injection E as <-. destruct (IH _ _ En) as (L & F & ->).
    split; [cbn [length]; now rewrite L|]. split; [now constructor|]. destruct l'; [discriminate | reflexivity].
Qed.

Section Rules.
  Variable (E : Type) (rust : list tt -> option (E * list tt)).
  Notation handled n := (parse_handler E rust n).

  Lemma handler_read n args cs c bs b sep r : length args = S n -> Forall name args -> reads_expr rust cs c (arrow ++ bs ++ sep ++ r) -> reads_expr rust bs b (sep ++ r) -> behind sep r ->
    handled n (TGroup DParen (commas args) :: TIdent (lit "if") :: cs ++ arrow ++ bs ++ sep ++ r) = Some (Handler args c b, r).
  Proof.
    intros L F Hc Hb S. cbn [parse_handler]. change (str_eqb (lit "if") (lit "if")) with true. cbn iota. pose proof (names_read args) as R. rewrite L in R. cbn [Nat.sub] in R. rewrite Nat.sub_0_r in R. rewrite R; [|now destruct args | assumption]. unfold reads_expr in Hc, Hb. rewrite Hc. unfold arrow. cbn [app]. rewrite Hb. now rewrite (skip_behind sep r S).
  Qed.

  Lemma last_fold {A B} (f : A -> option B) l : forall acc, fold_left (fun acc x => match f x with Some b => Some b | None => acc end) l acc = match last_of f l with Some b => Some b | None => acc end.
  Proof.
    unfold last_of. induction l as [| x l IH]; intros acc; [reflexivity|]. cbn [fold_left]. rewrite IH. rewrite (IH (match f x with Some b => Some b | None => None end)). destruct (fold_left _ l None); [reflexivity|]. destruct (f x); reflexivity.
  Qed.
  Lemma last_cons {A B} (f : A -> option B) x l : last_of f (x :: l) = match last_of f l with Some b => Some b | None => f x end.
  Proof. unfold last_of at 1. cbn [fold_left]. rewrite last_fold. destruct (last_of f l); [reflexivity|]. now destruct (f x). Qed.

  Definition or_else {A} (a b : option A) : option A := match a with Some x => Some x | None => b end.
  Lemma or_else_nest {A} (a b c : option A) : or_else a (or_else b c) = or_else (or_else a b) c.
  Proof. now destruct a. Qed.
  Lemma fields_read ts fs : fields rust ts fs -> forall fuel p n t, length ts < fuel ->
    rule_fields E rust fuel p n t ts = Some (or_else (last_of as_priority fs) p, or_else (last_of as_node fs) n, or_else (last_of as_token fs) t).
  Proof.
    induction 1 as [| ts e sep r fs He S H IH | args cs c bs b sep r fs L F Hc Hb S H IH | args cs c bs b sep r fs L F Hc Hb S H IH]; intros fuel p n t Lf; (destruct fuel as [| fuel]; [lia|]); cbn [rule_fields].
    - reflexivity.
    - rewrite ident_name by discriminate. change (str_eqb (lit "priority") (lit "priority")) with true. cbn iota. unfold colon. unfold reads_expr in He. rewrite He, (skip_behind sep r S). rewrite IH by (cbn [length] in Lf; rewrite !app_length in Lf; lia). rewrite !last_cons. cbn [as_priority as_node as_token].
      destruct (last_of as_priority fs), (last_of as_node fs), (last_of as_token fs); reflexivity.
    - rewrite ident_name by discriminate. change (str_eqb (lit "node") (lit "priority")) with false. change (str_eqb (lit "node") (lit "node")) with true. cbn iota. rewrite (handler_read 3 args cs c bs b sep r L F Hc Hb S). rewrite IH by (cbn [length] in Lf; rewrite !app_length in Lf; lia). rewrite !last_cons. cbn [as_priority as_node as_token].
      destruct (last_of as_priority fs), (last_of as_node fs), (last_of as_token fs); reflexivity.
    - rewrite ident_name by discriminate. change (str_eqb (lit "token") (lit "priority")) with false. change (str_eqb (lit "token") (lit "node")) with false. change (str_eqb (lit "token") (lit "token")) with true. cbn iota. rewrite (handler_read 2 args cs c bs b sep r L F Hc Hb S). rewrite IH by (cbn [length] in Lf; rewrite !app_length in Lf; lia). rewrite !last_cons. cbn [as_priority as_node as_token].
      destruct (last_of as_priority fs), (last_of as_node fs), (last_of as_token fs); reflexivity.
  Qed.
  Lemma rules_read ts l : rules rust ts l -> forall fuel, length ts < fuel -> parse_rules E rust fuel ts = Some l.
  Proof.
    induction 1 as [| s c fs p r l N F P R IH]; intros fuel L; (destruct fuel as [| fuel]; [lia|]); cbn [parse_rules]; [reflexivity|].
    rewrite (ident_name _ _ N). rewrite (fields_read c fs F) by lia. rewrite P. cbn [or_else]. rewrite IH by (cbn [length] in L; lia). now destruct (last_of as_node fs), (last_of as_token fs).
  Qed.

  (** Rust's parser reads from the front. *)
  Definition front : Prop := forall ts e r, rust ts = Some (e, r) -> exists xs, ts = xs ++ r.
  Lemma handler_inv (Hf : front) n ts h r : handled n ts = Some (h, r) ->
    exists cs bs sep, ts = TGroup DParen (commas (h_args h)) :: TIdent (lit "if") :: cs ++ arrow ++ bs ++ sep ++ r /\ length (h_args h) = S n /\ Forall name (h_args h) /\
      reads_expr rust cs (h_cond h) (arrow ++ bs ++ sep ++ r) /\ reads_expr rust bs (h_body h) (sep ++ r) /\ behind sep r.
  Proof.
    destruct ts as [| [| | | d a] [| [kw | | |] ts]]; try discriminate; try (destruct d; discriminate). destruct d; try discriminate. cbn [parse_handler]. destruct (str_eqbP kw (lit "if")) as [-> | _]; [|discriminate].
    destruct (parse_names n a) as [args |] eqn:En; [|discriminate]. apply names_inv in En as (L & F & ->). destruct (rust ts) as [[c r1] |] eqn:Ec; [|discriminate]. destruct r1 as [| t1 r1]; [discriminate|]. destruct t1 as [| | z1 |]; try discriminate. destruct (Z.eqb_spec z1 61) as [-> | N1].
    2:{ intros X. exfalso. revert X. destruct z1 as [| z1 | z1]; try discriminate. repeat (destruct z1 as [z1 | z1 |]; try discriminate). now elim N1. }
    destruct r1 as [| t2 r1]; [discriminate|]. destruct t2 as [| | z2 |]; try discriminate. destruct (Z.eqb_spec z2 62) as [-> | N2].
    2:{ intros X. exfalso. revert X. destruct z2 as [| z2 | z2]; try discriminate. repeat (destruct z2 as [z2 | z2 |]; try discriminate). now elim N2. }
    destruct (rust r1) as [[b r2] |] eqn:Eb; [|discriminate]. intros X. injection X as <- <-. cbn [h_args h_cond h_body].
    destruct (Hf _ _ _ Ec) as (cs & ->). destruct (Hf _ _ _ Eb) as (bs & ->). destruct (skip_inv r2) as (sep & Es & Hs). exists cs, bs, sep. unfold reads_expr. rewrite <- Es. split; [reflexivity|]. split; [assumption|]. split; [assumption|]. split; [assumption|]. split; assumption.
  Qed.
  Lemma fields_inv (Hf : front) : forall fuel p n t ts x, rule_fields E rust fuel p n t ts = Some x -> exists fs, fields rust ts fs.
  Proof.
    induction fuel as [| fuel IH]; intros p n t ts x; [discriminate|]. cbn [rule_fields]. destruct ts as [| t0 ts]; [intros _; exists []; constructor|]. destruct (parse_ident (t0 :: ts)) as [[key r] |] eqn:Ei; [|discriminate]. apply ident_inv in Ei as [-> N].
    destruct (str_eqbP key (lit "priority")) as [-> | _].
    { destruct r as [| t1 r]; [discriminate|]. destruct t1 as [| | z |]; try discriminate. destruct (Z.eqb_spec z 58) as [-> | Nz].
      2:{ intros X. exfalso. revert X. destruct z as [| z | z]; try discriminate. repeat (destruct z as [z | z |]; try discriminate). now elim Nz. }
      destruct (rust r) as [[e r2] |] eqn:Ee; [|discriminate]. intros X. apply IH in X as (fs & X). destruct (Hf _ _ _ Ee) as (xs & ->). destruct (skip_inv r2) as (sep & Es & Hs). exists (FPriority e :: fs). rewrite Es. apply FdPriority; [unfold reads_expr; now rewrite <- Es | assumption | assumption]. }
    destruct (str_eqbP key (lit "node")) as [-> | _].
    { destruct (handled 3 r) as [[h r1] |] eqn:Eh; [|discriminate]. intros X. apply IH in X as (fs & X). destruct (handler_inv Hf _ _ _ _ Eh) as (cs & bs & sep & -> & L & F & Hc & Hb & Hs). destruct h as [args c b]. cbn [h_args h_cond h_body] in *. exists (FNode (Handler args c b) :: fs). now apply FdNode. }
    destruct (str_eqbP key (lit "token")) as [-> | _]; [|discriminate].
    destruct (handled 2 r) as [[h r1] |] eqn:Eh; [|discriminate]. intros X. apply IH in X as (fs & X). destruct (handler_inv Hf _ _ _ _ Eh) as (cs & bs & sep & -> & L & F & Hc & Hb & Hs). destruct h as [args c b]. cbn [h_args h_cond h_body] in *. exists (FToken (Handler args c b) :: fs). now apply FdToken.
  Qed.
  Lemma rules_inv (Hf : front) : forall fuel ts l, parse_rules E rust fuel ts = Some l -> rules rust ts l.
  Proof.
    induction fuel as [| fuel IH]; intros ts l; [discriminate|]. cbn [parse_rules]. destruct ts as [| t0 ts]; [intros X; injection X as <-; constructor|]. destruct (parse_ident (t0 :: ts)) as [[s r] |] eqn:Ei; [|discriminate]. apply ident_inv in Ei as [-> N].
    destruct r as [| [| | | d c] r]; try discriminate. destruct d; try discriminate. destruct (rule_fields E rust (S (length c)) None None None c) as [[[p n] t] |] eqn:Ef; [|discriminate]. destruct (fields_inv Hf _ _ _ _ _ _ Ef) as (fs & F). rewrite (fields_read c fs F) in Ef by lia. injection Ef as Ep En Et.
    destruct p as [p |]; [|discriminate]. destruct (parse_rules E rust fuel r) as [l' |] eqn:El; [|discriminate]. intros X. injection X as <-. apply IH in El. assert (forall A (o : option A), or_else o None = o) as O by (now intros A []). rewrite O in Ep, En, Et. subst n t. now constructor.
  Qed.
End Rules.

(** The rules are those written, in their order, and nothing else is accepted: unknown fields, fields without their separators, a
    rule without priority. *)
Theorem define_rules_exact : forall (E : Type) (rust : list tt -> option (E * list tt)), front E rust ->
  forall ts l, define_rules E rust ts = Some l <-> rules rust ts l.
Proof. intros E rust Hf ts l. split; [apply (rules_inv E rust Hf) | intros R; now apply rules_read; [|lia]]. Qed.
Print Assumptions define_rules_exact.

(** A parser of Rust that knows numbers and names. *)
Definition atoms (ts : list tt) : option (tt * list tt) := match ts with TIdent s :: r => Some (TIdent s, r) | TLit l :: r => Some (TLit l, r) | _ => None end.
Lemma atoms_front : front tt atoms.
Proof. intros ts e r H. destruct ts as [| t ts]; [discriminate|]. destruct t; try discriminate; injection H as <- <-; now eexists [_]. Qed.
Definition number (s : str) := TLit (LInt s).
Definition spaced (key args : list tt) (c b : str) : list tt := key ++ [TGroup DParen args; TIdent (lit "if"); TIdent c] ++ arrow ++ [TIdent b; comma].
Definition four : list tt := commas [lit "n"; lit "c"; lit "s"; lit "f"].
Definition case_rules : list tt :=
  [TIdent (lit "Blocks"); TGroup DBrace ([TIdent (lit "priority"); colon; number (lit "10"); comma] ++ spaced [TIdent (lit "node")] four (lit "p") (lit "q"));
   TIdent (lit "Words"); TGroup DBrace (spaced [TIdent (lit "token")] (commas [lit "t"; lit "c"; lit "s"]) (lit "x") (lit "y") ++ [TIdent (lit "priority"); colon; number (lit "5")])].
Example define_rules_case : define_rules tt atoms case_rules = Some
  [RuleDef (lit "Blocks") (number (lit "10")) (Some (Handler [lit "n"; lit "c"; lit "s"; lit "f"] (TIdent (lit "p")) (TIdent (lit "q")))) None;
   RuleDef (lit "Words") (number (lit "5")) None (Some (Handler [lit "t"; lit "c"; lit "s"] (TIdent (lit "x")) (TIdent (lit "y"))))].
Proof. reflexivity. Qed.
Example define_rules_rejects : define_rules tt atoms [TIdent (lit "A"); TGroup DBrace []] = None /\ define_rules tt atoms [TIdent (lit "A"); TGroup DBrace [TIdent (lit "prio"); colon; number (lit "1")]] = None.
Proof. now split. Qed.

(** Two handlers for nodes in one rule: the first is dropped, no error. *)
Definition twice_rules : list tt :=
  [TIdent (lit "A"); TGroup DBrace ([TIdent (lit "priority"); colon; number (lit "1"); comma] ++ spaced [TIdent (lit "node")] four (lit "p") (lit "q") ++ spaced [TIdent (lit "node")] four (lit "x") (lit "y"))].
Theorem define_rules_twice_refuted : exists fs c l, fields atoms c fs /\ twice_rules = [TIdent (lit "A"); TGroup DBrace c] /\ In (FNode (Handler [lit "n"; lit "c"; lit "s"; lit "f"] (TIdent (lit "p")) (TIdent (lit "q")))) fs /\
  define_rules tt atoms twice_rules = Some l /\ (forall r h, In r l -> rd_node r = Some h \/ rd_token r = Some h -> h_body h <> TIdent (lit "q")).
Proof.
  exists [FPriority (number (lit "1")); FNode (Handler [lit "n"; lit "c"; lit "s"; lit "f"] (TIdent (lit "p")) (TIdent (lit "q"))); FNode (Handler [lit "n"; lit "c"; lit "s"; lit "f"] (TIdent (lit "x")) (TIdent (lit "y")))].
  eexists. eexists. split; [|split; [reflexivity|split; [right; left; reflexivity|split; [reflexivity|]]]].
  - assert (N4 : Forall name [lit "n"; lit "c"; lit "s"; lit "f"]) by (repeat (constructor; [discriminate|]); constructor).
    apply (FdPriority tt atoms [number (lit "1")] (number (lit "1")) [comma]); [reflexivity | now left|].
    apply (FdNode tt atoms [lit "n"; lit "c"; lit "s"; lit "f"] [TIdent (lit "p")] (TIdent (lit "p")) [TIdent (lit "q")] (TIdent (lit "q")) [comma]); [reflexivity | exact N4 | reflexivity | reflexivity | now left|].
    apply (FdNode tt atoms [lit "n"; lit "c"; lit "s"; lit "f"] [TIdent (lit "x")] (TIdent (lit "x")) [TIdent (lit "y")] (TIdent (lit "y")) [comma] [] []); [reflexivity | exact N4 | reflexivity | reflexivity | now left | constructor].
  - intros r h [<- | []] [H | H]; [injection H as <-; discriminate | discriminate].
Qed.
Print Assumptions define_rules_twice_refuted.

(** ** The names in a handler *)
(** Each name stands for its argument, if the names differ and none of them is the hidden name of an argument after it. *)
Definition clear_names (args params : list str) : Prop := NoDup args /\ forall i j a p, i < j -> nth_error args i = Some a -> nth_error params j = Some p -> a <> p.
Lemma lookup_here {V} x (v : V) sc : lookup x ((x, v) :: sc) = Some v.
Proof. cbn [lookup]. now destruct (str_eqbP x x). Qed.
Lemma lookup_other {V} x y (v : V) sc : x <> y -> lookup x ((y, v) :: sc) = lookup x sc.
Proof. intros N. cbn [lookup]. now destruct (str_eqbP x y). Qed.
Lemma binds_other {V} : forall l (sc : list (str * V)) x, ~ In x (map fst l) -> lookup x (fold_left bind l sc) = lookup x sc.
Proof.
  induction l as [| [a p] l IH]; intros sc x N; [reflexivity|]. cbn [map fst In] in N. cbn [fold_left]. rewrite IH by tauto. unfold bind. cbn [fst snd]. destruct (lookup p sc); [apply lookup_other; intros ->; tauto | reflexivity].
Qed.
Lemma in_combine_fst {A B} (x : A) : forall (l : list A) (m : list B), In x (map fst (combine l m)) -> In x l.
Proof. induction l as [| y l IH]; intros [| z m]; cbn; try tauto. intros [-> | H]; [now left | right; eapply IH; eassumption]. Qed.
Lemma binds_own {V} : forall args params (vals : list V) sc, clear_names args params -> length args <= length params ->
  (forall i p v, nth_error params i = Some p -> nth_error vals i = Some v -> lookup p sc = Some v) ->
  forall i a v, nth_error args i = Some a -> nth_error vals i = Some v -> lookup a (fold_left bind (combine args params) sc) = Some v.
Proof.
  induction args as [| a args IH]; intros params vals sc [ND C] L H i x v Ha Hv; [destruct i; discriminate|]. destruct params as [| p params]; [cbn in L; lia|]. destruct vals as [| w vals]; [destruct i; discriminate|].
  inversion ND as [| ? ? NI ND']; subst. cbn [combine fold_left]. assert (B : bind sc (a, p) = (a, w) :: sc) by (unfold bind; cbn [fst snd]; now rewrite (H 0 p w eq_refl eq_refl)). rewrite B. destruct i as [| i].
  - injection Ha as <-. injection Hv as <-. rewrite binds_other; [apply lookup_here|]. intros I. apply in_combine_fst in I. contradiction.
  - apply (IH params vals ((a, w) :: sc)) with (i := i); [|cbn in L; lia | |exact Ha | exact Hv].
    + split; [assumption|]. intros i' j' a' p' Lt Ha' Hp'. apply (C (S i') (S j')); [lia | exact Ha' | exact Hp'].
    + intros i' p' v' Hp' Hv'. rewrite lookup_other; [apply (H (S i')); [exact Hp' | exact Hv']|]. intros ->. exact (C 0 (S i') a a ltac:(lia) eq_refl Hp' eq_refl).
Qed.
Lemma params_own {V} : forall params (vals : list V), NoDup params -> forall i p v, nth_error params i = Some p -> nth_error vals i = Some v -> lookup p (combine params vals) = Some v.
Proof.
  induction params as [| q params IH]; intros vals ND i p v Hp Hv; [destruct i; discriminate|]. inversion ND as [| ? ? NI ND']; subst. destruct vals as [| w vals]; [destruct i; discriminate|]. cbn [combine]. destruct i as [| i].
  - injection Hp as <-. injection Hv as <-. apply lookup_here.
  - rewrite lookup_other; [now apply (IH vals ND' i)|]. intros <-. apply NI. cbn [nth_error] in Hp. now apply nth_error_In in Hp.
Qed.
Theorem handler_names_partial : forall (V : Type) params args (vals : list V), (params = node_params \/ params = token_params) -> length args = length params -> clear_names args params ->
  forall i a v, nth_error args i = Some a -> nth_error vals i = Some v ->
    lookup a (body_scope params args vals) = Some v /\ (i = 0 -> lookup a (cond_scope params args vals) = Some v).
Proof.
  intros V params args vals Hp L C i a v Ha Hv. assert (ND : NoDup params). { destruct Hp as [-> | ->]; repeat (constructor; [cbn; intuition discriminate|]); constructor. }
  split; [now apply (binds_own args params vals (combine params vals) C ltac:(lia) (params_own params vals ND) i)|]. intros ->. destruct args as [| a0 args]; [discriminate|]. destruct params as [| p0 params]; [discriminate|]. destruct vals as [| v0 vals]; [discriminate|]. injection Ha as ->. injection Hv as ->.
  unfold cond_scope, lets. cbn [firstn combine fold_left bind fst snd]. unfold bind. cbn [fst snd]. rewrite lookup_here. apply lookup_here.
Qed.
Print Assumptions handler_names_partial.
Example handler_names_case : clear_names [lit "n"; lit "c"; lit "_source"; lit "f"] node_params /\ map (fun x => lookup x (body_scope node_params [lit "n"; lit "c"; lit "_source"; lit "f"] [1; 2; 3; 4])) [lit "n"; lit "c"; lit "_source"; lit "f"; lit "g"] = [Some 1; Some 2; Some 3; Some 4; None].
Proof.
  split; [|reflexivity]. split; [repeat (constructor; [cbn; intuition discriminate|]); constructor|]. intros i j a p L Ha Hp. assert (j < 4) by (apply (nth_error_Some node_params); congruence).
  destruct j as [| [| [| [| j]]]]; try lia; destruct i as [| [| [| i]]]; try lia; injection Ha as <-; injection Hp as <-; discriminate.
Qed.
(** The name [_context] for the node or the token: the next name stands for the node or the token too. *)
Theorem handler_names_refuted : (exists args, NoDup args /\ length args = 4 /\ nth_error args 1 = Some (lit "ctx") /\ lookup (lit "ctx") (body_scope node_params args [1; 2; 3; 4]) = Some 1) /\
  exists args, NoDup args /\ length args = 3 /\ nth_error args 1 = Some (lit "ctx") /\ lookup (lit "ctx") (body_scope token_params args [1; 2; 3]) = Some 1.
Proof.
  split; [exists [lit "_context"; lit "ctx"; lit "src"; lit "f"] | exists [lit "_context"; lit "ctx"; lit "src"]]; (split; [repeat (constructor; [cbn; intuition discriminate|]); constructor|]); now split; [|split].
Qed.
Print Assumptions handler_names_refuted.

(** ** Test configurations *)
Inductive setting := SName (s : str) | SLanguage (s : str) | SSubject (parser : bool) (s : str) | SExtension (s : str) | SPath (s : str) | STimeout (digits : str) (n : N).
Definition set_tokens (x : setting) : list tt :=
  match x with
  | SName s => [TIdent (lit "name"); colon; TIdent s]
  | SLanguage s => [TIdent (lit "language"); colon; TIdent s]
  | SSubject p s => [TIdent (if p then lit "parser" else lit "lexer"); colon; TIdent s]
  | SExtension s => [TIdent (lit "extension"); colon; TLit (LStr s)]
  | SPath s => [TIdent (lit "path"); colon; TLit (LStr s)]
  | STimeout d _ => [TIdent (lit "timeout"); colon; TLit (LInt d)]
  end.
(** The value of a string of decimal digits *)
Definition value (d : str) : N := fold_left (fun acc c => acc * 10 + Z.to_N (c - 48))%N d 0%N.
Definition set_ok (x : setting) : Prop :=
  match x with
  | SName s | SLanguage s | SSubject _ s => name s
  | SExtension _ | SPath _ => True
  | STimeout d n => d <> [] /\ Forall (fun c => 48 <= c <= 57)%Z d /\ n = value d /\ (n < 2 ^ 64)%N
  end.
Inductive settings : list tt -> list setting -> Prop :=
| StNone : settings [] []
| StOne x sep r l : set_ok x -> behind sep r -> settings r l -> settings (set_tokens x ++ sep ++ r) (x :: l).
Definition as_name (x : setting) := match x with SName s => Some s | _ => None end.
Definition as_language (x : setting) := match x with SLanguage s => Some s | _ => None end.
Definition as_subject (x : setting) := match x with SSubject _ s => Some s | _ => None end.
Definition as_extension (x : setting) := match x with SExtension s => Some s | _ => None end.
Definition as_path (x : setting) := match x with SPath s => Some s | _ => None end.
Definition as_timeout (x : setting) := match x with STimeout _ n => Some n | _ => None end.
(** The last one given counts. *)
Definition configured (l : list setting) (c : config) : Prop :=
  last_of as_name l = Some (c_name c) /\ last_of as_language l = Some (c_language c) /\ last_of as_subject l = Some (c_lexer c) /\
  last_of as_extension l = Some (c_extension c) /\ last_of as_path l = Some (c_path c) /\ last_of as_timeout l = c_timeout c.

Lemma decimal_value : forall d acc, Forall (fun c => 48 <= c <= 57)%Z d -> decimal_n acc d = Some (fold_left (fun acc c => acc * 10 + Z.to_N (c - 48))%N d acc).
Proof. induction d as [| c d IH]; intros acc F; [reflexivity|]. inversion F as [| ? ? Hc Fd]; subst. cbn [decimal_n fold_left]. destruct (Z.leb_spec 48 c), (Z.leb_spec c 57); try lia. cbn [andb]. now apply IH. Qed.
Lemma decimal_inv : forall d acc n, decimal_n acc d = Some n -> Forall (fun c => 48 <= c <= 57)%Z d /\ n = fold_left (fun acc c => acc * 10 + Z.to_N (c - 48))%N d acc.
Proof.
  induction d as [| c d IH]; intros acc n; cbn [decimal_n fold_left]; [intros E; injection E as <-; now split|]. destruct (Z.leb_spec 48 c), (Z.leb_spec c 57); try discriminate. cbn [andb]. intros E. apply IH in E as [F ->]. split; [constructor; [lia | assumption] | reflexivity].
Qed.
Lemma u64_read d n : d <> [] -> Forall (fun c => 48 <= c <= 57)%Z d -> n = value d -> (n < 2 ^ 64)%N -> parse_u64 d = Some n.
Proof. intros Nd F -> B. unfold parse_u64. destruct d as [| c d]; [congruence|]. rewrite (decimal_value (c :: d) 0 F). fold (value (c :: d)). now apply N.ltb_lt in B as ->. Qed.
Lemma u64_inv d n : parse_u64 d = Some n -> d <> [] /\ Forall (fun c => 48 <= c <= 57)%Z d /\ n = value d /\ (n < 2 ^ 64)%N.
Proof.
  unfold parse_u64. destruct d as [| c d]; [discriminate|]. destruct (decimal_n 0 (c :: d)) as [k |] eqn:E; [|discriminate]. apply decimal_inv in E as [F ->]. destruct (N.ltb_spec (fold_left (fun acc c => acc * 10 + Z.to_N (c - 48))%N (c :: d) 0%N) (2 ^ 64)); [|discriminate]. intros X. injection X as <-. split; [discriminate|]. split; [assumption|]. split; [reflexivity | assumption].
Qed.

Definition put (c : partial_config) (x : setting) : partial_config :=
  let '(Partial n l y e p t) := c in
  match x with
  | SName s => Partial (Some s) l y e p t | SLanguage s => Partial n (Some s) y e p t | SSubject _ s => Partial n l (Some s) e p t
  | SExtension s => Partial n l y (Some s) p t | SPath s => Partial n l y e (Some s) t | STimeout _ k => Partial n l y e p (Some k)
  end.
Lemma field_read c x r : set_ok x -> exists key r', set_tokens x ++ r = TIdent key :: colon :: r' /\ name key /\ config_field c key r' = Some (put c x, r).
Proof.
  intros Ok. destruct c as [n l y e p t]. destruct x as [s | s | [|] s | s | s | d k]; cbn [set_ok] in Ok; cbn [set_tokens app]; eexists; eexists; (split; [reflexivity|]); (split; [discriminate|]); unfold config_field, put; cbn [str_eqb lit];
    try (cbn; now rewrite (ident_name s r Ok)); try reflexivity.
  - cbn - [parse_ident]. now rewrite (ident_name s r Ok).
  - cbn - [parse_ident]. now rewrite (ident_name s r Ok).
  - cbn - [parse_ident]. now rewrite (ident_name s r Ok).
  - cbn - [parse_ident]. now rewrite (ident_name s r Ok).
  - destruct Ok as (Nd & F & V & B). cbn - [parse_u64]. now rewrite (u64_read d k Nd F V B).
Qed.
Lemma config_read ts l : settings ts l -> forall fuel c, length ts < fuel -> config_fields fuel c ts = Some (fold_left put l c).
Proof.
  induction 1 as [| x sep r l Ok B H IH]; intros fuel c L; (destruct fuel as [| fuel]; [lia|]); cbn [config_fields]; [reflexivity|]. destruct (field_read c x (sep ++ r) Ok) as (key & r' & E & N & F). rewrite E in *. rewrite (ident_name _ _ N). unfold colon. rewrite F, (skip_behind sep r B). cbn [fold_left]. apply IH.
  assert (length (set_tokens x ++ sep ++ r) < S fuel) by now rewrite E. rewrite !app_length in H0. destruct x; cbn [set_tokens length] in H0; lia.
Qed.
Lemma put_last : forall l c, fold_left put l c =
  Partial (or_else (last_of as_name l) (p_name c)) (or_else (last_of as_language l) (p_language c)) (or_else (last_of as_subject l) (p_lexer c))
    (or_else (last_of as_extension l) (p_extension c)) (or_else (last_of as_path l) (p_path c)) (or_else (last_of as_timeout l) (p_timeout c)).
Proof.
  induction l as [| x l IH]; intros [n y z e p t]; [reflexivity|]. cbn [fold_left]. rewrite IH. rewrite !last_cons. destruct x; cbn [put p_name p_language p_lexer p_extension p_path p_timeout as_name as_language as_subject as_extension as_path as_timeout];
  destruct (last_of as_name l), (last_of as_language l), (last_of as_subject l), (last_of as_extension l), (last_of as_path l), (last_of as_timeout l); reflexivity.
Qed.
Lemma field_inv c key r c' r' : name key -> config_field c key r = Some (c', r') -> exists x, set_ok x /\ TIdent key :: colon :: r = set_tokens x ++ r'.
Proof.
  intros Nk. destruct c as [n l y e p t]. unfold config_field.
  destruct (str_eqbP key (lit "name")) as [-> | _]. { destruct (parse_ident r) as [[s r1] |] eqn:Ei; [|discriminate]. apply ident_inv in Ei as [-> N]. intros X. injection X as _ <-. now exists (SName s). }
  destruct (str_eqbP key (lit "language")) as [-> | _]. { destruct (parse_ident r) as [[s r1] |] eqn:Ei; [|discriminate]. apply ident_inv in Ei as [-> N]. intros X. injection X as _ <-. now exists (SLanguage s). }
  destruct (str_eqbP key (lit "lexer")) as [-> | _]. { cbn [orb]. destruct (parse_ident r) as [[s r1] |] eqn:Ei; [|discriminate]. apply ident_inv in Ei as [-> N]. intros X. injection X as _ <-. now exists (SSubject false s). }
  destruct (str_eqbP key (lit "parser")) as [-> | _]. { cbn [orb]. destruct (parse_ident r) as [[s r1] |] eqn:Ei; [|discriminate]. apply ident_inv in Ei as [-> N]. intros X. injection X as _ <-. now exists (SSubject true s). }
  cbn [orb]. destruct (str_eqbP key (lit "extension")) as [-> | _]. { destruct r as [| [| [s | | |] | |] r]; try discriminate. intros X. injection X as _ <-. now exists (SExtension s). }
  destruct (str_eqbP key (lit "path")) as [-> | _]. { destruct r as [| [| [s | | |] | |] r]; try discriminate. intros X. injection X as _ <-. now exists (SPath s). }
  destruct (str_eqbP key (lit "timeout")) as [-> | _]; [|discriminate]. destruct r as [| [| [| | d |] | |] r]; try discriminate. destruct (parse_u64 d) as [k |] eqn:Eu; [|discriminate]. intros X. injection X as _ <-. exists (STimeout d k). split; [now apply u64_inv | reflexivity].
Qed.
Lemma config_inv : forall fuel c ts c', config_fields fuel c ts = Some c' -> exists l, settings ts l.
Proof.
  induction fuel as [| fuel IH]; intros c ts c'; [discriminate|]. cbn [config_fields]. destruct ts as [| t0 ts]; [intros _; exists []; constructor|]. destruct (parse_ident (t0 :: ts)) as [[key r] |] eqn:Ei; [|discriminate]. apply ident_inv in Ei as [-> N]. destruct r as [| t1 r]; [discriminate|]. destruct t1 as [| | z |]; try discriminate. destruct (Z.eqb_spec z 58) as [-> | Nz].
  2:{ intros X. exfalso. revert X. destruct z as [| z | z]; try discriminate. repeat (destruct z as [z | z |]; try discriminate). now elim Nz. }
  destruct (config_field c key r) as [[c1 r1] |] eqn:Ef; [|discriminate]. intros X. apply IH in X as (l & X). destruct (field_inv _ _ _ _ _ N Ef) as (x & Ok & E). fold colon. rewrite E. destruct (skip_inv r1) as (sep & Es & B). exists (x :: l). rewrite Es. now constructor.
Qed.

(** The settings may be in any order; each is required but the time limit; the last one given counts; and nothing else is
    accepted. *)
Theorem test_config_exact : forall ts c, test_config ts = Some c <-> exists l, settings ts l /\ configured l c.
Proof.
  intros ts c. unfold test_config. split.
  - intros X. destruct (config_fields (S (length ts)) (Partial None None None None None None) ts) as [pc |] eqn:E; [|discriminate]. destruct (config_inv _ _ _ _ E) as (l & Hl). exists l. split; [assumption|]. rewrite (config_read ts l Hl) in E by lia. injection E as <-. rewrite put_last in X. cbn [p_name p_language p_lexer p_extension p_path p_timeout] in X. unfold configured.
    destruct (last_of as_name l), (last_of as_language l), (last_of as_subject l), (last_of as_extension l), (last_of as_path l); cbn [or_else] in X; try discriminate. injection X as <-. cbn [c_name c_language c_lexer c_extension c_path c_timeout]. repeat (split; [reflexivity|]). now destruct (last_of as_timeout l).
  - intros (l & Hl & C). rewrite (config_read ts l Hl) by lia. rewrite put_last. cbn [p_name p_language p_lexer p_extension p_path p_timeout]. destruct C as (-> & -> & -> & -> & -> & ->). cbn [or_else]. destruct c as [n y z e p t]. cbn [c_name c_language c_lexer c_extension c_path c_timeout]. now destruct t.
Qed.
Print Assumptions test_config_exact.
Definition case_config : list tt :=
  [TIdent (lit "path"); colon; TLit (LStr (lit "tests")); comma; TIdent (lit "name"); colon; TIdent (lit "t"); TIdent (lit "language"); colon; TIdent (lit "L"); comma;
   TIdent (lit "parser"); colon; TIdent (lit "P"); comma; TIdent (lit "extension"); colon; TLit (LStr (lit "rs")); comma; TIdent (lit "timeout"); colon; TLit (LInt (lit "30")); comma].
Example test_config_case : option_map (fun c => (c, timeout_of c)) (test_config case_config) = Some (Config (lit "t") (lit "L") (lit "P") (lit "rs") (lit "tests") (Some 30%N), 30%N) /\
  option_map timeout_of (test_config (firstn 19 case_config)) = Some 10%N /\ test_config (skipn 4 case_config) = None.
Proof. split; [reflexivity|]. split; reflexivity. Qed.
