(** The function on pieces and the grammar *)
From Verif Require VfsProofs.
From Verif Require Import Base Utf8 Utf8Facts VfsModel LexModel TreeModel TreeSpec JsonLangSpec LangModel LangSpec VonModel VonSpec VonProofs.

Lemma heads_in ks qs : heads ks qs = true <-> exists p r, qs = p :: r /\ In (kind p) ks.
Proof.
  destruct qs as [| p r]; cbn [heads]; [split; [discriminate | now intros (p & r & E & _)]|]. rewrite existsb_exists. split.
  - intros (k & I & E). apply Nat.eqb_eq in E. subst k. now exists p, r.
  - intros (p' & r' & E & I). injection E as <- <-. exists (kind p). split; [assumption | apply Nat.eqb_refl].
Qed.
Lemma heads_next ks qs : ~ In 0 ks -> heads ks qs = true <-> next_is ks qs.
Proof.
  intros N0. rewrite heads_in. split.
  - intros ([k s] & r & -> & I). unfold kind in I. cbn [fst] in I. destruct k as [k|]; [now exists k, s, r | contradiction].
  - intros (k & s & r & -> & I). now exists (Some k, s), r.
Qed.
Lemma heads_not ks qs : ~ In 0 ks -> heads ks qs = false <-> ~ next_is ks qs.
Proof. intros N0. rewrite <- (heads_next ks qs N0). destruct (heads ks qs); [|now split]. split; [discriminate|]. intros X. now destruct X. Qed.
Lemma heads_out ks ks' p (r : list piece) : In (kind p) ks -> existsb (fun k => existsb (Nat.eqb k) ks') ks = false -> heads ks' (p :: r) = false.
Proof.
  intros I X. cbn [heads]. destruct (existsb (Nat.eqb (kind p)) ks') eqn:E; [|reflexivity]. assert (existsb (fun k => existsb (Nat.eqb k) ks') ks = true) by (apply existsb_exists; exists (kind p); now split). congruence.
Qed.
Lemma trivia_trivial p : trivia p -> trivial p = true.
Proof. unfold trivia, trivial, kind. intros [-> | [-> | ->]]; reflexivity. Qed.
Lemma trivial_trivia p : fst p <> None -> trivial p = true -> trivia p.
Proof. unfold trivia, trivial, kind, von_ignored. destruct (fst p) as [k|]; [|easy]. intros _. rewrite !orb_true_iff, !Nat.eqb_eq. intros [[-> | ->] | ->]; auto. Qed.
Lemma trun_all qs r : Forall trivia qs -> at_rest r -> trun (qs ++ r) = qs /\ tdrop (qs ++ r) = r.
Proof.
  intros F R. induction F as [| p l H F [IH1 IH2]]; [now apply tdrop_same|]. cbn. now rewrite (trivia_trivial p H), IH1, IH2.
Qed.
Lemma rest_settled qs : settled qs -> Forall (fun p => fst p <> None) qs -> at_rest qs.
Proof.
  intros S F. destruct qs as [| p r]; [reflexivity|]. inversion F as [| ? ? Hp _]; subst. specialize (S p eq_refl). unfold at_rest. destruct (heads _ (p :: r)) eqn:E; [|reflexivity]. destruct S. apply trivial_trivia; [assumption|]. unfold trivial, von_ignored. cbn [heads existsb] in E. now rewrite orb_false_r, orb_assoc in E.
Qed.
Lemma settled_rest qs : at_rest qs -> settled qs.
Proof.
  destruct qs as [| p r]; intros R q E; [discriminate|]. injection E as <-. intros T. apply trivia_trivial in T. unfold at_rest in R. cbn [heads existsb] in R. rewrite orb_false_r, orb_assoc in R. unfold trivial, von_ignored in T. congruence.
Qed.

Section Grammar.
  Variable F : Type.
  Variable parse : str -> option F.
  Notation value := (value parse). Notation entries := (entries parse). Notation more_entries := (more_entries parse).
  Notation entry := (entry parse). Notation elements := (elements parse). Notation more_elements := (more_elements parse). Notation document := (document parse).

  (** ** What the function reads is in the grammar *)
  Definition good (p : piece) : Prop :=
    match fst p with
    | None => False
    | Some k => (k = NString -> exists b, content (snd p) b) /\ (k = NNumber -> exists x, parse (encode (without_underscores (snd p))) = Some x)
    end.
  Lemma good_some qs : Forall good qs -> Forall (fun p => fst p <> None) qs.
  Proof. apply Forall_impl. intros p. unfold good. now destruct (fst p). Qed.

  Lemma one_sound ks qs ts r : Forall good qs -> r_one ks qs = Some (ts, r) -> exists k s e, qs = e ++ r /\ In k ks /\ tok k s e /\ ts = leaves e /\ good (Some k, s) /\ Forall good r.
  Proof.
    destruct qs as [| p q]; [discriminate|]. cbn [r_one]. destruct (existsb (Nat.eqb (kind p)) ks) eqn:E; [|discriminate]. intros G H. inversion G as [| ? ? Gp Gq]; subst. injection H as <- <-.
    assert (I : In (kind p) ks). { apply existsb_exists in E. destruct E as (k & I & E). apply Nat.eqb_eq in E. now subst k. }
    destruct p as [[k|] s]; [|destruct Gp]. exists k, s, ((Some k, s) :: trun q). split; [cbn; now rewrite trun_drop|]. split; [exact I|].
    assert (T : Forall trivia (trun q) /\ Forall good (tdrop q)). { clear - Gq. induction Gq as [| p l Gp Gl [IH1 IH2]]; [split; constructor|]. cbn. destruct (trivial p) eqn:T; [|split; [constructor | now constructor]]. split; [constructor; [|assumption] | assumption]. apply trivial_trivia; [|assumption]. unfold good in Gp. now destruct (fst p). }
    destruct T as [T1 T2]. split; [now exists (trun q)|]. split; [reflexivity|]. now split.
  Qed.

  Lemma trim_start_spec t : exists a, t = a ++ trim_start t /\ Forall (eq 34%Z) a /\ hd_error (trim_start t) <> Some 34%Z.
  Proof.
    induction t as [| c t (a & E & Fa & H)]; [exists []; split; [reflexivity|]; split; [constructor | discriminate]|]. cbn. destruct (c =? 34)%Z eqn:C.
    - apply Z.eqb_eq in C. subst c. exists (34%Z :: a). split; [cbn; now rewrite <- E|]. split; [now constructor | assumption].
    - exists []. split; [reflexivity|]. split; [constructor|]. cbn. apply Z.eqb_neq in C. congruence.
  Qed.
  Lemma trim_named s : named s (von_trim s).
  Proof.
    unfold von_trim. destruct (trim_start_spec s) as (a & E & Fa & Ha). destruct (trim_start_spec (rev (trim_start s))) as (b & Eb & Fb & Hb). set (m := trim_start s) in *. set (n := trim_start (rev m)) in *.
    assert (Em : m = rev n ++ rev b) by (rewrite <- rev_app_distr, <- Eb; symmetry; apply rev_involutive). exists a, (rev b). split; [now rewrite <- Em|]. split; [assumption|]. split; [apply Forall_forall; intros x I; apply (proj1 (Forall_forall _ _) Fb), in_rev; exact I|]. split.
    - destruct (rev n) as [| c x] eqn:En; [discriminate|]. rewrite Em in Ha. exact Ha.
    - intros n' E'. apply Hb. apply (f_equal (@rev Z)) in E'. rewrite rev_involutive, rev_app_distr in E'. now rewrite E'.
  Qed.

  Lemma value_some o e r t v : value o e r t v -> e <> [].
  Proof.
    intros V. destruct V as [? ? ? ? ? T | ? ? ? ? ? T | ? ? ? ? ? T | ? ? ? ? T | ? ? ? ? T | ? ? ? ? ? ? ? T | ? ? ? ? ? ? ? ? ? T | ? ? ? ? ? ? ? ? ? T]; destruct T as (w & -> & _); discriminate.
  Qed.
  Definition reads_value (rv : reader) : Prop := forall qs ts r, Forall good qs -> rv qs = Some (ts, r) -> exists e t, qs = e ++ r /\ ts = [t] /\ Forall good r /\ forall o, exists v, value o e r t v.

  Lemma entry_sound rv qs ts r : reads_value rv -> Forall good qs -> r_entry rv qs = Some (ts, r) -> exists e t, qs = e ++ r /\ ts = [t] /\ Forall good r /\ forall o, exists f, entry o e r t f.
  Proof.
    intros Hv G. unfold r_entry, r_node, r_then. destruct (r_one [NIdentifier; NString] qs) as [[ts1 r1]|] eqn:E1; [|discriminate]. destruct (one_sound _ _ _ _ G E1) as (k & s & a & -> & I & T & -> & _ & G1).
    destruct (r_one [NEq] r1) as [[ts2 r2]|] eqn:E2; [|discriminate]. destruct (one_sound _ _ _ _ G1 E2) as (k2 & s2 & b & -> & I2 & T2 & -> & _ & G2). destruct I2 as [<- | []].
    destruct (rv r2) as [[ts3 r3]|] eqn:E3; [|discriminate]. destruct (Hv _ _ _ G2 E3) as (c & t & -> & -> & G3 & V). intros H. injection H as <- <-.
    exists (a ++ b ++ c). eexists. split; [now rewrite <- !app_assoc|]. split; [reflexivity|]. split; [assumption|]. intros o. destruct (V (o + len (a ++ b))) as (v & Hv'). eexists. apply (EnEntry F parse o a b c r3 s s2 (von_trim s) t v); [|exact T2 | apply trim_named | exact Hv'].
    destruct I as [<- | [<- | []]]; [now left | now right].
  Qed.

  Lemma comma_sound first qs ts r : Forall good qs -> r_comma first qs = Some (ts, r) ->
    exists c, qs = c ++ r /\ ts = leaves c /\ Forall good r /\ (c = [] /\ r = qs /\ (first = true \/ heads [NComma] qs = false) \/ first = false /\ heads [NComma] qs = true /\ exists s, tok NComma s c).
  Proof.
    intros G. unfold r_comma. destruct first; [intros H; injection H as <- <-; exists []; split; [reflexivity|]; split; [reflexivity|]; split; [assumption|]; now left; repeat split; left|].
    destruct (heads [NComma] qs) eqn:H.
    - intros E. destruct (one_sound _ _ _ _ G E) as (k & s & c & -> & [<- | []] & T & -> & _ & G1). exists c. split; [reflexivity|]. split; [reflexivity|]. split; [assumption|]. right. split; [reflexivity|]. split; [reflexivity|]. now exists s.
    - intros E. injection E as <- <-. exists []. split; [reflexivity|]. split; [reflexivity|]. split; [assumption|]. left. split; [reflexivity|]. split; [reflexivity|]. now right.
  Qed.
  Lemma heads_cons_false a ks qs : heads [a] qs = false -> heads ks qs = false -> heads (a :: ks) qs = false.
  Proof. destruct qs; [reflexivity|]. cbn. now rewrite orb_false_r, orb_false_iff. Qed.

  Lemma entries_sound rv : reads_value rv -> forall fuel first qs ts r, Forall good qs -> r_entries (r_entry rv) fuel first qs = Some (ts, r) ->
    exists b, qs = b ++ r /\ Forall good r /\ (first = true -> b = [] -> heads [NIdentifier; NString] r = false) /\ forall o, exists fs, if first then entries o b r ts fs else more_entries o b r ts fs.
  Proof.
    intros Hv. induction fuel as [| f IH]; [discriminate|]. intros first qs ts r G. cbn [r_entries]. unfold r_then at 1. destruct (r_comma first qs) as [[ts1 r1]|] eqn:E1; [|discriminate].
    destruct (comma_sound _ _ _ _ G E1) as (c & -> & -> & G1 & C). destruct (heads [NIdentifier; NString] r1) eqn:H1.
    - unfold r_then. destruct (r_entry rv r1) as [[ts2 r2]|] eqn:E2; [|discriminate]. destruct (entry_sound rv _ _ _ Hv G1 E2) as (e & t & -> & -> & G2 & V).
      destruct (r_entries (r_entry rv) f false r2) as [[ts3 r3]|] eqn:E3; [|discriminate]. destruct (IH _ _ _ _ G2 E3) as (m & -> & G3 & _ & M). intros H. injection H as <- <-.
      destruct first.
      + destruct C as [(-> & _ & _) | (X & _)]; [|discriminate]. exists (e ++ m). split; [now rewrite <- app_assoc|]. split; [assumption|]. split.
        { intros _ Em. apply app_eq_nil in Em. destruct Em as [-> _]. destruct (V 0) as [f0 Ve]. inversion Ve as [? k q v ? s s' n t' x T Tq Nm Vv Eo Ee]; subst. destruct T as [(w & -> & _) | (w & -> & _)]; discriminate. }
        intros o. destruct (V o) as (fd & Vf). destruct (M (o + len e)) as (fs & Mf). exists (fd :: fs). now apply EnSome.
      + exists (c ++ e ++ m). split; [now rewrite <- !app_assoc|]. split; [assumption|]. split; [discriminate|]. intros o. destruct (V (o + len c)) as (fd & Vf). destruct (M (o + len (c ++ e))) as (fs & Mf). exists (fd :: fs). apply MoNext; [|assumption | assumption].
        destruct C as [(-> & _) | (_ & _ & X)]; [now left | now right].
    - intros H. injection H as <- <-. rewrite app_nil_r. exists c. split; [reflexivity|]. split; [assumption|]. split; [intros _ _; exact H1|]. intros o. destruct C as [(-> & _ & C) | (-> & _ & s & T)].
      + destruct first; [exists []; constructor|]. destruct C as [C | C]; [discriminate|]. exists []. constructor. apply heads_not; [cbn; intuition discriminate|]. now apply heads_cons_false.
      + exists []. apply (MoComma F parse o c r1 s); [assumption|]. apply heads_not; [cbn; intuition discriminate | assumption].
  Qed.

  Lemma elements_sound rv : reads_value rv -> forall fuel first qs ts r, Forall good qs -> r_elements (r_node NElement rv) fuel first qs = Some (ts, r) ->
    exists b, qs = b ++ r /\ Forall good r /\ forall o, exists vs, if first then elements o b r ts vs else more_elements o b r ts vs.
  Proof.
    intros Hv. induction fuel as [| f IH]; [discriminate|]. intros first qs ts r G. cbn [r_elements]. destruct qs as [| q0 qs0] eqn:Eq.
    { intros H. injection H as <- <-. exists []. split; [reflexivity|]. split; [constructor|]. intros o. exists []. destruct first; constructor. }
    rewrite <- Eq in *. clear q0 qs0 Eq. destruct (heads [NRightBracket] qs) eqn:H0.
    { intros H. injection H as <- <-. exists []. split; [reflexivity|]. split; [assumption|]. intros o. exists []. destruct first; constructor. }
    destruct (heads [NEof] qs); [discriminate|]. unfold r_then at 1. destruct (r_comma first qs) as [[ts1 r1]|] eqn:E1; [|discriminate].
    destruct (comma_sound _ _ _ _ G E1) as (c & Ec & -> & G1 & C). destruct (negb first && heads [NComma] qs && heads [NRightBracket] r1) eqn:H1.
    - intros H. injection H as <- <-. rewrite app_nil_r. apply andb_true_iff in H1. destruct H1 as [H1 _]. apply andb_true_iff in H1. destruct H1 as [Hf Hc]. destruct first; [discriminate|]. exists c. split; [assumption|]. split; [assumption|].
      destruct C as [(_ & _ & [X | X]) | (_ & _ & s & T)]; [discriminate | congruence|]. intros o. exists []. now apply (MeComma F parse o c r1 s).
    - unfold r_then, r_node at 1. destruct (rv r1) as [[ts2 r2]|] eqn:E2; [|discriminate]. destruct (Hv _ _ _ G1 E2) as (e & t & -> & -> & G2 & V).
      destruct (r_elements (r_node NElement rv) f false r2) as [[ts3 r3]|] eqn:E3; [|discriminate]. destruct (IH _ _ _ _ G2 E3) as (m & -> & G3 & M). intros H. injection H as <- <-.
      destruct first.
      + destruct C as [(-> & _ & _) | (X & _)]; [|discriminate]. exists (e ++ m). split; [rewrite Ec; now rewrite <- app_assoc|]. split; [assumption|]. intros o. destruct (V o) as (v & Vf). destruct (M (o + len e)) as (vs & Mf). exists (v :: vs). now apply ElSome.
      + exists (c ++ e ++ m). split; [rewrite Ec; now rewrite <- !app_assoc|]. split; [assumption|]. intros o. destruct (V (o + len c)) as (v & Vf). destruct (M (o + len (c ++ e))) as (vs & Mf). exists (v :: vs). apply MeNext; [|assumption | assumption].
        destruct C as [(-> & _) | (_ & _ & X)]; [now left | now right].
  Qed.

  Lemma value_sound N fuel : reads_value (r_value N fuel).
  Proof.
    induction fuel as [| f IH]; [discriminate|]. intros qs ts r G. cbn [r_value]. unfold r_node at 1. destruct (heads [NLeftBrace] qs) eqn:HB.
    { unfold r_object, r_node, r_then. destruct (r_one [NLeftBrace] qs) as [[ts1 r1]|] eqn:E1; [|discriminate]. destruct (one_sound _ _ _ _ G E1) as (k & s & a & -> & [<- | []] & T & -> & _ & G1).
      destruct (r_entries (r_entry (r_value N f)) N true r1) as [[ts2 r2]|] eqn:E2; [|discriminate]. destruct (entries_sound _ IH _ _ _ _ _ G1 E2) as (b & -> & G2 & _ & V).
      destruct (r_one [NRightBrace] r2) as [[ts3 r3]|] eqn:E3; [|discriminate]. destruct (one_sound _ _ _ _ G2 E3) as (k & s' & z & -> & [<- | []] & T' & -> & _ & G3). intros H. injection H as <- <-.
      exists (a ++ b ++ z). eexists. split; [now rewrite <- !app_assoc|]. split; [reflexivity|]. split; [assumption|]. intros o. destruct (V (o + len a)) as (fs & Vf). eexists. now apply (VaObject F parse o a b z r3 s s' ts2 fs). }
    destruct (heads [NLeftBracket] qs) eqn:HK.
    { unfold r_array, r_then. unfold r_node at 1. destruct (r_one [NLeftBracket] qs) as [[ts1 r1]|] eqn:E1; [|discriminate]. destruct (one_sound _ _ _ _ G E1) as (k & s & a & -> & [<- | []] & T & -> & _ & G1).
      destruct (r_elements (r_node NElement (r_value N f)) N true r1) as [[ts2 r2]|] eqn:E2; [|discriminate]. destruct (elements_sound _ IH _ _ _ _ _ G1 E2) as (b & -> & G2 & V).
      destruct (r_one [NRightBracket] r2) as [[ts3 r3]|] eqn:E3; [|discriminate]. destruct (one_sound _ _ _ _ G2 E3) as (k & s' & z & -> & [<- | []] & T' & -> & _ & G3). intros H. injection H as <- <-.
      exists (a ++ b ++ z). eexists. split; [now rewrite <- !app_assoc|]. split; [reflexivity|]. split; [assumption|]. intros o. destruct (V (o + len a)) as (vs & Vf). eexists. now apply (VaArray F parse o a b z r3 s s' ts2 vs). }
    destruct (heads [NIdentifier] qs) eqn:HI.
    { unfold r_enum, r_node, r_then. destruct (r_one [NIdentifier] qs) as [[ts1 r1]|] eqn:E1; [|discriminate]. destruct (one_sound _ _ _ _ G E1) as (k & s & a & -> & [<- | []] & T & -> & _ & G1). destruct (heads [NLeftBrace; NLeftBracket] r1) eqn:H1.
      - destruct (r_value N f r1) as [[ts2 r2]|] eqn:E2; [|discriminate]. destruct (IH _ _ _ G1 E2) as (p & t & -> & -> & G2 & V). intros H. injection H as <- <-. exists (a ++ p). eexists. split; [now rewrite <- app_assoc|]. split; [reflexivity|]. split; [assumption|].
        intros o. destruct (V (o + len a)) as (v & Hv). eexists. apply (VaPayload F parse o a p r2 s t v); [assumption | | assumption]. apply heads_next; [cbn; intuition discriminate|].
        destruct p as [| p0 p']; [|exact H1]. now destruct (value_some _ _ _ _ _ Hv).
      - intros H. injection H as <- <-. exists a. eexists. split; [reflexivity|]. split; [now rewrite app_nil_r|]. split; [assumption|]. intros o. eexists. apply (VaUnit F parse o a r1 s); [assumption|]. apply heads_not; [cbn; intuition discriminate | assumption]. }
    destruct (r_one [NString; NNumber; NBool; NNull] qs) as [[ts1 r1]|] eqn:E1; [|discriminate]. destruct (one_sound _ _ _ _ G E1) as (k & s & a & -> & I & T & -> & Gs & G1). intros H. injection H as <- <-. exists a. eexists. split; [reflexivity|]. split; [reflexivity|]. split; [assumption|]. intros o. cbn in Gs. destruct Gs as [Gs Gn].
    destruct I as [<- | [<- | [<- | [<- | []]]]].
    - destruct (Gs eq_refl) as [b Hb]. eexists. now apply (VaString F parse o a r1 s b).
    - destruct (Gn eq_refl) as [x Hx]. eexists. now apply (VaNumber F parse o a r1 s x).
    - exists (VBoolean (str_eqb s (lit "true")) (o, o + length (encode s))). apply VaBool; [assumption|]. apply VfsProofs.str_eqb_spec.
    - eexists. now apply (VaNull F parse o a r1 s).
  Qed.
  Lemma body_sound N qs ts r : Forall good qs -> Forall (fun p => kind p <> NEof) qs -> r_body N qs = Some (ts, r) -> exists e t, qs = e ++ r /\ ts = [t] /\ forall o, exists v, document o e r t v.
  Proof.
    intros G NE. unfold r_body. destruct (heads [NLeftBrace; NLeftBracket] qs) eqn:HB.
    { intros E. destruct (value_sound N N qs ts r G E) as (e & t & -> & -> & _ & V). exists e, t. split; [reflexivity|]. split; [reflexivity|]. intros o. destruct (V o) as (v & Hv). exists v. apply DoValue; [|assumption]. intros (k & s & e' & -> & [<- | []]). discriminate. }
    destruct (heads [NIdentifier] qs) eqn:HI.
    { unfold r_node at 1. destruct (r_entries (r_entry (r_value N N)) N true qs) as [[ts1 r1]|] eqn:E; [|discriminate]. intros H. injection H as <- <-. destruct (entries_sound _ (value_sound N N) _ _ _ _ _ G E) as (b & -> & _ & B & V). exists b. eexists. split; [reflexivity|]. split; [reflexivity|]. intros o. destruct (V o) as (fs & Hf). eexists. apply DoEntries; [|exact Hf].
      destruct b as [| p b']; [|apply heads_next; [cbn; intuition discriminate | exact HI]]. specialize (B eq_refl eq_refl). cbn [app] in HI. apply heads_in in HI. destruct HI as (p & q & -> & [I | []]). cbn [heads existsb] in B. rewrite <- I in B. discriminate. }
    assert (Hf : heads [NEof] qs = false). { destruct (heads [NEof] qs) eqn:X; [|reflexivity]. apply heads_in in X. destruct X as (p & q & -> & [I | []]). inversion NE. congruence. }
    rewrite Hf. intros E. destruct (value_sound N N qs ts r G E) as (e & t & -> & -> & _ & V). exists e, t. split; [reflexivity|]. split; [reflexivity|]. intros o. destruct (V o) as (v & Hv). exists v. apply DoValue; [|assumption]. intros (k & s & e' & -> & [<- | []]). discriminate.
  Qed.

  (** ** What is in the grammar is read *)
  Scheme value_mind := Minimality for VonSpec.value Sort Prop
    with entries_mind := Minimality for VonSpec.entries Sort Prop
    with more_entries_mind := Minimality for VonSpec.more_entries Sort Prop
    with entry_mind := Minimality for VonSpec.entry Sort Prop
    with elements_mind := Minimality for VonSpec.elements Sort Prop
    with more_elements_mind := Minimality for VonSpec.more_elements Sort Prop.

  Definition begins (ks : list nat) (e : list piece) : Prop := exists p e', e = p :: e' /\ In (kind p) ks.
  Notation starts := [NLeftBrace; NLeftBracket; NIdentifier; NString; NNumber; NBool; NNull].
  Lemma tok_begins k s e : tok k s e -> begins [k] e.
  Proof. intros (w & -> & _). exists (Some k, s), w. split; [reflexivity | now left]. Qed.
  Lemma begins_app ks e r : begins ks e -> begins ks (e ++ r).
  Proof. intros (p & e' & -> & I). now exists p, (e' ++ r). Qed.
  Lemma begins_more ks ks' e : begins ks e -> incl ks ks' -> begins ks' e.
  Proof. intros (p & e' & -> & I) H. exists p, e'. split; [reflexivity | now apply H]. Qed.
  Lemma begins_heads ks e : begins ks e <-> heads ks e = true.
  Proof. symmetry. apply heads_in. Qed.
  Lemma begins_not ks ks' e : begins ks e -> existsb (fun k => existsb (Nat.eqb k) ks') ks = false -> heads ks' e = false.
  Proof. intros (p & e' & -> & I) X. now apply (heads_out ks). Qed.
  Lemma begins_length ks e : begins ks e -> 0 < length e.
  Proof. intros (p & e' & -> & _). cbn. lia. Qed.
  Lemma one_complete ks k s e r : tok k s e -> In k ks -> at_rest r -> r_one ks (e ++ r) = Some (leaves e, r).
  Proof.
    intros (w & -> & Fw) I R. cbn [app r_one]. assert (X : existsb (Nat.eqb (kind (Some k, s))) ks = true) by (apply existsb_exists; exists k; split; [assumption | apply Nat.eqb_refl]). rewrite X. destruct (trun_all w r Fw R) as [-> ->]. reflexivity.
  Qed.

  Variable N : nat.
  Definition Pv (o : nat) (e r : list piece) (t : green) (v : vvalue F) : Prop :=
    begins starts e /\ (at_rest r -> length (e ++ r) < N -> forall f, length (e ++ r) < f -> r_value N f (e ++ r) = Some ([t], r)).
  Definition Pe (o : nat) (e r : list piece) (t : green) (f : str * vvalue F * (nat * nat)) : Prop :=
    begins [NIdentifier; NString] e /\ (at_rest r -> length (e ++ r) < N -> forall f, length (e ++ r) <= f -> r_entry (r_value N f) (e ++ r) = Some ([t], r)).
  Definition Pes (o : nat) (b r : list piece) (ts : list green) (fs : list (str * vvalue F * (nat * nat))) : Prop :=
    (b = [] \/ begins [NIdentifier; NString] b) /\
    (at_rest r -> (b = [] -> heads [NIdentifier; NString] r = false) -> length (b ++ r) < N -> forall f fuel, length (b ++ r) <= f -> length (b ++ r) < fuel -> r_entries (r_entry (r_value N f)) fuel true (b ++ r) = Some (ts, r)).
  Definition Pme (o : nat) (b r : list piece) (ts : list green) (fs : list (str * vvalue F * (nat * nat))) : Prop :=
    (b = [] \/ begins [NIdentifier; NString; NComma] b) /\
    (at_rest r -> length (b ++ r) < N -> forall f fuel, length (b ++ r) <= f -> length (b ++ r) < fuel -> r_entries (r_entry (r_value N f)) fuel false (b ++ r) = Some (ts, r)).
  Definition Pls (o : nat) (b r : list piece) (ts : list green) (vs : list (vvalue F)) : Prop :=
    (b = [] \/ begins starts b) /\
    (at_rest r -> heads [NRightBracket] r = true -> length (b ++ r) < N -> forall f fuel, length (b ++ r) < f -> length (b ++ r) < fuel -> r_elements (r_node NElement (r_value N f)) fuel true (b ++ r) = Some (ts, r)).
  Definition Pml (o : nat) (b r : list piece) (ts : list green) (vs : list (vvalue F)) : Prop :=
    (b = [] \/ begins (NComma :: starts) b) /\
    (at_rest r -> heads [NRightBracket] r = true -> length (b ++ r) < N -> forall f fuel, length (b ++ r) < f -> length (b ++ r) < fuel -> r_elements (r_node NElement (r_value N f)) fuel false (b ++ r) = Some (ts, r)).

  Lemma rest_begins ks e : begins ks e -> existsb (fun k => existsb (Nat.eqb k) [NWhitespace; NNewline; NComment]) ks = false -> at_rest e.
  Proof. apply begins_not. Qed.
  Lemma maybe_rest ks b r : b = [] \/ begins ks b -> existsb (fun k => existsb (Nat.eqb k) [NWhitespace; NNewline; NComment]) ks = false -> at_rest r -> at_rest (b ++ r).
  Proof. intros [-> | B] X R; [exact R|]. now apply (rest_begins ks); [apply begins_app|]. Qed.

  Lemma scalar_complete k s o e r v : tok k s e -> In k [NString; NNumber; NBool; NNull] -> Pv o e r (gnode NValue (leaves e)) v.
  Proof.
    intros T I. assert (B : begins [NString; NNumber; NBool; NNull] e) by (apply (begins_more [k]); [now apply (tok_begins k s) | now intros x [<- | []]]). split.
    - apply (begins_more _ _ _ B). intros x Hx. cbn in *. intuition.
    - intros R L [| f] Lf; [lia|]. cbn [r_value]. unfold r_node at 1. assert (B' : begins [NString; NNumber; NBool; NNull] (e ++ r)) by now apply begins_app.
      rewrite (begins_not _ [NLeftBrace] _ B'), (begins_not _ [NLeftBracket] _ B'), (begins_not _ [NIdentifier] _ B') by reflexivity. now rewrite (one_complete _ k s e r T I R).
  Qed.
  Lemma opening_rest k s e r : tok k s e -> von_ignored k = false -> at_rest (e ++ r).
  Proof. intros T K. apply (rest_begins [k]); [now apply begins_app, (tok_begins k s)|]. cbn. unfold von_ignored in K. now rewrite orb_false_r, orb_false_r, orb_assoc. Qed.
  Lemma tok_length k s e : tok k s e -> 0 < length e.
  Proof. intros (w & -> & _). cbn. lia. Qed.

  Lemma comma_complete (c r : list piece) : (c = [] /\ heads [NComma] r = false \/ exists s, tok NComma s c) -> at_rest r -> r_comma false (c ++ r) = Some (leaves c, r) /\ (c <> [] -> heads [NComma] (c ++ r) = true).
  Proof.
    intros [[-> H] | (s & T)] R; unfold r_comma; [cbn [app]; rewrite H; now split|]. assert (H : heads [NComma] (c ++ r) = true) by (apply begins_heads, begins_app; now apply (tok_begins _ s)). rewrite H. split; [|reflexivity]. apply (one_complete [NComma] NComma s); [assumption | now left | assumption].
  Qed.

  Theorem grammar_complete :
    (forall o e r t v, value o e r t v -> Pv o e r t v) /\ (forall o b r ts fs, entries o b r ts fs -> Pes o b r ts fs).
  Proof.
    assert (H : (forall o e r t v, value o e r t v -> Pv o e r t v) /\ (forall o b r ts fs, entries o b r ts fs -> Pes o b r ts fs) /\ (forall o b r ts fs, more_entries o b r ts fs -> Pme o b r ts fs) /\
                (forall o e r t f, entry o e r t f -> Pe o e r t f) /\ (forall o b r ts vs, elements o b r ts vs -> Pls o b r ts vs) /\ (forall o b r ts vs, more_elements o b r ts vs -> Pml o b r ts vs)); [|now destruct H as (H1 & H2 & _)].
    assert (C1 : forall o e r s b, tok NString s e -> content s b -> Pv o e r (gnode NValue (leaves e)) (VString (encode b) (o, o + length (encode s)))) by (intros; apply (scalar_complete NString s); [assumption | cbn; tauto]).
    assert (C2 : forall o e r s x, tok NNumber s e -> parse (encode (without_underscores s)) = Some x -> Pv o e r (gnode NValue (leaves e)) (VNumber x (o, o + length (encode s)))) by (intros; apply (scalar_complete NNumber s); [assumption | cbn; tauto]).
    assert (C3 : forall o e r s b, tok NBool s e -> (b = true <-> s = lit "true") -> Pv o e r (gnode NValue (leaves e)) (VBoolean b (o, o + length (encode s)))) by (intros; apply (scalar_complete NBool s); [assumption | cbn; tauto]).
    assert (C4 : forall o e r s, tok NNull s e -> Pv o e r (gnode NValue (leaves e)) (VNull (o, o + length (encode s)))) by (intros; apply (scalar_complete NNull s); [assumption | cbn; tauto]).
    assert (C5 : forall o e r n, tok NIdentifier n e -> ~ next_is [NLeftBrace; NLeftBracket] r -> Pv o e r (gnode NValue [gnode NEnum (leaves e)]) (VEnum (encode n) None (o, o + len e))).
    { intros o e r n T Hn. assert (B : begins [NIdentifier] e) by now apply (tok_begins _ n). split; [apply (begins_more _ _ _ B); intros x [<- | []]; cbn; tauto|]. intros R L [| f] Lf; [lia|]. cbn [r_value]. unfold r_node at 1. assert (B' : begins [NIdentifier] (e ++ r)) by now apply begins_app.
      rewrite (begins_not _ [NLeftBrace] _ B'), (begins_not _ [NLeftBracket] _ B') by reflexivity. rewrite (proj1 (begins_heads _ _) B'). unfold r_enum, r_node, r_then. rewrite (one_complete [NIdentifier] NIdentifier n e r T (or_introl eq_refl) R).
      assert (X : heads [NLeftBrace; NLeftBracket] r = false) by (apply heads_not; [cbn; intuition discriminate | assumption]). rewrite X. now rewrite app_nil_r. }
    assert (C6 : forall o e p r n t v, tok NIdentifier n e -> next_is [NLeftBrace; NLeftBracket] p -> value (o + len e) p r t v -> Pv (o + len e) p r t v -> Pv o (e ++ p) r (gnode NValue [gnode NEnum (leaves e ++ [t])]) (VEnum (encode n) (Some v) (o, o + len (e ++ p)))).
    { intros o e p r n t v T Hn _ [Bp IH]. assert (B : begins [NIdentifier] e) by now apply (tok_begins _ n). split; [apply begins_app, (begins_more _ _ _ B); intros x [<- | []]; cbn; tauto|]. intros R L [| f] Lf; [lia|]. cbn [r_value]. unfold r_node at 1. rewrite <- app_assoc in *. assert (B' : begins [NIdentifier] (e ++ p ++ r)) by now apply begins_app.
      rewrite (begins_not _ [NLeftBrace] _ B'), (begins_not _ [NLeftBracket] _ B') by reflexivity. rewrite (proj1 (begins_heads _ _) B'). unfold r_enum, r_node, r_then.
      assert (X : heads [NLeftBrace; NLeftBracket] (p ++ r) = true) by (apply begins_heads, begins_app, begins_heads, heads_next; [cbn; intuition discriminate | assumption]).
      assert (Rp : at_rest (p ++ r)) by (apply (rest_begins starts); [now apply begins_app | reflexivity]).
      rewrite (one_complete [NIdentifier] NIdentifier n e (p ++ r) T (or_introl eq_refl) Rp). rewrite X. pose proof (tok_length _ _ _ T). rewrite app_length in L, Lf. now rewrite (IH R ltac:(lia) f ltac:(lia)). }
    assert (C7 : forall o a b z r s s' ts fs, tok NLeftBrace s a -> tok NRightBrace s' z -> entries (o + len a) b (z ++ r) ts fs -> Pes (o + len a) b (z ++ r) ts fs -> Pv o (a ++ b ++ z) r (gnode NValue [gnode NObject (leaves a ++ ts ++ leaves z)]) (VObject fs (o, o + len (a ++ b ++ z)))).
    { intros o a b z r s s' ts fs Ta Tz _ [Bb IH]. assert (B : begins [NLeftBrace] a) by now apply (tok_begins _ s). split; [apply begins_app, (begins_more _ _ _ B); intros x [<- | []]; cbn; tauto|]. intros R L [| f] Lf; [lia|]. cbn [r_value]. unfold r_node at 1.
      assert (Ea : (a ++ b ++ z) ++ r = a ++ b ++ z ++ r) by now rewrite <- !app_assoc. rewrite Ea in *. assert (B' : begins [NLeftBrace] (a ++ b ++ z ++ r)) by now apply begins_app. rewrite (proj1 (begins_heads _ _) B'). unfold r_object, r_node, r_then.
      assert (Rz : at_rest (z ++ r)) by (now apply (opening_rest NRightBrace s')).
      assert (Bz : begins [NRightBrace] (z ++ r)) by (apply begins_app; now apply (tok_begins _ s')).
      rewrite (one_complete [NLeftBrace] NLeftBrace s a _ Ta (or_introl eq_refl)); [|apply (maybe_rest [NIdentifier; NString]); [assumption | reflexivity | assumption]].
      pose proof (tok_length _ _ _ Ta) as La. rewrite (app_length a) in L, Lf. change (r_entries (fun qs => match r_then (r_one [NIdentifier; NString]) (r_then (r_one [NEq]) (r_value N f)) qs with Some (ts, r) => Some ([gnode NEntry ts], r) | None => None end)) with (r_entries (r_entry (r_value N f))).
      rewrite (IH Rz (fun _ => begins_not _ [NIdentifier; NString] _ Bz eq_refl) ltac:(lia) f N ltac:(lia) ltac:(lia)). now rewrite (one_complete [NRightBrace] NRightBrace s' z r Tz (or_introl eq_refl) R). }
    assert (C8 : forall o a b z r s s' ts vs, tok NLeftBracket s a -> tok NRightBracket s' z -> elements (o + len a) b (z ++ r) ts vs -> Pls (o + len a) b (z ++ r) ts vs -> Pv o (a ++ b ++ z) r (gnode NValue [gnode NArray (leaves a ++ ts ++ leaves z)]) (VArray vs (o, o + len (a ++ b ++ z)))).
    { intros o a b z r s s' ts vs Ta Tz _ [Bb IH]. assert (B : begins [NLeftBracket] a) by now apply (tok_begins _ s). split; [apply begins_app, (begins_more _ _ _ B); intros x [<- | []]; cbn; tauto|]. intros R L [| f] Lf; [lia|]. cbn [r_value]. unfold r_node at 1.
      assert (Ea : (a ++ b ++ z) ++ r = a ++ b ++ z ++ r) by now rewrite <- !app_assoc. rewrite Ea in *. assert (B' : begins [NLeftBracket] (a ++ b ++ z ++ r)) by now apply begins_app. rewrite (begins_not _ [NLeftBrace] _ B') by reflexivity. rewrite (proj1 (begins_heads _ _) B'). unfold r_array, r_then. unfold r_node at 1.
      assert (Rz : at_rest (z ++ r)) by (now apply (opening_rest NRightBracket s')).
      assert (Bz : begins [NRightBracket] (z ++ r)) by (apply begins_app; now apply (tok_begins _ s')).
      rewrite (one_complete [NLeftBracket] NLeftBracket s a _ Ta (or_introl eq_refl)); [|apply (maybe_rest starts); [assumption | reflexivity | assumption]].
      pose proof (tok_length _ _ _ Ta) as La. rewrite (app_length a) in L, Lf.
      rewrite (IH Rz (proj1 (begins_heads _ _) Bz) ltac:(lia) f N ltac:(lia) ltac:(lia)). now rewrite (one_complete [NRightBracket] NRightBracket s' z r Tz (or_introl eq_refl) R). }
    assert (E1 : forall o r, Pes o [] r [] []).
    { intros o r. split; [now left|]. intros R H L f [| fuel] Lf Lu; [cbn in Lu; lia|]. cbn [app r_entries]. unfold r_then, r_comma. now rewrite (H eq_refl). }
    assert (Step : forall o e m r t fd ts fs, Pe o e (m ++ r) t fd -> Pme (o + len e) m r ts fs -> at_rest r -> length (e ++ m ++ r) < N -> forall f fuel, length (e ++ m ++ r) <= f -> length (e ++ m ++ r) <= fuel ->
              heads [NIdentifier; NString] (e ++ m ++ r) = true /\ r_then (r_entry (r_value N f)) (r_entries (r_entry (r_value N f)) fuel false) (e ++ m ++ r) = Some (t :: ts, r)).
    { intros o e m r t fd ts fs [Be IHe] [Bm IHm] R L f fuel Lf Lu. split; [now apply begins_heads, begins_app|]. unfold r_then.
      rewrite (IHe ltac:(now apply (maybe_rest [NIdentifier; NString; NComma])) L f Lf). pose proof (begins_length _ _ Be). rewrite app_length in L, Lf, Lu. now rewrite (IHm R ltac:(lia) f fuel ltac:(lia) ltac:(lia)). }
    assert (E2 : forall o e m r t fd ts fs, entry o e (m ++ r) t fd -> Pe o e (m ++ r) t fd -> more_entries (o + len e) m r ts fs -> Pme (o + len e) m r ts fs -> Pes o (e ++ m) r (t :: ts) (fd :: fs)).
    { intros o e m r t fd ts fs _ IHe _ IHm. split; [right; apply begins_app, IHe|]. rewrite <- app_assoc. intros R _ L f [| fuel] Lf Lu; [lia|]. cbn [r_entries]. unfold r_then at 1, r_comma. destruct (Step o e m r t fd ts fs IHe IHm R L f fuel Lf ltac:(lia)) as [-> ->]. reflexivity. }
    assert (M1 : forall o r, ~ next_is [NComma; NIdentifier; NString] r -> Pme o [] r [] []).
    { intros o r Hn. split; [now left|]. intros R L f [| fuel] Lf Lu; [lia|]. cbn [app r_entries]. apply heads_not in Hn; [|cbn; intuition discriminate]. unfold r_then, r_comma.
      assert (X1 : heads [NComma] r = false) by (destruct r; [reflexivity|]; cbn in *; apply orb_false_iff in Hn; destruct Hn as [-> _]; reflexivity). assert (X2 : heads [NIdentifier; NString] r = false) by (destruct r; [reflexivity|]; cbn in *; apply orb_false_iff in Hn; now destruct Hn as [_ Hn]).
      now rewrite X1, X2. }
    assert (M2 : forall o c r s, tok NComma s c -> ~ next_is [NIdentifier; NString] r -> Pme o c r (leaves c) []).
    { intros o c r s T Hn. split; [right; apply (begins_more [NComma]); [now apply (tok_begins _ s) | intros x [<- | []]; cbn; tauto]|]. intros R L f [| fuel] Lf Lu; [lia|]. cbn [r_entries]. unfold r_then.
      destruct (comma_complete c r (or_intror (ex_intro _ s T)) R) as [-> _]. apply heads_not in Hn; [|cbn; intuition discriminate]. rewrite Hn. now rewrite app_nil_r. }
    assert (M3 : forall o c e m r t fd ts fs, c = [] \/ (exists s, tok NComma s c) -> entry (o + len c) e (m ++ r) t fd -> Pe (o + len c) e (m ++ r) t fd -> more_entries (o + len (c ++ e)) m r ts fs -> Pme (o + len (c ++ e)) m r ts fs -> Pme o (c ++ e ++ m) r (leaves c ++ t :: ts) (fd :: fs)).
    { intros o c e m r t fd ts fs Hc _ IHe _ IHm. split.
      { right. destruct Hc as [-> | (s & T)]; [cbn [app]; apply begins_app, (begins_more [NIdentifier; NString]); [apply IHe | intros x; cbn; tauto] | apply begins_app, (begins_more [NComma]); [now apply (tok_begins _ s) | intros x [<- | []]; cbn; tauto]]. }
      assert (Ea : (c ++ e ++ m) ++ r = c ++ e ++ m ++ r) by now rewrite <- !app_assoc. rewrite Ea. intros R L f [| fuel] Lf Lu; [lia|]. cbn [r_entries]. unfold r_then at 1.
      assert (Be : begins [NIdentifier; NString] (e ++ m ++ r)) by (apply begins_app, IHe).
      destruct (comma_complete c (e ++ m ++ r)) as [-> _]; [destruct Hc as [-> | Hc]; [left; split; [reflexivity | now apply (begins_not [NIdentifier; NString])] | now right] | now apply (rest_begins [NIdentifier; NString])|].
      rewrite (app_length c) in L, Lf, Lu. assert (IHm' : Pme (o + len c + len e) m r ts fs) by exact IHm. destruct (Step (o + len c) e m r t fd ts fs IHe IHm' R ltac:(lia) f fuel ltac:(lia) ltac:(lia)) as [-> ->]. reflexivity. }
    assert (En : forall o k q v r s s' n t x, tok NIdentifier s k \/ tok NString s k -> tok NEq s' q -> named s n -> value (o + len (k ++ q)) v r t x -> Pv (o + len (k ++ q)) v r t x -> Pe o (k ++ q ++ v) r (gnode NEntry (leaves k ++ leaves q ++ [t])) (encode n, x, (o, o + len (k ++ q ++ v)))).
    { intros o k q v r s s' n t x T Tq _ _ [Bv IH]. assert (Bk : begins [NIdentifier; NString] k) by (destruct T as [T | T]; apply tok_begins in T; apply (begins_more _ _ _ T); intros y [<- | []]; cbn; tauto). split; [now apply begins_app|].
      assert (Ea : (k ++ q ++ v) ++ r = k ++ q ++ v ++ r) by now rewrite <- !app_assoc. rewrite Ea. intros R L f Lf. unfold r_entry, r_node, r_then.
      assert (Rv : at_rest (v ++ r)) by (apply (rest_begins starts); [now apply begins_app | reflexivity]). assert (Rq : at_rest (q ++ v ++ r)) by (now apply (opening_rest NEq s')).
      assert (K : r_one [NIdentifier; NString] (k ++ q ++ v ++ r) = Some (leaves k, q ++ v ++ r)) by (destruct T as [T | T]; eapply one_complete; try exact T; try exact Rq; cbn; tauto). rewrite K. rewrite (one_complete [NEq] NEq s' q _ Tq (or_introl eq_refl) Rv).
      pose proof (begins_length _ _ Bk). rewrite !(app_length k), !(app_length q) in L, Lf. now rewrite (IH R ltac:(lia) f ltac:(pose proof (tok_length _ _ _ Tq); lia)). }
    assert (L1 : forall o r, Pls o [] r [] []).
    { intros o r. split; [now left|]. cbn [app]. intros R H L f [| fuel] Lf Lu; [lia|]. cbn [r_elements]. destruct r as [| p r]; [reflexivity|]. now rewrite H. }
    assert (LStep : forall o e m r t v ts vs, Pv o e (m ++ r) t v -> Pml (o + len e) m r ts vs -> at_rest r -> heads [NRightBracket] r = true -> length (e ++ m ++ r) < N -> forall f fuel, length (e ++ m ++ r) < f -> length (e ++ m ++ r) <= fuel ->
              r_then (r_node NElement (r_value N f)) (r_elements (r_node NElement (r_value N f)) fuel false) (e ++ m ++ r) = Some (gnode NElement [t] :: ts, r)).
    { intros o e m r t v ts vs [Be IHe] [Bm IHm] R H L f fuel Lf Lu. unfold r_then, r_node at 1.
      rewrite (IHe ltac:(now apply (maybe_rest (NComma :: starts))) L f Lf). pose proof (begins_length _ _ Be). rewrite app_length in L, Lf, Lu. now rewrite (IHm R H ltac:(lia) f fuel ltac:(lia) ltac:(lia)). }
    assert (Cons : forall ks (e : list piece) (x y : rest), begins ks e -> x = y -> match e with [] => Some ([], []) | _ :: _ => x end = y) by (intros ks e x y (p & e' & -> & _) E; exact E).
    assert (L2 : forall o e m r t v ts vs, value o e (m ++ r) t v -> Pv o e (m ++ r) t v -> more_elements (o + len e) m r ts vs -> Pml (o + len e) m r ts vs -> Pls o (e ++ m) r (gnode NElement [t] :: ts) (v :: vs)).
    { intros o e m r t v ts vs _ IHe _ IHm. split; [right; apply begins_app, IHe|]. rewrite <- app_assoc. intros R H L f [| fuel] Lf Lu; [lia|]. cbn [r_elements]. assert (Be : begins starts (e ++ m ++ r)) by (apply begins_app, IHe). apply (Cons starts); [assumption|].
      rewrite (begins_not _ [NRightBracket] _ Be), (begins_not _ [NEof] _ Be) by reflexivity. unfold r_then at 1, r_comma. cbn [negb andb]. now rewrite (LStep o e m r t v ts vs IHe IHm R H L f fuel Lf ltac:(lia)). }
    assert (ML1 : forall o r, Pml o [] r [] []).
    { intros o r. split; [now left|]. cbn [app]. intros R H L f [| fuel] Lf Lu; [lia|]. cbn [r_elements]. destruct r as [| p r]; [reflexivity|]. now rewrite H. }
    assert (ML2 : forall o c r s, tok NComma s c -> Pml o c r (leaves c) []).
    { intros o c r s T. assert (B : begins [NComma] c) by now apply (tok_begins _ s). split; [right; apply (begins_more [NComma]); [assumption | intros x [<- | []]; cbn; tauto]|]. intros R H L f [| fuel] Lf Lu; [lia|]. cbn [r_elements]. assert (B' : begins [NComma] (c ++ r)) by now apply begins_app. apply (Cons [NComma]); [assumption|].
      rewrite (begins_not _ [NRightBracket] _ B'), (begins_not _ [NEof] _ B') by reflexivity. unfold r_then at 1. destruct (comma_complete c r (or_intror (ex_intro _ s T)) R) as [-> _]. rewrite (proj1 (begins_heads _ _) B'), H. cbn [negb andb]. now rewrite app_nil_r. }
    assert (ML3 : forall o c e m r t v ts vs, c = [] \/ (exists s, tok NComma s c) -> value (o + len c) e (m ++ r) t v -> Pv (o + len c) e (m ++ r) t v -> more_elements (o + len (c ++ e)) m r ts vs -> Pml (o + len (c ++ e)) m r ts vs -> Pml o (c ++ e ++ m) r (leaves c ++ gnode NElement [t] :: ts) (v :: vs)).
    { intros o c e m r t v ts vs Hc _ IHe _ IHm.
      assert (Bc : begins (NComma :: starts) (c ++ e)). { destruct Hc as [-> | (s & T)]; [apply (begins_more starts); [apply IHe | intros x; cbn; tauto] | apply begins_app, (begins_more [NComma]); [now apply (tok_begins _ s) | intros x [<- | []]; cbn; tauto]]. }
      split; [right; rewrite app_assoc; now apply begins_app|].
      assert (Ea : (c ++ e ++ m) ++ r = c ++ e ++ m ++ r) by now rewrite <- !app_assoc. rewrite Ea. intros R H L f [| fuel] Lf Lu; [lia|]. cbn [r_elements].
      assert (B' : begins (NComma :: starts) (c ++ e ++ m ++ r)) by (rewrite app_assoc; now apply begins_app). apply (Cons _ _ _ _ B').
      rewrite (begins_not _ [NRightBracket] _ B'), (begins_not _ [NEof] _ B') by reflexivity. unfold r_then at 1.
      assert (Be : begins starts (e ++ m ++ r)) by (apply begins_app, IHe).
      destruct (comma_complete c (e ++ m ++ r)) as [-> _]; [destruct Hc as [-> | Hc]; [left; split; [reflexivity | now apply (begins_not starts)] | now right] | now apply (rest_begins starts)|].
      rewrite (begins_not _ [NRightBracket] _ Be) by reflexivity. rewrite andb_false_r.
      rewrite (app_length c) in L, Lf, Lu. assert (IHm' : Pml (o + len c + len e) m r ts vs) by exact IHm. now rewrite (LStep (o + len c) e m r t v ts vs IHe IHm' R H ltac:(lia) f fuel ltac:(lia) ltac:(lia)). }
    split; [|split; [|split; [|split; [|split]]]].
    - apply (value_mind F parse Pv Pes Pme Pe Pls Pml); assumption.
    - apply (entries_mind F parse Pv Pes Pme Pe Pls Pml); assumption.
    - apply (more_entries_mind F parse Pv Pes Pme Pe Pls Pml); assumption.
    - apply (entry_mind F parse Pv Pes Pme Pe Pls Pml); assumption.
    - apply (elements_mind F parse Pv Pes Pme Pe Pls Pml); assumption.
    - apply (more_elements_mind F parse Pv Pes Pme Pe Pls Pml); assumption.
  Qed.

  Lemma body_complete o e r t v : document o e r t v -> at_rest r -> length (e ++ r) < N -> r_body N (e ++ r) = Some ([t], r) /\ begins starts e.
  Proof.
    intros D R L. destruct grammar_complete as [HV HE]. destruct D as [o e r t v Hn V | o e r ts fs Hn V].
    - destruct (HV _ _ _ _ _ V) as [B C]. split; [|assumption]. unfold r_body. assert (X : heads [NIdentifier] (e ++ r) = false) by (destruct B as (p & e' & -> & _); apply heads_not in Hn; [exact Hn | cbn; intuition discriminate]).
      rewrite X. assert (Y : heads [NEof] (e ++ r) = false) by (apply (begins_not starts); [now apply begins_app | reflexivity]). rewrite Y. rewrite (C R L N L). destruct (heads [NLeftBrace; NLeftBracket] (e ++ r)); reflexivity.
    - destruct (HE _ _ _ _ _ V) as [B C]. assert (B' : begins [NIdentifier] e) by (apply begins_heads, heads_next; [cbn; intuition discriminate | assumption]). split; [|apply (begins_more _ _ _ B'); intros x [<- | []]; cbn; tauto]. assert (B2 : begins [NIdentifier] (e ++ r)) by now apply begins_app.
      unfold r_body. rewrite (begins_not _ [NLeftBrace; NLeftBracket] _ B2) by reflexivity. rewrite (proj1 (begins_heads _ _) B2). unfold r_node at 1. rewrite (C R); [reflexivity | | assumption | lia | assumption]. intros ->. destruct B' as (p & q & X & _). discriminate.
  Qed.
End Grammar.
