(** The XML parser. *)
From Verif Require Import Base Utf8 Utf8Facts LexModel TreeModel TreeSpec TreeProofs ParserModel ParserSpec ParserProofs JsonLangSpec LangModel LangSpec LangParseProofs IniModel XmlModel XmlSpec.

(** ** A function on pieces *)
Definition kind (p : piece) : nat := match fst p with Some k => k | None => 0 end.
Definition is (k : nat) (p : piece) : bool := kind p =? k.

Section Reference.
  Variable N : nat.
  Fixpoint p_content (el : list piece -> option (green * list piece)) (fuel : nat) (qs : list piece) : option (list green * list piece) :=
    match fuel with
    | O => None
    | S f =>
        match qs with
        | [] => Some ([], [])
        | p :: r =>
            if is XLeftAngleSlash p then Some ([], qs)
            else if is XLeftAngle p then
              match el qs with
              | Some (t, r') => match p_content el f r' with Some (ts, r2) => Some (t :: ts, r2) | None => None end
              | None => None
              end
            else p_content el f r
        end
    end.
  Definition p_end (qs : list piece) : option (green * list piece) :=
    match qs with
    | a :: n :: z :: r => if is XLeftAngleSlash a && is XIdentifier n && is XRightAngle z then Some (gnode XEndTag [pleaf a; pleaf n; pleaf z], r) else None
    | _ => None
    end.
  Fixpoint p_element (fuel : nat) (qs : list piece) : option (green * list piece) :=
    match fuel with
    | O => None
    | S f =>
        match qs with
        | a :: n :: z :: r =>
            if is XLeftAngle a && is XIdentifier n then
              if is XSlashRightAngle z then Some (gnode XElement [pleaf a; pleaf n; gnode XSelfClosing [pleaf z]], r)
              else if is XRightAngle z then
                match p_content (p_element f) N r with
                | Some (kids, r1) => match p_end r1 with
                                     | Some (e, r2) => Some (gnode XElement (gnode XStartTag [pleaf a; pleaf n; pleaf z] :: kids ++ [e]), r2)
                                     | None => None
                                     end
                | None => None
                end
              else None
            else None
        | _ => None
        end
    end.
  Fixpoint p_document (fuel : nat) (qs : list piece) : option (list green) :=
    match fuel with
    | O => None
    | S f =>
        match qs with
        | [] => Some []
        | p :: r =>
            if is XLeftAngle p then
              match p_element N qs with
              | Some (t, r') => option_map (cons t) (p_document f r')
              | None => None
              end
            else p_document f r
        end
    end.
End Reference.

Lemma p_end_length qs t r : p_end qs = Some (t, r) -> length r < length qs.
Proof. destruct qs as [| a [| n [| z q]]]; try discriminate. cbn [p_end]. destruct (_ && _ && _); [|discriminate]. intros E. injection E as _ ->. cbn. lia. Qed.
Lemma p_element_length N : forall fuel qs t r, p_element N fuel qs = Some (t, r) -> length r < length qs.
Proof.
  assert (C : forall el, (forall qs t r, el qs = Some (t, r) -> length r < length qs) -> forall fuel qs ts r, p_content el fuel qs = Some (ts, r) -> length r <= length qs).
  { intros el H. induction fuel as [| f IH]; intros qs ts r E; [discriminate|]. cbn [p_content] in E. destruct qs as [| p q]; [injection E as _ <-; lia|]. destruct (is XLeftAngleSlash p); [injection E as _ <-; lia|]. destruct (is XLeftAngle p); [|apply IH in E; cbn; lia].
    destruct (el (p :: q)) as [[t r']|] eqn:Ee; [|discriminate]. apply H in Ee. destruct (p_content el f r') as [[ts' r2]|] eqn:Ec; [|discriminate]. apply IH in Ec. injection E as _ <-. lia. }
  induction fuel as [| f IH]; intros qs t r E; [discriminate|]. cbn [p_element] in E. destruct qs as [| a [| n [| z q]]]; try discriminate. destruct (_ && _); [|discriminate]. destruct (is XSlashRightAngle z); [injection E as _ <-; cbn; lia|]. destruct (is XRightAngle z); [|discriminate].
  destruct (p_content (p_element N f) N q) as [[kids r1]|] eqn:Ec; [|discriminate]. apply C in Ec; [|exact IH]. destruct (p_end r1) as [[e r2]|] eqn:Ee; [|discriminate]. apply p_end_length in Ee. injection E as _ <-. cbn. lia.
Qed.
Lemma p_content_length N f : forall fuel qs ts r, p_content (p_element N f) fuel qs = Some (ts, r) -> length r <= length qs.
Proof.
  induction fuel as [| g IH]; intros qs ts r E; [discriminate|]. cbn [p_content] in E. destruct qs as [| p q]; [injection E as _ <-; lia|]. destruct (is XLeftAngleSlash p); [injection E as _ <-; lia|]. destruct (is XLeftAngle p); [|apply IH in E; cbn; lia].
  destruct (p_element N f (p :: q)) as [[t r']|] eqn:Ee; [|discriminate]. apply p_element_length in Ee. destruct (p_content _ g r') as [[ts' r2]|] eqn:Ec; [|discriminate]. apply IH in Ec. injection E as _ <-. lia.
Qed.

(** Two pieces that do not follow one another *)
Definition apart (a b : piece) : Prop := ~ (is XIdentifier a = true /\ is XIdentifier b = true) /\ ~ (is XLeftAngle a = true /\ is XQuestion b = true).
Fixpoint sep (qs : list piece) : Prop := match qs with a :: r => match r with b :: _ => apart a b | [] => True end /\ sep r | [] => True end.
Lemma sep_app a : forall b, sep (a ++ b) -> sep b.
Proof. induction a as [| x a IH]; intros b H; [exact H|]. apply IH. exact (proj2 H). Qed.

(** ** The states of the parser *)
Section Sits.
  Variable toks : list token.
  Hypothesis Hfit : (Z.of_nat (toklen toks) < 2 ^ 32)%Z.
  Notation sits := (sits toks).
  Notation N := (S (length toks)).

  Definition yield (p : piece) : nat * nat := (kind p, length (encode (snd p))).
  Definition at_pieces (s : pstate) (qs : list piece) (trees : list green) : Prop := sits s (map yield qs) trees.

  Lemma none_next ys : ynext xml_ignored ys = ys.
  Proof. now destruct ys. Qed.
  Lemma none_trivia ys : ytrivia xml_ignored ys = [].
  Proof. now destruct ys. Qed.
  Lemma pleaf_yield p : yleaf (yield p) = pleaf p.
  Proof. reflexivity. Qed.

  Lemma skip_same s : xml_skip s = s.
  Proof. unfold xml_skip. destruct (length (ps_toks s)); [reflexivity|]. cbn [xml_skip_loop]. now destruct (ps_current s). Qed.
  Lemma at_is s qs trees k : at_pieces s qs trees -> at_kind s k = match qs with p :: _ => is k p | [] => false end.
  Proof. intros A. rewrite (sits_at toks s _ trees k A). now destruct qs. Qed.
  Lemma at_end s qs trees : at_pieces s qs trees -> ps_not_at_end s = match qs with [] => false | _ => true end.
  Proof. intros A. rewrite (sits_end toks s _ trees A). now destruct qs. Qed.
  Lemma at_advance s p qs trees : at_pieces s (p :: qs) trees -> at_pieces (ps_advance xml_ignored s) qs trees /\ ps_errs (ps_advance xml_ignored s) = ps_errs s.
  Proof.
    intros (rest & V & E). destruct rest as [| t rest]; [discriminate|]. apply (f_equal (@tl _)) in E. cbn [map tl] in E. unfold ps_advance.
    assert (Sk : forall s, skip_trivia xml_ignored s = s). { intros x. unfold skip_trivia. destruct (length (ps_toks x) - ps_index x); [reflexivity|]. cbn [skip_trivia_loop]. now destruct (ps_current x). }
    rewrite Sk. split; [|reflexivity]. exists rest. split; [|exact E]. destruct V as (T & I & R & K & B & W & Nn).
    assert (I' : ps_index s < length toks). { destruct (Nat.ltb_spec (ps_index s) (length toks)); [assumption|]. rewrite skipn_all2 in R by lia. discriminate. }
    unfold sees. cbn [set_index ps_toks ps_index ps_sink ps_errs ps_inc]. split; [assumption|]. split; [lia|]. split.
    { destruct (nth_error toks (ps_index s)) as [x|] eqn:Ex; [|apply nth_error_None in Ex; lia]. rewrite (skipn_nth _ _ _ Ex) in R. congruence. }
    split; [assumption|]. split; [assumption|]. split; [|assumption]. rewrite toklen_cons in W. lia.
  Qed.
  Lemma at_length s qs trees : at_pieces s qs trees -> length qs <= length toks /\ ps_toks s = toks.
  Proof. intros A. destruct (sits_toks toks s _ trees A) as [T L]. rewrite map_length in L. now split. Qed.

  (** One token expected *)
  Lemma expects s qs trees k : at_pieces s qs trees ->
    match qs with
    | p :: r => if is k p then exists s', xml_expect k s = Some (true, s') /\ at_pieces s' r (trees ++ [pleaf p]) /\ ps_errs s' = ps_errs s
                else exists s' off, xml_expect k s = Some (false, s') /\ ps_errs s' = ps_errs s ++ [(0, off)]
    | [] => exists s' off, xml_expect k s = Some (false, s') /\ ps_errs s' = ps_errs s ++ [(0, off)]
    end.
  Proof.
    intros A. unfold xml_expect, expect, eat. rewrite (at_is s qs trees k A). destruct qs as [| p r]; [do 2 eexists; now split|]. destruct (is k p); [|do 2 eexists; now split].
    destruct (sits_bump xml_ignored toks Hfit s (yield p) (map yield r) trees A) as [B E]. rewrite none_next, none_trivia in B. exists (bump xml_ignored s). split; [reflexivity|]. now split.
  Qed.
  Lemma finishes s qs pre ch s0 k : at_pieces s qs (pre ++ ch) -> length (ps_sink s0) = length pre -> exists n s', finish_at s (checkpoint s0) k = Some ((Some n, gnode k ch), s') /\ at_pieces s' qs (pre ++ [gnode k ch]) /\ ps_errs s' = ps_errs s.
  Proof. intros A L. unfold checkpoint. rewrite L. exact (sits_finish xml_ignored toks Hfit s _ pre ch _ k A). Qed.
  Lemma at_sink s qs trees : at_pieces s qs trees -> length (ps_sink s) = length trees.
  Proof. exact (sits_sink toks s _ trees). Qed.

  Definition fails (o : option (bool * pstate)) (s : pstate) : Prop := exists s' off, o = Some (false, s') /\ ps_errs s' = ps_errs s ++ [(0, off)].
  Definition goes (o : option (bool * pstate)) (s : pstate) (qs : list piece) (trees : list green) : Prop := exists s', o = Some (true, s') /\ at_pieces s' qs trees /\ ps_errs s' = ps_errs s.

  Lemma then_goes (a b : step) s qs trees (P : option (bool * pstate) -> Prop) : goes (a s) s qs trees -> (forall s1, at_pieces s1 qs trees -> ps_errs s1 = ps_errs s -> P (b s1)) -> P (andthen a b s).
  Proof. intros (s1 & E & A & Er) H. unfold andthen. rewrite E. now apply H. Qed.
  Lemma then_fails (a b : step) s : fails (a s) s -> fails (andthen a b s) s.
  Proof. intros (s1 & off & E & Er). unfold andthen. rewrite E. now exists s1, off. Qed.
  Lemma fails_errs o s s1 : fails o s1 -> ps_errs s1 = ps_errs s -> fails o s.
  Proof. intros (s2 & off & E & Er) H. exists s2, off. split; [assumption | congruence]. Qed.
  Lemma goes_errs o s s1 qs trees : goes o s1 qs trees -> ps_errs s1 = ps_errs s -> goes o s qs trees.
  Proof. intros (s2 & E & A & Er) H. exists s2. split; [assumption|]. split; [assumption | congruence]. Qed.
  Lemma expects' s qs trees k : at_pieces s qs trees -> match qs with p :: r => if is k p then goes (xml_expect k s) s r (trees ++ [pleaf p]) else fails (xml_expect k s) s | [] => fails (xml_expect k s) s end.
  Proof. exact (expects s qs trees k). Qed.
  Lemma node_goes k body s qs pre ch : length (ps_sink s) = length pre -> goes (body s) s qs (pre ++ ch) -> goes (xml_node k body s) s qs (pre ++ [gnode k ch]).
  Proof. intros L (s1 & E & A & Er). unfold xml_node. rewrite E. destruct (finishes s1 qs pre ch s k A L) as (n & s2 & -> & A2 & Er2). exists s2. split; [reflexivity|]. split; [assumption | congruence]. Qed.
  Lemma node_fails k body s : fails (body s) s -> fails (xml_node k body s) s.
  Proof. intros (s1 & off & E & Er). unfold xml_node. rewrite E. now exists s1, off. Qed.

  (** The head of an element *)
  Lemma attributes_none s n qs trees : sep (n :: qs) -> is XIdentifier n = true -> at_pieces s qs trees -> goes (xml_attributes [XRightAngle; XSlashRightAngle] s) s qs trees.
  Proof.
    intros Se In A. exists s. split; [|now split]. unfold xml_attributes. cbn [attributes_loop]. rewrite skip_same, (at_is s qs trees XIdentifier A). destruct (ps_not_at_end s && _); [|reflexivity].
    destruct qs as [| q qs]; [reflexivity|]. destruct Se as [[Ap _] _]. destruct (is XIdentifier q) eqn:E; [|reflexivity]. now destruct Ap.
  Qed.

  Lemma content_view el ref M : (forall s qs trees, length qs < M -> at_pieces s qs trees -> sep qs -> match ref qs with Some (t, r) => goes (el s) s r (trees ++ [t]) /\ sep r /\ length r < length qs | None => fails (el s) s end) ->
    forall fuel s qs trees, at_pieces s qs trees -> sep qs -> length qs < fuel -> length qs < M -> match p_content ref fuel qs with Some (ts, r) => goes (content_loop el fuel s) s r (trees ++ ts) /\ sep r | None => fails (content_loop el fuel s) s end.
  Proof.
    intros H. induction fuel as [| f IH]; intros s qs trees A Se L LM; [lia|]. cbn [content_loop p_content]. rewrite skip_same, (at_end s qs trees A), !(at_is s qs trees _ A). destruct qs as [| p r].
    - split; [|exact I]. exists s. rewrite app_nil_r. now split.
    - destruct (is XLeftAngleSlash p); [split; [exists s; rewrite app_nil_r; now split | exact Se]|]. destruct (is XLeftAngle p).
      + specialize (H s _ trees LM A Se). destruct (ref (p :: r)) as [[t r']|].
        * destruct H as ((s1 & -> & A1 & E1) & Se1 & L1). specialize (IH s1 r' _ A1 Se1 ltac:(lia) ltac:(lia)). destruct (p_content ref f r') as [[ts r2]|].
          -- destruct IH as [G Se2]. split; [|assumption]. rewrite <- app_assoc in G. now apply (goes_errs _ s s1).
          -- now apply (fails_errs _ s s1).
        * destruct H as (s1 & off & -> & E1). now exists s1, off.
      + destruct (at_advance s p r trees A) as [A1 E1]. specialize (IH _ r trees A1 (proj2 Se) ltac:(cbn in L; lia) ltac:(cbn in LM; lia)). destruct (p_content ref f r) as [[ts r2]|].
        * destruct IH as [G Se2]. split; [|assumption]. now apply (goes_errs _ s (ps_advance xml_ignored s)).
        * now apply (fails_errs _ s (ps_advance xml_ignored s)).
  Qed.
  Lemma skip_goes s qs trees : at_pieces s qs trees -> goes (xml_skip_step s) s qs trees.
  Proof. intros A. exists s. unfold xml_skip_step. rewrite skip_same. now split. Qed.

  Lemma end_view s qs trees : at_pieces s qs trees -> sep qs ->
    let body := andthen (xml_expect XLeftAngleSlash) (andthen xml_skip_step (andthen (xml_expect XIdentifier) (andthen xml_skip_step (xml_expect XRightAngle)))) in
    match p_end qs with Some (t, r) => goes (xml_node XEndTag body s) s r (trees ++ [t]) /\ sep r /\ length r < length qs | None => fails (xml_node XEndTag body s) s end.
  Proof.
    intros A Se body.
    assert (B : match qs with a :: n :: z :: r => if is XLeftAngleSlash a && is XIdentifier n && is XRightAngle z then goes (body s) s r (trees ++ [pleaf a; pleaf n; pleaf z]) else fails (body s) s | _ => fails (body s) s end).
    { pose proof (expects' s qs trees XLeftAngleSlash A) as X1. destruct qs as [| a qs]; [now apply then_fails|]. destruct (is XLeftAngleSlash a); cbn [andb]; [|destruct qs as [| n [| z r]]; now apply then_fails].
      unfold body. apply (then_goes _ _ s qs (trees ++ [pleaf a])); [assumption|]. intros s1 A1 E1. apply (then_goes _ _ s1 qs (trees ++ [pleaf a])); [now apply skip_goes|]. intros s2 A2 E2.
      pose proof (expects' s2 qs _ XIdentifier A2) as X2. assert (K : forall o, fails o s2 -> fails o s) by (intros o; intros F; apply (fails_errs o s s2 F); congruence). destruct qs as [| n qs]; [apply K; now apply then_fails|]. destruct (is XIdentifier n); cbn [andb]; [|destruct qs; apply K; now apply then_fails].
      rewrite <- app_assoc in X2. apply (then_goes _ _ s2 qs (trees ++ [pleaf a; pleaf n])); [assumption|]. intros s3 A3 E3. apply (then_goes _ _ s3 qs (trees ++ [pleaf a; pleaf n])); [now apply skip_goes|]. intros s4 A4 E4.
      pose proof (expects' s4 qs _ XRightAngle A4) as X3. assert (E : ps_errs s4 = ps_errs s) by congruence. destruct qs as [| z r]; [now apply (fails_errs _ s s4)|]. destruct (is XRightAngle z); [|now apply (fails_errs _ s s4)]. rewrite <- app_assoc in X3. now apply (goes_errs _ s s4). }
    unfold p_end. destruct qs as [| a [| n [| z r]]]; try (now apply node_fails). destruct (is XLeftAngleSlash a && is XIdentifier n && is XRightAngle z); [|now apply node_fails].
    split; [|split; [apply Se | cbn; lia]]. apply node_goes; [now apply (at_sink s _ trees) with (1 := A) | assumption].
  Qed.

  Lemma element_view : forall fuel s qs trees, at_pieces s qs trees -> sep qs -> length qs < fuel ->
    match p_element N fuel qs with Some (t, r) => goes (parse_element fuel s) s r (trees ++ [t]) /\ sep r /\ length r < length qs | None => fails (parse_element fuel s) s end.
  Proof.
    induction fuel as [| f IH]; intros s qs trees A Se L; [lia|]. cbn [parse_element p_element].
    set (head := andthen (xml_expect XLeftAngle) _).
    assert (H : match qs with a :: n :: r => if is XLeftAngle a && is XIdentifier n then goes (head s) s r (trees ++ [pleaf a; pleaf n]) else fails (head s) s | _ => fails (head s) s end).
    { pose proof (expects' s qs trees XLeftAngle A) as X1. destruct qs as [| a qs]; [now apply then_fails|]. destruct (is XLeftAngle a); cbn [andb]; [|destruct qs as [| n r]; now apply then_fails].
      unfold head. apply (then_goes _ _ s qs (trees ++ [pleaf a])); [assumption|]. intros s1 A1 E1. apply (then_goes _ _ s1 qs (trees ++ [pleaf a])); [now apply skip_goes|]. intros s2 A2 E2.
      pose proof (expects' s2 qs _ XIdentifier A2) as X2. assert (K : forall o, fails o s2 -> fails o s) by (intros o; intros F; apply (fails_errs o s s2 F); congruence). destruct qs as [| n qs]; [apply K; now apply then_fails|]. destruct (is XIdentifier n) eqn:En; cbn [andb]; [|apply K; now apply then_fails].
      rewrite <- app_assoc in X2. apply (then_goes _ _ s2 qs (trees ++ [pleaf a; pleaf n])); [assumption|]. intros s3 A3 E3. apply (then_goes _ _ s3 qs (trees ++ [pleaf a; pleaf n])); [now apply (attributes_none s3 n); [apply Se | |]|]. intros s4 A4 E4.
      assert (E : ps_errs s4 = ps_errs s) by congruence. apply (goes_errs _ s s4); [now apply skip_goes | assumption]. }
    destruct qs as [| a [| n qs]]; [destruct H as (s1 & off & E & Er); apply node_fails; rewrite E; now exists s1, off | destruct H as (s1 & off & E & Er); apply node_fails; rewrite E; now exists s1, off |].
    destruct (is XLeftAngle a && is XIdentifier n) eqn:C.
    2: { destruct H as (s1 & off & E & Er). assert (F : fails (xml_node XElement (fun s0 => match head s0 with
      | Some (true, s2) => if at_kind s2 XSlashRightAngle then xml_node XSelfClosing (xml_expect XSlashRightAngle) s2 else
          match xml_expect XRightAngle s2 with
          | Some (true, s3) => match finish_at s3 (checkpoint s0) XStartTag with None => None | Some (_, s4) =>
             match content_loop (parse_element f) (S (length (ps_toks s4))) s4 with
             | Some (true, s5) => xml_node XEndTag (andthen (xml_expect XLeftAngleSlash) (andthen xml_skip_step (andthen (xml_expect XIdentifier) (andthen xml_skip_step (xml_expect XRightAngle))))) s5
             | r => r end end
          | r => r end
      | r => r end) s) s) by (apply node_fails; rewrite E; now exists s1, off). destruct qs as [| z r]; exact F. }
    destruct H as (s1 & E & A1 & E1). pose proof (at_sink s _ trees A) as Ls.
    assert (SeQ : sep qs) by apply Se. destruct qs as [| z r].
    - apply node_fails. rewrite E. rewrite (at_is s1 [] _ _ A1). destruct (expects' s1 [] _ XRightAngle A1) as (s2 & off & -> & Er). exists s2, off. split; [reflexivity | congruence].
    - destruct (is XSlashRightAngle z) eqn:Cz.
      + split; [|split; [apply SeQ | cbn; lia]]. apply node_goes; [assumption|]. rewrite E, (at_is s1 _ _ _ A1), Cz. apply (goes_errs _ s s1); [|assumption].
        assert (X : goes (xml_node XSelfClosing (xml_expect XSlashRightAngle) s1) s1 r ((trees ++ [pleaf a; pleaf n]) ++ [gnode XSelfClosing [pleaf z]])).
        { apply node_goes; [now apply (at_sink s1 _ _ A1)|]. pose proof (expects' s1 _ _ XSlashRightAngle A1) as X. cbv beta iota in X. now rewrite Cz in X. }
        rewrite <- app_assoc in X. exact X.
      + destruct (is XRightAngle z) eqn:Cr.
        * pose proof (expects' s1 _ _ XRightAngle A1) as X. cbv beta iota in X. rewrite Cr in X. destruct X as (s2 & X2 & A2 & E2). rewrite <- app_assoc in A2. cbn [app] in A2.
          destruct (finishes s2 r trees [pleaf a; pleaf n; pleaf z] s XStartTag A2 Ls) as (i & s3 & F3 & A3 & E3). destruct (at_length s3 _ _ A3) as [L3 T3].
          assert (Sr : sep r) by apply SeQ. cbn [length] in L.
          pose proof (content_view (parse_element f) (p_element N f) f (fun s qs trees Lq Aq Sq => IH s qs trees Aq Sq Lq) N s3 r _ A3 Sr ltac:(lia) ltac:(lia)) as CV.
          destruct (p_content (p_element N f) N r) as [[kids r1]|] eqn:Ec.
          -- destruct CV as [(s4 & C4 & A4 & E4) S4]. pose proof (end_view s4 r1 _ A4 S4) as EV. cbv zeta in EV. destruct (p_end r1) as [[e r2]|] eqn:Ee.
             ++ destruct EV as [G [S5 L5]]. split.
                ** apply node_goes; [assumption|]. rewrite E, (at_is s1 _ _ _ A1), Cz, X2, F3, T3, C4. apply (goes_errs _ s s4); [|congruence]. rewrite <- !app_assoc in G. exact G.
                ** split; [assumption|]. apply p_content_length in Ec. cbn [length]. lia.
             ++ apply node_fails. rewrite E, (at_is s1 _ _ _ A1), Cz, X2, F3, T3, C4. apply (fails_errs _ s s4); [assumption | congruence].
          -- apply node_fails. rewrite E, (at_is s1 _ _ _ A1), Cz, X2, F3, T3. destruct CV as (s4 & off & -> & E4). exists s4, off. split; [reflexivity | congruence].
        * apply node_fails. rewrite E, (at_is s1 _ _ _ A1), Cz. pose proof (expects' s1 _ _ XRightAngle A1) as X. cbv beta iota in X. rewrite Cr in X. destruct X as (s2 & off & -> & Er). exists s2, off. split; [reflexivity | congruence].
  Qed.
End Sits.

(** ** The function and the grammar *)
Lemma yes k p : pkind p k -> is k p = true.
Proof. unfold is, kind, pkind. intros ->. apply Nat.eqb_refl. Qed.
Lemma is_pkind k p : k <> 0 -> is k p = true -> pkind p k.
Proof. unfold is, kind, pkind. intros N. destruct (fst p) as [x|]; rewrite Nat.eqb_eq; [now intros -> | congruence]. Qed.
Lemma is_no k p : k <> 0 -> ~ pkind p k -> is k p = false.
Proof. intros N H. apply not_true_iff_false. intros E. now apply H, is_pkind. Qed.
Lemma not_is k p : is k p = false -> ~ pkind p k.
Proof. intros H E. apply yes in E. congruence. Qed.
Lemma is_other k k' p : pkind p k -> k <> k' -> is k' p = false.
Proof. unfold is, kind, pkind. intros -> N. now apply Nat.eqb_neq. Qed.

Lemma p_end_sound qs t r : p_end qs = Some (t, r) -> exists a n z, qs = a :: n :: z :: r /\ pkind a XLeftAngleSlash /\ pkind n XIdentifier /\ pkind z XRightAngle /\ t = gnode XEndTag [pleaf a; pleaf n; pleaf z].
Proof.
  destruct qs as [| a [| n [| z q]]]; try discriminate. cbn [p_end]. destruct (_ && _ && _) eqn:C; [|discriminate]. intros E. injection E as <- <-. apply andb_true_iff in C. destruct C as [C C3]. apply andb_true_iff in C. destruct C as [C1 C2].
  exists a, n, z. split; [reflexivity|]. split; [apply is_pkind; [discriminate | assumption]|]. split; [apply is_pkind; [discriminate | assumption]|]. split; [apply is_pkind; [discriminate | assumption] | reflexivity].
Qed.
Lemma p_content_sound el : (forall qs t r, el qs = Some (t, r) -> exists e, qs = e ++ r /\ element e t) ->
  forall fuel qs ts r, p_content el fuel qs = Some (ts, r) -> exists b, qs = b ++ r /\ content b ts.
Proof.
  intros H. induction fuel as [| f IH]; intros qs ts r E; [discriminate|]. cbn [p_content] in E. destruct qs as [| p q]; [injection E as <- <-; exists []; split; [reflexivity | constructor]|].
  destruct (is XLeftAngleSlash p) eqn:C1; [injection E as <- <-; exists []; split; [reflexivity | constructor]|]. destruct (is XLeftAngle p) eqn:C2.
  - destruct (el (p :: q)) as [[t r']|] eqn:Ee; [|discriminate]. destruct (H _ _ _ Ee) as (e & Eq & El). destruct (p_content el f r') as [[ts' r2]|] eqn:Ec; [|discriminate]. injection E as <- <-. destruct (IH _ _ _ Ec) as (b & -> & Cb). exists (e ++ b). split; [rewrite Eq; apply app_assoc | now constructor].
  - destruct (IH _ _ _ E) as (b & -> & Cb). exists (p :: b). split; [reflexivity|]. constructor; [now apply not_is | now apply not_is | assumption].
Qed.
Lemma p_element_sound N : forall fuel qs t r, p_element N fuel qs = Some (t, r) -> exists e, qs = e ++ r /\ element e t.
Proof.
  induction fuel as [| f IH]; intros qs t r E; [discriminate|]. cbn [p_element] in E. destruct qs as [| a [| n [| z q]]]; try discriminate. destruct (is XLeftAngle a && is XIdentifier n) eqn:C; [|discriminate]. apply andb_true_iff in C. destruct C as [C1 C2]. apply is_pkind in C1; [|discriminate]. apply is_pkind in C2; [|discriminate].
  destruct (is XSlashRightAngle z) eqn:C3.
  - injection E as <- <-. exists [a; n; z]. split; [reflexivity|]. constructor; [assumption | assumption | apply is_pkind; [discriminate | assumption]].
  - destruct (is XRightAngle z) eqn:C4; [|discriminate]. destruct (p_content (p_element N f) N q) as [[kids r1]|] eqn:Ec; [|discriminate]. destruct (p_content_sound _ IH _ _ _ _ Ec) as (b & -> & Cb). destruct (p_end r1) as [[e r2]|] eqn:Ee; [|discriminate]. injection E as <- <-.
    destruct (p_end_sound _ _ _ Ee) as (a' & n' & z' & -> & K1 & K2 & K3 & ->). exists (a :: n :: z :: b ++ [a'; n'; z']). split; [cbn; now rewrite <- app_assoc|]. constructor; try assumption. apply is_pkind; [discriminate | assumption].
Qed.

Scheme element_mind := Induction for element Sort Prop with content_mind := Induction for content Sort Prop.
Combined Scheme element_content_ind from element_mind, content_mind.

Lemma element_first e t : element e t -> exists a q, e = a :: q /\ pkind a XLeftAngle.
Proof. destruct 1; do 2 eexists; (split; [reflexivity | assumption]). Qed.
Lemma element_length e t : element e t -> 3 <= length e.
Proof. destruct 1; cbn; lia. Qed.

Lemma p_complete N :
  (forall e t, element e t -> forall r f, length (e ++ r) < f -> length (e ++ r) < N -> p_element N f (e ++ r) = Some (t, r)) /\
  (forall b ts, content b ts -> forall r f g, match r with [] => True | p :: _ => pkind p XLeftAngleSlash end -> length (b ++ r) < f -> length (b ++ r) < N -> length (b ++ r) < g -> p_content (p_element N f) g (b ++ r) = Some (ts, r)).
Proof.
  apply element_content_ind.
  - intros a n z K1 K2 K3 r f L1 L2. destruct f as [| f]; [lia|]. cbn [app p_element]. rewrite (yes _ a K1), (yes _ n K2), (yes _ z K3). reflexivity.
  - intros a n z body kids a' n' z' K1 K2 K3 _ IH K4 K5 K6 r f L1 L2. destruct f as [| f]; [lia|]. cbn [app p_element]. rewrite (yes _ a K1), (yes _ n K2), (yes _ z K3). rewrite (is_other _ XSlashRightAngle z K3) by discriminate. cbn [andb].
    cbn [app length] in L1, L2. rewrite <- app_assoc in *. rewrite IH; [|exact K4 | lia | lia | lia]. cbn [app p_end]. rewrite (yes _ a' K4), (yes _ n' K5), (yes _ z' K6). reflexivity.
  - intros r f g Hr L1 L2 L3. destruct g as [| g]; [lia|]. cbn [app p_content]. destruct r as [| p r]; [reflexivity|]. now rewrite (yes _ p Hr).
  - intros e t r0 ts El IH1 _ IH2 r f g Hr L1 L2 L3. destruct g as [| g]; [lia|]. destruct (element_first e t El) as (a & q & -> & Ka). rewrite <- app_assoc in *. specialize (IH1 (r0 ++ r) f L1 L2). cbn [app] in IH1 |- *. cbn [p_content]. rewrite (is_other _ XLeftAngleSlash a Ka) by discriminate. rewrite (yes _ a Ka), IH1.
    cbn [app length] in L1, L2, L3. rewrite app_length in L1, L2, L3. rewrite IH2; [reflexivity | assumption | lia | lia | lia].
  - intros p r0 ts N1 N2 _ IH r f g Hr L1 L2 L3. destruct g as [| g]; [lia|]. cbn [app p_content length] in *. rewrite (is_no XLeftAngle p ltac:(discriminate) N1), (is_no XLeftAngleSlash p ltac:(discriminate) N2). apply IH; [assumption | lia | lia | lia].
Qed.

Lemma p_document_sound N : forall fuel qs ts, p_document N fuel qs = Some ts -> document qs ts.
Proof.
  induction fuel as [| f IH]; intros qs ts E; [discriminate|]. cbn [p_document] in E. destruct qs as [| p q]; [injection E as <-; constructor|]. destruct (is XLeftAngle p) eqn:C.
  - destruct (p_element N N (p :: q)) as [[t r]|] eqn:Ee; [|discriminate]. destruct (p_element_sound _ _ _ _ _ Ee) as (e & -> & El). destruct (p_document N f r) as [ts'|] eqn:Ed; [|discriminate]. injection E as <-. constructor; [assumption | now apply IH].
  - apply DoSkip; [now apply not_is | now apply IH].
Qed.
Lemma p_document_complete N qs ts : document qs ts -> forall fuel, length qs < fuel -> length qs < N -> p_document N fuel qs = Some ts.
Proof.
  induction 1 as [| e t r ts El _ IH | p r ts Np _ IH]; intros fuel L1 L2; (destruct fuel as [| f]; [lia|]).
  - reflexivity.
  - pose proof (proj1 (p_complete N) e t El r N L2 L2) as P. pose proof (element_length e t El) as Le. destruct (element_first e t El) as (a & q & -> & Ka). cbn [app p_document] in *. rewrite (yes _ a Ka), P. cbn [length] in *. rewrite app_length in *. rewrite IH by lia. reflexivity.
  - cbn [p_document length] in *. rewrite (is_no XLeftAngle p ltac:(discriminate) Np). apply IH; lia.
Qed.

(** The end marker is passed like white space *)
Definition eof_piece : piece := (Some XError, []).
Lemma element_last e t : element e t -> exists q z, e = q ++ [z] /\ ~ pkind z XError.
Proof.
  destruct 1 as [a n z K1 K2 K3 | a n z body kids a' n' z' K1 K2 K3 _ K4 K5 K6].
  - exists [a; n], z. split; [reflexivity|]. unfold pkind in *. rewrite K3. discriminate.
  - exists (a :: n :: z :: body ++ [a'; n']), z'. split; [cbn; rewrite <- app_assoc; reflexivity|]. unfold pkind in *. rewrite K6. discriminate.
Qed.
Lemma document_nil ts : document [] ts -> ts = [].
Proof.
  intros H. remember [] as qs eqn:E. destruct H as [| e t r ts El _ |]; [reflexivity | | discriminate]. destruct (element_first e t El) as (? & ? & -> & _). discriminate.
Qed.
Lemma document_eof ps ts : document (ps ++ [eof_piece]) ts <-> document ps ts.
Proof.
  split.
  - intros H. remember (ps ++ [eof_piece]) as qs eqn:E. revert ps E. induction H as [| e t r ts El Hd IH | p r ts Np Hd IH]; intros ps E.
    + destruct ps; discriminate.
    + destruct r as [| x r]; [exfalso; rewrite app_nil_r in E; destruct (element_last e t El) as (q & z & -> & Nz); apply app_inj_tail in E; destruct E as [_ ->]; now apply Nz|].
      destruct (exists_last (l := x :: r) ltac:(discriminate)) as (r' & y & Er). rewrite Er in *. rewrite app_assoc in E. apply app_inj_tail in E. destruct E as [<- ->]. constructor; [assumption | now apply IH].
    + destruct ps as [| p' ps]; [injection E as -> ->; rewrite (document_nil ts Hd); constructor|]. injection E as -> E. apply DoSkip; [assumption | now apply IH].
  - induction 1 as [| e t r ts El _ IH | p r ts Np _ IH].
    + apply DoSkip; [discriminate | constructor].
    + rewrite <- app_assoc. now constructor.
    + now apply DoSkip.
Qed.

(** ** The whole parser *)
Section Whole.
  Variable toks : list token.
  Hypothesis Hfit : (Z.of_nat (toklen toks) < 2 ^ 32)%Z.
  Notation at_pieces := (at_pieces toks).
  Notation N := (S (length toks)).

  Lemma root_view : forall fuel s qs trees, at_pieces s qs trees -> sep qs -> length qs < fuel ->
    match p_document N fuel qs with Some ts => goes toks (xml_root_loop fuel s) s [] (trees ++ ts) | None => fails (xml_root_loop fuel s) s end.
  Proof.
    induction fuel as [| f IH]; intros s qs trees A Se L; [lia|]. cbn [xml_root_loop p_document]. rewrite skip_same, (at_end toks s qs trees A), (at_is toks s qs trees XLeftAngle A). destruct qs as [| p r].
    - exists s. rewrite app_nil_r. now split.
    - destruct (is XLeftAngle p).
      + destruct (at_length toks s _ _ A) as [L' T]. pose proof (element_view toks Hfit N s (p :: r) trees A Se ltac:(lia)) as E. unfold xml_element. rewrite T. destruct (p_element N N (p :: r)) as [[t r']|].
        * destruct E as ((s1 & -> & A1 & E1) & Se1 & L1). specialize (IH s1 r' _ A1 Se1 ltac:(cbn in *; lia)). destruct (p_document N f r') as [ts|]; cbn [option_map].
          -- rewrite <- app_assoc in IH. now apply (goes_errs toks _ s s1).
          -- now apply (fails_errs _ s s1).
        * destruct E as (s1 & off & -> & E1). now exists s1, off.
      + destruct (at_advance toks s p r trees A) as [A1 E1]. specialize (IH _ r trees A1 (proj2 Se) ltac:(cbn in L; lia)). destruct (p_document N f r) as [ts|].
        * now apply (goes_errs toks _ s (ps_advance xml_ignored s)).
        * now apply (fails_errs _ s (ps_advance xml_ignored s)).
  Qed.
  Lemma no_prolog s qs trees : at_pieces s qs trees -> sep qs ->
    at_kind s XLeftAngle && match nth_error (ps_toks s) (ps_index s + 1) with Some t => tk_kind t =? XQuestion | None => false end = false.
  Proof.
    intros A Se. rewrite (at_is toks s qs trees XLeftAngle A). destruct A as (rest & (T & _ & R & _) & E). rewrite T.
    assert (Nth : nth_error toks (ps_index s + 1) = nth_error rest 1). { rewrite <- R. clear. generalize (ps_index s). intros i. revert i. induction toks as [| t l IH]; intros i; [now destruct i|]. destruct i as [| i]; [reflexivity|]. cbn [skipn]. rewrite <- IH. reflexivity. }
    rewrite Nth. destruct qs as [| a [| b qs]]; [reflexivity | |].
    - destruct rest as [| x [| y rest]]; try discriminate. apply andb_false_r.
    - destruct rest as [| x [| y rest]]; try discriminate. cbn [nth_error]. destruct Se as [[_ Ap] _]. destruct (is XLeftAngle a) eqn:Ea; [|reflexivity]. cbn [andb].
      assert (Ey : tk_kind y = kind b) by (injection E as _ _ E _ _; exact E). rewrite Ey. change (is XQuestion b = false). destruct (is XQuestion b); [now destruct Ap | reflexivity].
  Qed.
  Lemma whole n qs : map tok_yield toks = map yield qs -> sep qs ->
    match p_document N N qs with Some ts => xml_root (ps_new xml_ignored toks n []) = Some (Tree (gnode XRoot ts), []) | None => exists off, xml_root (ps_new xml_ignored toks n []) = Some (Failed, [(0, off)]) end.
  Proof.
    intros E Se. destruct (sits_new xml_ignored toks Hfit n []) as [A Er]. rewrite none_next, none_trivia, E in A. set (s := ps_new xml_ignored toks n []) in *. cbn [map] in A. change (at_pieces s qs []) in A.
    unfold xml_root, xml_body. rewrite skip_same, (no_prolog s qs [] A Se). destruct (at_length toks s _ _ A) as [L T]. rewrite T. pose proof (root_view N s qs [] A Se ltac:(lia)) as R. destruct (p_document N N qs) as [ts|].
    - destruct R as (s1 & -> & A1 & E1). destruct (finishes toks Hfit s1 [] [] ts s XRoot A1 (at_sink toks s _ _ A)) as (i & s2 & -> & _ & E2). now rewrite E2, E1, Er.
    - destruct R as (s1 & off & -> & E1). exists off. now rewrite E1, Er.
  Qed.
End Whole.
