From Verif Require Import Base Utf8 Utf8Facts VfsModel VfsProofs TreeModel TreeSpec TreeProofs HiModel JsonSpec HiSpec.

(** ** Scopes *)
Lemma rfind_some s : forall i, rfind_dot s = Some i -> s = firstn i s ++ 46%Z :: skipn (S i) s /\ ~ In 46%Z (skipn (S i) s) /\ i < length s.
Proof.
  induction s as [| c r IH]; intros i H; [discriminate|]. cbn [rfind_dot] in H. destruct (rfind_dot r) as [j|] eqn:E.
  - injection H as <-. destruct (IH j eq_refl) as (H1 & H2 & H3). cbn [firstn skipn length app]. split; [now f_equal | split; [assumption | lia]].
  - destruct (Z.eqb_spec c 46) as [-> |]; [|discriminate]. injection H as <-. cbn [firstn skipn app length]. split; [reflexivity|]. split; [|lia].
    clear -E. induction r as [| d r IH]; [auto|]. cbn [rfind_dot] in E. destruct (rfind_dot r); [discriminate|].
    destruct (Z.eqb_spec d 46); [discriminate|]. intros [H | H]; [congruence | now apply IH].
Qed.

Lemma rfind_none s : rfind_dot s = None -> ~ In 46%Z s.
Proof.
  induction s as [| d r IH]; intros E; [auto|]. cbn [rfind_dot] in E. destruct (rfind_dot r); [discriminate|].
  destruct (Z.eqb_spec d 46); [discriminate|]. intros [H | H]; [congruence | now apply IH].
Qed.

Lemma last_dot_unique a b a' b' : a ++ 46%Z :: b = a' ++ 46%Z :: b' -> ~ In 46%Z b ->
  (a = a' /\ b = b') \/ exists m, a = a' ++ 46%Z :: m.
Proof.
  revert a'. induction a as [| x a IH]; intros [| y a'] E N; cbn [app] in E; [injection E as E2 | injection E as E1 E2 | injection E as E1 E2 | injection E as E1 E2].
  - left. now split.
  - exfalso. apply N. rewrite E2. apply in_or_app. right. now left.
  - subst x. right. now exists a.
  - subst y. destruct (IH _ E2 N) as [[-> ->] | [m ->]]; [left; now split | right; now exists m].
Qed.

Lemma ancestor_cut s i p : rfind_dot s = Some i -> ancestor p s <-> (p <> [] /\ p = s) \/ ancestor p (firstn i s).
Proof.
  intros H. destruct (rfind_some s i H) as (E & N & L). unfold ancestor. change (lit ".") with [46%Z]. split.
  - intros [Hp [-> | (r & Er)]]; [now left | right]. split; [assumption|]. rewrite E in Er. cbn [app] in Er.
    destruct (last_dot_unique _ _ _ _ Er N) as [[G _] | [m G]]; [left; exact G | right; exists m; exact G].
  - intros [[Hp ->] | [Hp [G | (r & G)]]]; (split; [assumption|]); [now left | right | right].
    + exists (skipn (S i) s). cbn [app]. rewrite <- G. exact E.
    + exists (r ++ 46%Z :: skipn (S i) s). rewrite E at 1. rewrite G, <- !app_assoc. reflexivity.
Qed.

Lemma ancestor_whole s p : rfind_dot s = None -> ancestor p s -> p = s.
Proof.
  intros H [_ [-> | (r & ->)]]; [reflexivity|]. exfalso. apply (rfind_none _ H). apply in_or_app. right. now left.
Qed.

Fixpoint match_loop (fuel : nat) (t : theme) (cur : str) : option (str * style) :=
  match fuel with
  | O => None
  | S f =>
      match cur with
      | [] => None
      | _ => match mget str_eqb t cur with
             | Some s => Some (cur, s)
             | None => match rfind_dot cur with Some pos => match_loop f t (firstn pos cur) | None => None end
             end
      end
  end.

Lemma resolve_match fuel t : forall cur, resolve_loop fuel t cur = option_map snd (match_loop fuel t cur).
Proof.
  induction fuel as [| f IH]; intros cur; [reflexivity|]. cbn [resolve_loop match_loop]. destruct cur as [| c r]; [reflexivity|].
  destruct (mget str_eqb t (c :: r)); [reflexivity|]. destruct (rfind_dot (c :: r)); [apply IH | reflexivity].
Qed.

Lemma dots_cut s i : rfind_dot s = Some i -> dots s = S (dots (firstn i s)).
Proof.
  intros H. destruct (rfind_some s i H) as (E & N & _). unfold dots. rewrite E at 1. rewrite count_occ_app, count_occ_cons_eq by reflexivity.
  rewrite (proj1 (count_occ_not_In Z.eq_dec _ _) N). lia.
Qed.

Lemma styles_match fuel t : forall cur best, styles_loop fuel t cur (segments_count cur) best =
  match match_loop fuel t cur with
  | Some (p, s) => if (fst best <? segments_count p)%Z then (segments_count p, Some s) else best
  | None => best
  end.
Proof.
  induction fuel as [| f IH]; intros cur best; [reflexivity|]. cbn [styles_loop match_loop]. destruct cur as [| c r]; [reflexivity|].
  destruct (mget str_eqb t (c :: r)); [reflexivity|]. destruct (rfind_dot (c :: r)) as [i|] eqn:E; [|reflexivity].
  rewrite <- IH. f_equal. unfold segments_count. assert (D := dots_cut _ _ E). unfold dots in D. rewrite D. lia.
Qed.

Lemma match_loop_spec fuel t : forall cur, length cur < fuel ->
  match match_loop fuel t cur with
  | Some (p, s) => best_ancestor t cur p s
  | None => unknown t cur
  end.
Proof.
  induction fuel as [| f IH]; intros cur L; [lia|]. cbn [match_loop]. destruct cur as [| c r] eqn:Ec.
  - intros p [Hp [E | (x & E)]]; [congruence | destruct p; [congruence | discriminate]].
  - rewrite <- Ec in *. assert (Hc : cur <> []) by (rewrite Ec; discriminate). clear Ec c r.
    destruct (mget str_eqb t cur) eqn:M.
    + split; [split; [assumption | now left]|]. split; [assumption|]. intros q st' [_ [-> | (x & ->)]] _; rewrite ?app_length; lia.
    + destruct (rfind_dot cur) as [i|] eqn:E.
      * assert (L' : length (firstn i cur) < f) by (destruct (rfind_some _ _ E) as (_ & _ & Li); rewrite firstn_length; lia).
        specialize (IH _ L'). destruct (match_loop f t (firstn i cur)) as [[p s]|].
        -- destruct IH as (A & B & C). split; [rewrite (ancestor_cut _ _ _ E); now right|]. split; [assumption|].
           intros q st' Hq Hm. rewrite (ancestor_cut _ _ _ E) in Hq. destruct Hq as [[_ ->] | Hq]; [congruence|]. eapply C; eassumption.
        -- intros p Hp. rewrite (ancestor_cut _ _ _ E) in Hp. destruct Hp as [[_ ->] | Hp]; [assumption | now apply IH].
      * intros p Hp. apply (ancestor_whole _ _ E) in Hp. now subst.
Qed.

Lemma fallback_spec t : default_style t (fallback t).
Proof. unfold default_style, fallback. destruct (mget str_eqb t (lit "none")); [now left | right; now split]. Qed.

Lemma best_unique t s p st p' st' : best_ancestor t s p st -> best_ancestor t s p' st' -> p = p' /\ st = st'.
Proof.
  intros ([N1 A1] & M1 & C1) ([N2 A2] & M2 & C2).
  assert (L : length p = length p').
  { assert (length p' <= length p) by (eapply C1; [split; eassumption | eassumption]). assert (length p <= length p') by (eapply C2; [split; eassumption | eassumption]). lia. }
  assert (E : p = p').
  { assert (G : forall p, s = p \/ (exists r, s = p ++ lit "." ++ r) -> p = firstn (length p) s).
    { intros x [-> | (r & ->)]; [now rewrite firstn_all | now rewrite firstn_app, Nat.sub_diag, firstn_all, app_nil_r]. }
    rewrite (G p A1), (G p' A2), L. reflexivity. }
  subst. split; [reflexivity | congruence].
Qed.

(** The state of the fold over the scopes. *)
Definition held (t : theme) (l : list str) (b : Z * option style) : Prop :=
  match snd b with
  | None => fst b = (-1)%Z /\ Forall (unknown t) l
  | Some st => exists l1 s l2 p, l = l1 ++ s :: l2 /\ best_ancestor t s p st /\ fst b = segments_count p /\
      (forall s' q st', In s' l1 -> best_ancestor t s' q st' -> dots q < dots p) /\
      (forall s' q st', In s' l2 -> best_ancestor t s' q st' -> dots q <= dots p)
  end.

Lemma held_step t l b s : held t l b -> held t (l ++ [s]) (styles_loop (S (length s)) t s (segments_count s) b).
Proof.
  intros H. rewrite styles_match. assert (M := match_loop_spec (S (length s)) t s (Nat.lt_succ_diag_r _)).
  destruct (match_loop (S (length s)) t s) as [[p st]|].
  - unfold held in H. destruct b as [d [b|]]; cbn [fst snd] in *.
    + destruct H as (l1 & s0 & l2 & p0 & -> & B & -> & H1 & H2).
      destruct (Z.ltb_spec (segments_count p0) (segments_count p)) as [L | L]; unfold held; cbn [snd fst].
      * exists (l1 ++ s0 :: l2), s, [], p. repeat split; try assumption; try reflexivity; try apply M; try contradiction.
        intros s' q st' Hi Hb. unfold segments_count in L. fold (dots p0) (dots p) in L.
        apply in_app_or in Hi. destruct Hi as [Hi | [<- | Hi]].
        -- specialize (H1 _ _ _ Hi Hb). lia.
        -- destruct (best_unique _ _ _ _ _ _ B Hb) as [<- _]. lia.
        -- specialize (H2 _ _ _ Hi Hb). lia.
      * exists l1, s0, (l2 ++ [s]), p0. repeat split; try assumption; try apply B; try (now rewrite <- app_assoc).
        intros s' q st' Hi Hb. apply in_app_or in Hi. destruct Hi as [Hi | [<- | []]]; [eapply H2; eassumption|].
        destruct (best_unique _ _ _ _ _ _ M Hb) as [<- _]. unfold segments_count in L. fold (dots p0) (dots p) in L. lia.
    + destruct H as [-> Hu]. assert (L : (-1 <? segments_count p = true)%Z) by (apply Z.ltb_lt; unfold segments_count; lia).
      rewrite L. unfold held. cbn [snd fst]. exists l, s, [], p. repeat split; try apply M; try contradiction.
      intros s' q st' Hi (A & B & _). rewrite Forall_forall in Hu. rewrite (Hu _ Hi _ A) in B. discriminate.
  - unfold held in *. destruct b as [d [b|]]; cbn [fst snd] in *.
    + destruct H as (l1 & s0 & l2 & p0 & -> & B & -> & H1 & H2). exists l1, s0, (l2 ++ [s]), p0.
      repeat split; try assumption; try apply B; try (now rewrite <- app_assoc).
      intros s' q st' Hi Hb. apply in_app_or in Hi. destruct Hi as [Hi | [<- | []]]; [eapply H2; eassumption|].
      destruct Hb as (A & B' & _). rewrite (M _ A) in B'. discriminate.
    + destruct H as [-> Hu]. split; [reflexivity|]. apply Forall_app. split; [assumption | now constructor].
Qed.

Lemma held_fold t l : forall l0 b, held t l0 b ->
  held t (l0 ++ l) (fold_left (fun best scope => styles_loop (S (length scope)) t scope (segments_count scope) best) l b).
Proof.
  induction l as [| s r IH]; intros l0 b H; [now rewrite app_nil_r|]. cbn [fold_left].
  replace (l0 ++ s :: r) with ((l0 ++ [s]) ++ r) by now rewrite <- app_assoc. apply IH. now apply held_step.
Qed.

(** ** The visitor *)
Section Visitor.
  Variables (style_of : nat -> style) (source : str).
  Definition seg_of (l : nat * nat * nat) : segment :=
    let '(k, a, b) := l in Segment a b (style_of k) (chars (substr source a b)).
  Definition cuttable (l : nat * nat * nat) : Prop := let '(_, a, b) := l in str_get source a b <> None.

  Lemma str_get_eq s a b t : str_get s a b = Some t -> t = substr s a b.
  Proof. unfold str_get. destruct (_ && _); intros H; inversion H; reflexivity. Qed.

  Lemma highlight_spec t : built t -> forall off acc, Forall cuttable (leaves t off) ->
    highlight_tree style_of source t off acc = Some (acc ++ map seg_of (leaves t off)).
  Proof.
    revert t. apply (built_ind' (fun t => forall off acc, Forall cuttable (leaves t off) ->
      highlight_tree style_of source t off acc = Some (acc ++ map seg_of (leaves t off)))).
    - intros k n m off acc H. cbn [leaves] in *. inv H. cbn [highlight_tree cuttable] in *.
      destruct (str_get source off (off + n)) eqn:E; [|congruence]. rewrite (str_get_eq _ _ _ _ E). reflexivity.
    - intros k ch Hb IH off acc. rewrite leaves_eq. cbn [highlight_tree].
      revert off acc. induction ch as [| c r IHr]; intros off acc H; [cbn; now rewrite app_nil_r|].
      apply Forall_cons_iff in Hb. destruct Hb as [Hb1 Hb2]. apply Forall_cons_iff in IH. destruct IH as [IH1 IH2].
      cbn [lay] in *. apply Forall_app in H. destruct H as [Hc Hr].
      rewrite IH1 by assumption. rewrite glen_width by assumption. rewrite (IHr Hb2 IH2) by assumption.
      rewrite map_app, app_assoc. reflexivity.
  Qed.

  Lemma highlight_panic t : built t -> forall off acc, ~ Forall cuttable (leaves t off) -> highlight_tree style_of source t off acc = None.
  Proof.
    assert (D : forall l, {cuttable l} + {~ cuttable l}).
    { intros [[k a] b]. cbn. destruct (str_get source a b); [left; discriminate | right; now intros H]. }
    revert t. apply (built_ind' (fun t => forall off acc, ~ Forall cuttable (leaves t off) -> highlight_tree style_of source t off acc = None)).
    - intros k n m off acc H. cbn [leaves highlight_tree] in *. destruct (str_get source off (off + n)) eqn:E; [|reflexivity].
      exfalso. apply H. constructor; [|constructor]. cbn. rewrite E. discriminate.
    - intros k ch Hb IH off acc. rewrite leaves_eq. cbn [highlight_tree].
      revert off acc. induction ch as [| c r IHr]; intros off acc H; [exfalso; apply H; constructor|].
      apply Forall_cons_iff in Hb. destruct Hb as [Hb1 Hb2]. apply Forall_cons_iff in IH. destruct IH as [IH1 IH2]. cbn [lay] in *.
      destruct (Forall_dec _ D (leaves c off)) as [Fc | Fc].
      + rewrite (highlight_spec c Hb1) by assumption. rewrite glen_width by assumption. apply IHr; try assumption.
        intros G. apply H. apply Forall_app. now split.
      + rewrite IH1 by assumption. reflexivity.
  Qed.

  Lemma segments_tile ls : forall a b, tiles leaf_span a ls b -> tiles segment_span a (map seg_of ls) b.
  Proof. induction 1 as [| a [[k x] y] l e H1 H2 H3 IH]; [constructor|]. cbn [map]. constructor; assumption. Qed.

  Lemma segments_text ls : valid source -> forall a b, tiles leaf_span a ls b -> Forall cuttable ls ->
    encode (flat_map sg_text (map seg_of ls)) = substr source a b.
  Proof.
    intros Hv a b H. induction H as [a | a [[k x] y] l e H1 H2 H3 IH]; intros F.
    - unfold substr. rewrite Nat.sub_diag. reflexivity.
    - inv F. cbn [map flat_map seg_of sg_text leaf_span fst snd] in *. rewrite encode_app, IH by assumption. rename x into a.
      cbn in H4. destruct (str_get source a y) eqn:E; [|congruence]. unfold str_get in E.
      destruct ((a <=? y) && (y <=? length source) && is_boundary source a && is_boundary source y) eqn:B; [|discriminate].
      rewrite !andb_true_iff in B. destruct B as [[[B1 B2] B3] B4].
      assert (V : valid (substr source a y)) by (apply valid_substr; auto; lia).
      destruct (valid_chars _ V) as [-> _]. symmetry. apply tiles_le in H3. apply substr_split; lia.
  Qed.
End Visitor.

Lemma tiles_ordered s l e : tiles leaf_span s l e -> forall k a b, In (k, a, b) l -> a <= b.
Proof.
  induction 1 as [z | s [[k' x] y] l e H1 H2 H3 IH]; intros k a b Hi; [contradiction|]. cbn in H1, H2.
  destruct Hi as [Hi | Hi]; [|eapply IH; eassumption]. inversion Hi; subst; lia.
Qed.

(** ** HTML *)
Lemma escape_shows s : forall r x, shows r x -> shows (html_escape s ++ r) (s ++ x).
Proof.
  induction s as [| c s IH]; intros r x H; [assumption|]. cbn [html_escape flat_map]. rewrite <- app_assoc.
  fold (html_escape s). specialize (IH r x H). unfold html_escape_char.
  assert (E : forall e, In (e, c) entities -> shows (e ++ html_escape s ++ r) ((c :: s) ++ x)).
  { intros e He. cbn [app]. now apply (SEntity e c). }
  destruct (Z.eqb_spec c 60) as [-> |]; [apply E; cbn; tauto|].
  destruct (Z.eqb_spec c 62) as [-> |]; [apply E; cbn; tauto|].
  destruct (Z.eqb_spec c 38) as [-> |]; [apply E; cbn; tauto|].
  destruct (Z.eqb_spec c 34) as [-> |]; [apply E; cbn; tauto|].
  destruct (Z.eqb_spec c 39) as [-> |]; [apply E; cbn; tauto|].
  cbn [app]. now apply SChar.
Qed.

Lemma escape_alone s : shows (html_escape s) s.
Proof. assert (H := escape_shows s [] [] SEnd). now rewrite !app_nil_r in H. Qed.

Lemma shows_app a x : shows a x -> forall b y, shows b y -> shows (a ++ b) (x ++ y).
Proof.
  induction 1 as [| t r x H1 H2 H3 IH | e c r x H1 H2 IH | c r x H1 H2 H3 H4 IH]; intros b y Hb; [assumption | | |].
  - cbn [app]. rewrite <- app_assoc. cbn [app]. apply STag; auto.
  - rewrite <- app_assoc. cbn [app]. apply SEntity; auto.
  - cbn [app]. apply SChar; auto.
Qed.

Lemma tag_split t r t' r' : t ++ 62%Z :: r = t' ++ 62%Z :: r' -> ~ In 62%Z t -> ~ In 62%Z t' -> t = t' /\ r = r'.
Proof.
  revert t'. induction t as [| a t IH]; intros [| b t'] E N N'; cbn [app] in E; [injection E as E2 | injection E as E1 E2 | injection E as E1 E2 | injection E as E1 E2].
  - now split.
  - exfalso. apply N'. now left.
  - exfalso. apply N. now left.
  - subst b. destruct (IH t' E2) as [-> ->]; [intros G; apply N; now right | intros G; apply N'; now right | now split].
Qed.

Lemma entity_head e c : In (e, c) entities -> exists r, e = 38%Z :: r.
Proof. cbn. intros H. repeat (destruct H as [H | H]; [injection H as <- <-; eexists; reflexivity|]). contradiction. Qed.

Lemma entity_split e c e' c' r r' : In (e, c) entities -> In (e', c') entities -> e ++ r = e' ++ r' -> c = c' /\ r = r'.
Proof.
  cbn. intros H H' E.
  repeat (destruct H as [H | H]; [injection H as <- <-|]); try contradiction;
  repeat (destruct H' as [H' | H']; [injection H' as <- <-; cbn in E; try discriminate E; injection E as ->; now split|]); contradiction.
Qed.

Lemma shows_fun s x : shows s x -> forall y, shows s y -> x = y.
Proof.
  induction 1 as [| t r x H1 H2 H3 IH | e c r x H1 H2 IH | c r x H1 H2 H3 H4 IH]; intros y Hy.
  - inversion Hy; subst; [reflexivity|]. destruct (entity_head _ _ H0) as (z & ->). discriminate.
  - inversion Hy as [E | t' r' x' G1 G2 G3 E | e' c' r' x' G1 G2 E | c' r' x' G1 G2 G3 G4 E]; subst.
    + destruct (tag_split _ _ _ _ E G2 H2) as [-> ->]. now apply IH.
    + destruct (entity_head _ _ G1) as (z & ->). discriminate.
    + congruence.
  - remember (e ++ r) as s eqn:Es. inversion Hy as [E | t' r' x' G1 G2 G3 E | e' c' r' x' G1 G2 E | c' r' x' G1 G2 G3 G4 E]; subst.
    + destruct (entity_head _ _ H1) as (z & ->). discriminate.
    + destruct (entity_head _ _ H1) as (z & ->). discriminate.
    + destruct (entity_split _ _ _ _ _ _ G1 H1 E) as [-> ->]. f_equal. now apply IH.
    + destruct (entity_head _ _ H1) as (z & ->). injection E as -> _. congruence.
  - inversion Hy as [E | t' r' x' G1 G2 G3 E | e' c' r' x' G1 G2 E | c' r' x' G1 G2 G3 G4 E]; subst.
    + congruence.
    + destruct (entity_head _ _ G1) as (z & ->). injection E as <- _. congruence.
    + f_equal. now apply IH.
Qed.

Lemma escape_chars_safe s c : In c (html_escape s) -> c <> 60%Z /\ c <> 62%Z /\ c <> 34%Z /\ c <> 39%Z.
Proof.
  unfold html_escape. rewrite in_flat_map. intros (x & _ & H). unfold html_escape_char in H.
  destruct (Z.eqb_spec x 60); [cbn in H; lia|]. destruct (Z.eqb_spec x 62); [cbn in H; lia|].
  destruct (Z.eqb_spec x 38); [cbn in H; lia|]. destruct (Z.eqb_spec x 34); [cbn in H; lia|].
  destruct (Z.eqb_spec x 39); [cbn in H; lia|]. destruct H as [<- | []]. tauto.
Qed.

Lemma escapes_agree s : html_escape_diag s = html_escape s.
Proof.
  induction s as [| c s IH]; [reflexivity|]. cbn [html_escape flat_map]. fold (html_escape s). rewrite <- IH.
  assert (R : forall c0 b x y, replace_char c0 b (x ++ y) = replace_char c0 b x ++ replace_char c0 b y) by (intros; apply flat_map_app).
  unfold html_escape_diag. change (c :: s) with ([c] ++ s). rewrite !R. f_equal. unfold html_escape_char.
  destruct (Z.eqb_spec c 60) as [-> |]; [reflexivity|]. destruct (Z.eqb_spec c 62) as [-> |]; [reflexivity|].
  destruct (Z.eqb_spec c 38) as [-> |]; [reflexivity|]. destruct (Z.eqb_spec c 34) as [-> |]; [reflexivity|].
  destruct (Z.eqb_spec c 39) as [-> |]; [reflexivity|].
  unfold replace_char. cbn [flat_map app]. rewrite (proj2 (Z.eqb_neq c 38)) by assumption. cbn [flat_map app].
  rewrite (proj2 (Z.eqb_neq c 60)) by assumption. cbn [flat_map app]. rewrite (proj2 (Z.eqb_neq c 62)) by assumption. cbn [flat_map app].
  rewrite (proj2 (Z.eqb_neq c 34)) by assumption. cbn [flat_map app]. rewrite (proj2 (Z.eqb_neq c 39)) by assumption. reflexivity.
Qed.

Lemma in_join x sep l : In x (join sep l) -> In x sep \/ exists p, In p l /\ In x p.
Proof.
  induction l as [| p [| q r] IH]; [contradiction | |].
  - intros H. right. exists p. split; [now left | assumption].
  - cbn [join]. intros H. apply in_app_or in H. destruct H as [H | H]; [right; exists p; split; [now left | assumption]|].
    apply in_app_or in H. destruct H as [H | H]; [now left|]. destruct (IH H) as [G | (z & G1 & G2)]; [now left | right; exists z; split; [now right | assumption]].
Qed.

(** Colours that cannot end or start a tag. *)
Definition tag_free (c : option str) : Prop := forall s, c = Some s -> ~ In 60%Z s /\ ~ In 62%Z s.

Ltac no_in := let H := fresh in intros H; vm_compute in H; lia.

Lemma inline_shows s : tag_free (st_color (sg_style s)) -> tag_free (st_background (sg_style s)) ->
  shows (segment_inline s) (sg_text s).
Proof.
  intros Hc Hb. unfold segment_inline. assert (E : shows (html_escape (sg_text s)) (sg_text s)).
  { apply escape_alone. }
  destruct (style_attrs (sg_style s)) as [| a l] eqn:Ea; [assumption|]. rewrite <- Ea.
  assert (F : forall x, x = 60%Z \/ x = 62%Z -> ~ In x (lit "span style=" ++ [34%Z] ++ join (lit "; ") (style_attrs (sg_style s)) ++ [34%Z])).
  { intros x Hx Hi. apply in_app_or in Hi. destruct Hi as [Hi | Hi]; [vm_compute in Hi; lia|].
    apply in_app_or in Hi. destruct Hi as [Hi | Hi]; [vm_compute in Hi; lia|].
    apply in_app_or in Hi. destruct Hi as [Hi | Hi]; [|vm_compute in Hi; lia].
    apply in_join in Hi. destruct Hi as [Hi | (p & Hp & Hi)]; [vm_compute in Hi; lia|].
    unfold style_attrs in Hp. rewrite !in_app_iff in Hp.
    destruct Hp as [Hp | [Hp | [Hp | [Hp | Hp]]]].
    - destruct (st_color (sg_style s)) as [c|]; [|contradiction]. destruct Hp as [<- | []]. apply in_app_or in Hi.
      destruct Hi as [Hi | Hi]; [vm_compute in Hi; lia|]. destruct (Hc c eq_refl). destruct Hx; subst; contradiction.
    - destruct (st_background (sg_style s)) as [c|]; [|contradiction]. destruct Hp as [<- | []]. apply in_app_or in Hi.
      destruct Hi as [Hi | Hi]; [vm_compute in Hi; lia|]. destruct (Hb c eq_refl). destruct Hx; subst; contradiction.
    - destruct (st_bold (sg_style s)); [|contradiction]. destruct Hp as [<- | []]. vm_compute in Hi; lia.
    - destruct (st_italic (sg_style s)); [|contradiction]. destruct Hp as [<- | []]. vm_compute in Hi; lia.
    - destruct (st_underline (sg_style s)); [|contradiction]. destruct Hp as [<- | []]. vm_compute in Hi; lia. }
  assert (G : forall attrs r x, ~ In 60%Z (lit "span style=" ++ [34%Z] ++ attrs ++ [34%Z]) -> ~ In 62%Z (lit "span style=" ++ [34%Z] ++ attrs ++ [34%Z]) ->
    shows r x -> shows (lit "<span style=" ++ [34%Z] ++ attrs ++ [34%Z] ++ lit ">" ++ r) x).
  { intros attrs r x N1 N2 Hr. assert (K := STag _ _ _ N1 N2 Hr). rewrite <- !app_assoc in K. exact K. }
  apply G; [apply F; now left | apply F; now right|].
  rewrite <- (app_nil_r (sg_text s)) at 2. apply shows_app; [apply escape_alone|].
  change (lit "</span>") with (60%Z :: lit "/span" ++ 62%Z :: []). apply STag; [no_in | no_in | constructor].
Qed.

Lemma class_shows s : shows (segment_class s) (sg_text s).
Proof.
  unfold segment_class. assert (E : shows (html_escape (sg_text s)) (sg_text s)).
  { apply escape_alone. }
  destruct (style_classes (sg_style s)) as [| a l] eqn:Ea; [assumption|]. rewrite <- Ea.
  assert (F : forall x, x = 60%Z \/ x = 62%Z -> ~ In x (lit "span class=" ++ [34%Z] ++ join (lit " ") (style_classes (sg_style s)) ++ [34%Z])).
  { intros x Hx Hi. unfold style_classes in Hi. destruct (st_bold (sg_style s)), (st_italic (sg_style s)), (st_underline (sg_style s)); vm_compute in Hi; lia. }
  assert (G : forall attrs r x, ~ In 60%Z (lit "span class=" ++ [34%Z] ++ attrs ++ [34%Z]) -> ~ In 62%Z (lit "span class=" ++ [34%Z] ++ attrs ++ [34%Z]) ->
    shows r x -> shows (lit "<span class=" ++ [34%Z] ++ attrs ++ [34%Z] ++ lit ">" ++ r) x).
  { intros attrs r x N1 N2 Hr. assert (K := STag _ _ _ N1 N2 Hr). rewrite <- !app_assoc in K. exact K. }
  apply G; [apply F; now left | apply F; now right|].
  rewrite <- (app_nil_r (sg_text s)) at 2. apply shows_app; [apply escape_alone|].
  change (lit "</span>") with (60%Z :: lit "/span" ++ 62%Z :: []). apply STag; [no_in | no_in | constructor].
Qed.

Lemma export_html_shows inline segments :
  (inline = true -> Forall (fun s => tag_free (st_color (sg_style s)) /\ tag_free (st_background (sg_style s))) segments) ->
  shows (export_html false inline segments) (flat_map sg_text segments).
Proof.
  intros H. unfold export_html. cbn [app].
  assert (G : forall r x, shows r x -> shows (lit "<div class=" ++ [34%Z] ++ lit "highlight" ++ [34%Z] ++ lit ">" ++ r) x).
  { intros r x Hr. assert (K := STag (lit "div class=" ++ [34%Z] ++ lit "highlight" ++ [34%Z]) r x ltac:(no_in) ltac:(no_in) Hr). rewrite <- !app_assoc in K. exact K. }
  apply G. rewrite <- (app_nil_r (flat_map sg_text segments)). apply shows_app.
  - induction segments as [| s r IH]; [constructor|]. cbn [flat_map]. apply shows_app.
    + destruct inline; [|apply class_shows]. specialize (H eq_refl). inv H. apply inline_shows; tauto.
    + apply IH. intros Hi. specialize (H Hi). now inv H.
  - change (lit "</div>") with (60%Z :: lit "/div" ++ 62%Z :: []). apply STag; [no_in | no_in | constructor].
Qed.

(** ** ANSI *)
Lemma displays_text t : ~ In 27%Z t -> forall r x, displays r x -> displays (t ++ r) (t ++ x).
Proof.
  induction t as [| c t IH]; intros N r x H; [assumption|]. cbn [app]. apply DChar; [intros ->; apply N; now left|].
  apply IH; [intros G; apply N; now right | assumption].
Qed.

Lemma codes_digits s : Forall (fun c => (48 <= c <= 57)%Z \/ c = 59%Z) (join (lit ";") (ansi_codes s)).
Proof.
  apply Forall_forall. intros x Hx. apply in_join in Hx. destruct Hx as [Hx | (p & Hp & Hx)]; [vm_compute in Hx; lia|].
  unfold ansi_codes in Hp. rewrite !in_app_iff in Hp.
  destruct Hp as [Hp | [Hp | [Hp | [Hp | Hp]]]].
  - destruct Hp as [<- | []]. vm_compute in Hx; lia.
  - destruct (st_bold s); [|contradiction]. destruct Hp as [<- | []]. vm_compute in Hx; lia.
  - destruct (st_italic s); [|contradiction]. destruct Hp as [<- | []]. vm_compute in Hx; lia.
  - destruct (st_underline s); [|contradiction]. destruct Hp as [<- | []]. vm_compute in Hx; lia.
  - destruct (st_color s) as [c|]; [|contradiction]. destruct Hp as [<- | []]. unfold ansi_color in Hx.
    repeat (destruct (_ || _) in Hx; [vm_compute in Hx; lia|]). vm_compute in Hx; lia.
Qed.

Lemma displays_codes codes r x : Forall (fun c => (48 <= c <= 57)%Z \/ c = 59%Z) codes -> displays r x ->
  displays ([27%Z] ++ lit "[" ++ codes ++ lit "m" ++ r) x.
Proof. intros. now apply (DCode codes). Qed.

Lemma export_ansi_displays segments : Forall (fun s => ~ In 27%Z (sg_text s)) segments ->
  displays (export_ansi segments) (flat_map sg_text segments).
Proof.
  unfold export_ansi. induction 1 as [| s r Hs Hr IH]; [constructor|]. cbn [flat_map]. unfold segment_ansi at 1.
  destruct (1 <? length (ansi_codes (sg_style s))); [|now apply displays_text].
  rewrite <- !app_assoc. apply displays_codes; [apply codes_digits|]. apply displays_text; [assumption|].
  apply (displays_codes (lit "0")); [apply (Forall_cons 48%Z); [lia | apply Forall_nil] | assumption].
Qed.

Lemma displays_fun s x : displays s x -> forall y, displays s y -> x = y.
Proof.
  assert (SP : forall a b a' b', a ++ 109%Z :: b = a' ++ 109%Z :: b' ->
    Forall (fun c => (48 <= c <= 57)%Z \/ c = 59%Z) a -> Forall (fun c => (48 <= c <= 57)%Z \/ c = 59%Z) a' -> b = b').
  { induction a as [| c a IH]; intros b [| c' a'] b' E F F'; cbn [app] in E; [injection E as E2 | injection E as E1 E2 | injection E as E1 E2 | injection E as E1 E2].
    - assumption.
    - inv F'. lia.
    - inv F. lia.
    - inv F. inv F'. eapply IH; eassumption. }
  induction 1 as [| codes r x F H IH | c r x N H IH]; intros y Hy; inversion Hy; subst; try congruence; try contradiction.
  - assert (r0 = r) by (eapply SP; eassumption). subst. now apply IH.
  - f_equal. now apply IH.
Qed.

(** ** JSON *)
Lemma hex_digit_val d : (0 <= d < 16)%Z -> hexval (hex_digit d) d.
Proof.
  intros H. unfold hex_digit. destruct (Z.ltb_spec d 10).
  - replace d with ((48 + d) - 48)%Z at 2 by lia. apply HDigit. lia.
  - replace d with ((87 + d) - 87)%Z at 2 by lia. apply HLower. lia.
Qed.

Lemma json_escape_chars s : scalars s -> jchars (json_escape s) s.
Proof.
  unfold scalars. induction 1 as [| c r Hc Hr IH]; [constructor|]. cbn [json_escape flat_map]. fold (json_escape r). unfold json_escape_char.
  assert (E : forall e, In (e, c) short_escapes -> jchars ([92%Z; e] ++ json_escape r) (c :: r)) by (intros e He; now apply JCShort).
  destruct (Z.eqb_spec c 34) as [-> |]; [apply E; cbn; tauto|].
  destruct (Z.eqb_spec c 92) as [-> |]; [apply E; cbn; tauto|].
  destruct (Z.eqb_spec c 8) as [-> |]; [apply E; cbn; tauto|].
  destruct (Z.eqb_spec c 12) as [-> |]; [apply E; cbn; tauto|].
  destruct (Z.eqb_spec c 10) as [-> |]; [apply E; cbn; tauto|].
  destruct (Z.eqb_spec c 13) as [-> |]; [apply E; cbn; tauto|].
  destruct (Z.eqb_spec c 9) as [-> |]; [apply E; cbn; tauto|].
  destruct (is_control c) eqn:K.
  - unfold unicode_escape.
    change ([92; 117; hex_digit (c / 4096 mod 16); hex_digit (c / 256 mod 16); hex_digit (c / 16 mod 16); hex_digit (c mod 16)]%Z ++ json_escape r)
      with (92%Z :: 117%Z :: [hex_digit (c / 4096 mod 16); hex_digit (c / 256 mod 16); hex_digit (c / 16 mod 16); hex_digit (c mod 16)]%Z ++ json_escape r).
    apply JCHex; [|assumption | assumption].
    assert (B : (0 <= c < 160)%Z) by (unfold is_control in K; lia).
    replace c with (4096 * (c / 4096 mod 16) + 256 * (c / 256 mod 16) + 16 * (c / 16 mod 16) + c mod 16)%Z at 5.
    + apply Hex4; apply hex_digit_val; apply Z.mod_pos_bound; lia.
    + rewrite (Z.div_small c 4096), (Z.div_small c 256) by lia. rewrite (Z.mod_small (c / 16)) by (split; [apply Z.div_pos; lia | apply Z.div_lt_upper_bound; lia]).
      change (0 mod 16)%Z with 0%Z. pose proof (Z.div_mod c 16). lia.
  - cbn [app]. apply JCPlain; try assumption. unfold is_scalar in Hc. unfold is_control in K. lia.
Qed.

Lemma quote_string s : scalars s -> jstring (quote (json_escape s)) s.
Proof. intros H. exists (json_escape s). split; [reflexivity | now apply json_escape_chars]. Qed.

Lemma dec_unfold fuel n : n < fuel -> dec_fuel fuel n = (if n <? 10 then [] else dec_fuel n (n / 10)) ++ [48 + Z.of_nat (n mod 10)]%Z.
Proof.
  assert (G : forall a b m, m < a -> m < b -> dec_fuel a m = dec_fuel b m).
  { induction a as [| a IH]; intros [| b] m Ha Hb; try lia. cbn [dec_fuel]. f_equal. destruct (Nat.ltb_spec m 10); [reflexivity|].
    assert (m / 10 < m) by (apply Nat.div_lt; lia). apply IH; lia. }
  intros H. destruct fuel as [| f]; [lia|]. cbn [dec_fuel]. f_equal. destruct (Nat.ltb_spec n 10); [reflexivity|].
  assert (n / 10 < n) by (apply Nat.div_lt; lia). apply G; lia.
Qed.

Lemma dec_digits fuel : forall n, Forall is_digit (dec_fuel fuel n).
Proof.
  induction fuel as [| f IH]; intros n; [constructor|]. cbn [dec_fuel]. apply Forall_app. split.
  - destruct (n <? 10); [constructor | apply IH].
  - constructor; [|constructor]. unfold is_digit. assert (n mod 10 < 10) by (apply Nat.mod_upper_bound; lia). lia.
Qed.

Lemma dec_jint fuel : forall n, n < fuel -> jint (dec_fuel fuel n) /\ (0 < n -> exists c r, dec_fuel fuel n = c :: r /\ (49 <= c <= 57)%Z).
Proof.
  induction fuel as [| f IH]; intros n H; [lia|]. cbn [dec_fuel]. destruct (Nat.ltb_spec n 10) as [L | L].
  - cbn [app]. rewrite Nat.mod_small by assumption. split.
    + destruct n as [| n]; [constructor|]. apply JIPos; [lia | constructor].
    + intros P. exists (48 + Z.of_nat n)%Z, []. split; [reflexivity | lia].
  - assert (D : n / 10 < n) by (apply Nat.div_lt; lia). assert (P : 0 < n / 10) by (apply Nat.div_str_pos; lia).
    destruct (IH (n / 10)) as [_ G]; [lia|]. destruct (G P) as (c & r & E & B). rewrite E. cbn [app]. split.
    + apply JIPos; [assumption|]. assert (F := dec_digits f (n / 10)). rewrite E in F. inv F. apply Forall_app. split; [assumption|].
      constructor; [|constructor]. unfold is_digit. assert (n mod 10 < 10) by (apply Nat.mod_upper_bound; lia). lia.
    + intros _. exists c, (r ++ [48 + Z.of_nat (n mod 10)]%Z). split; [reflexivity | assumption].
Qed.

Lemma dec_value fuel : forall n, n < fuel -> fold_left (fun a c => 10 * a + (c - 48))%Z (dec_fuel fuel n) 0%Z = Z.of_nat n.
Proof.
  induction fuel as [| f IH]; intros n H; [lia|]. cbn [dec_fuel]. rewrite fold_left_app. cbn [fold_left].
  pose proof (Nat.div_mod n 10 ltac:(lia)) as E. destruct (Nat.ltb_spec n 10) as [L | L].
  - cbn [fold_left]. rewrite Nat.mod_small by assumption. lia.
  - assert (D : n / 10 < n) by (apply Nat.div_lt; lia). rewrite IH by lia. lia.
Qed.

Lemma dec_decimal n : decimal (dec n) n.
Proof.
  split.
  - assert (K := JNum [] (dec n) [] [] (or_introl eq_refl) (proj1 (dec_jint (S n) n (Nat.lt_succ_diag_r n))) JFNone JENone).
    cbn [app] in K. now rewrite app_nil_r in K.
  - apply dec_value. lia.
Qed.

Lemma jtext_of s v : jvalue s v -> jtext s v.
Proof. intros H. rewrite <- (app_nil_l s), <- (app_nil_r s). apply (TText [] s [] v); [constructor | assumption | constructor]. Qed.

Lemma member_of q k s v : jstring q k -> jvalue s v -> jmember (q ++ lit ":" ++ s) k v.
Proof. intros Hq Hs. apply (MMember [] q k [] s v); [constructor | assumption | constructor | now apply jtext_of]. Qed.

Lemma members_join ms : Forall (fun m => jmember (fst m) (fst (snd m)) (snd (snd m))) ms -> ms <> [] ->
  jmembers (join (lit ",") (map fst ms)) (map snd ms).
Proof.
  induction ms as [| [s [k v]] [| m r] IH]; intros H N; [congruence | |].
  - inv H. cbn. now apply MOne.
  - inv H. cbn [map join fst snd]. apply MMore; [assumption|]. apply IH; [assumption | discriminate].
Qed.

Lemma elements_join es : Forall (fun e => jtext (fst e) (snd e)) es -> es <> [] ->
  jelements (join (lit ",") (map fst es)) (map snd es).
Proof.
  induction es as [| [s v] [| e r] IH]; intros H N; [congruence | |].
  - inv H. cbn. now apply EOne.
  - inv H. cbn [map join fst snd]. apply EMore; [assumption|]. apply IH; [assumption | discriminate].
Qed.

Definition clean_key (s : list Z) : Prop := Forall (fun c => (48 <= c <= 57)%Z \/ (97 <= c <= 122)%Z \/ c = 95%Z) s.
Lemma key_string s : clean_key s -> jstring (quote s) s.
Proof.
  intros H. exists s. split; [reflexivity|]. induction H as [| c r Hc Hr IH]; [constructor|].
  apply JCPlain; [unfold is_scalar; lia | lia | lia | lia | assumption].
Qed.
Definition clean_keyb (s : list Z) : bool := forallb (fun c => ((48 <=? c) && (c <=? 57) || (97 <=? c) && (c <=? 122) || (c =? 95))%Z) s.
Lemma clean_keyb_spec s : clean_keyb s = true -> clean_key s.
Proof. intros H. unfold clean_keyb in H. rewrite forallb_forall in H. apply Forall_forall. intros c Hc. specialize (H c Hc). cbn beta in H. lia. Qed.
Ltac key := apply key_string, clean_keyb_spec; vm_compute; reflexivity.

Lemma bool_value b : jvalue (bool_lit b) (JBool b).
Proof. destruct b; constructor. Qed.

Lemma segment_json_value s : scalars (sg_text s) -> style_scalars (sg_style s) -> exists v, segment_value s v /\ jvalue (segment_json s) v.
Proof.
  intros Ht [Hc Hb]. eexists. split; [exists (dec (sg_start s)), (dec (sg_end s)); split; [apply dec_decimal | split; [apply dec_decimal | reflexivity]]|].
  set (style := sg_style s) in *.
  assert (Hspan : jvalue (lit "{" ++ (join (lit ",") (map fst [(quote (lit "start") ++ lit ":" ++ dec (sg_start s), (lit "start", JNumber (dec (sg_start s))));
      (quote (lit "end") ++ lit ":" ++ dec (sg_end s), (lit "end", JNumber (dec (sg_end s))))])) ++ lit "}")
      (JObject [(lit "start", JNumber (dec (sg_start s))); (lit "end", JNumber (dec (sg_end s)))])).
  { apply VObject. apply (members_join [(_, (_, _)); (_, (_, _))]); [|discriminate].
    repeat apply Forall_cons; try apply Forall_nil; cbn [fst snd]; apply member_of; try key; apply VNumber; apply dec_decimal. }
  set (members := [(quote (lit "bold") ++ lit ":" ++ bool_lit (st_bold style), (lit "bold", JBool (st_bold style)));
                   (quote (lit "italic") ++ lit ":" ++ bool_lit (st_italic style), (lit "italic", JBool (st_italic style)));
                   (quote (lit "underline") ++ lit ":" ++ bool_lit (st_underline style), (lit "underline", JBool (st_underline style)))] ++
                  (match st_color style with Some c => [(quote (lit "color") ++ lit ":" ++ quote (json_escape c), (lit "color", JString c))] | None => [] end) ++
                  (match st_background style with Some c => [(quote (lit "background_color") ++ lit ":" ++ quote (json_escape c), (lit "background_color", JString c))] | None => [] end)).
  assert (Hstyle : jvalue (lit "{" ++ join (lit ",") (map fst members) ++ lit "}") (JObject (map snd members))).
  { apply VObject. apply members_join; [|discriminate]. unfold members. apply Forall_app. split; [|apply Forall_app; split].
    - repeat apply Forall_cons; try apply Forall_nil; cbn [fst snd]; apply member_of; try key; apply bool_value.
    - destruct (st_color style) as [c|]; [|constructor]. constructor; [|constructor]. cbn [fst snd]. apply member_of; [key|].
      apply VString. apply quote_string. now apply Hc.
    - destruct (st_background style) as [c|]; [|constructor]. constructor; [|constructor]. cbn [fst snd]. apply member_of; [key|].
      apply VString. apply quote_string. now apply Hb. }
  assert (Hall : jvalue (lit "{" ++ join (lit ",") (map fst [
      (quote (lit "span") ++ lit ":" ++ (lit "{" ++ (join (lit ",") (map fst [(quote (lit "start") ++ lit ":" ++ dec (sg_start s), (lit "start", JNumber (dec (sg_start s))));
        (quote (lit "end") ++ lit ":" ++ dec (sg_end s), (lit "end", JNumber (dec (sg_end s))))])) ++ lit "}"),
       (lit "span", JObject [(lit "start", JNumber (dec (sg_start s))); (lit "end", JNumber (dec (sg_end s)))]));
      (quote (lit "style") ++ lit ":" ++ (lit "{" ++ join (lit ",") (map fst members) ++ lit "}"), (lit "style", JObject (map snd members)));
      (quote (lit "text") ++ lit ":" ++ quote (json_escape (sg_text s)), (lit "text", JString (sg_text s)))]) ++ lit "}")
    (JObject [(lit "span", JObject [(lit "start", JNumber (dec (sg_start s))); (lit "end", JNumber (dec (sg_end s)))]);
              (lit "style", JObject (map snd members)); (lit "text", JString (sg_text s))])).
  { apply VObject. apply (members_join [(_, (_, _)); (_, (_, _)); (_, (_, _))]); [|discriminate].
    repeat apply Forall_cons; try apply Forall_nil; cbn [fst snd]; (apply member_of; [key|]); [exact Hspan | exact Hstyle | apply VString; now apply quote_string]. }
  assert (Hm : map snd members = [(lit "bold", JBool (st_bold style)); (lit "italic", JBool (st_italic style)); (lit "underline", JBool (st_underline style))] ++
    optional (lit "color") (st_color style) ++ optional (lit "background_color") (st_background style)).
  { unfold members. rewrite !map_app. destruct (st_color style), (st_background style); reflexivity. }
  rewrite Hm in Hall.
  match goal with |- jvalue ?a _ => match type of Hall with jvalue ?b _ => assert (Eq : a = b) end end; [|rewrite Eq; exact Hall].
  unfold segment_json. fold style.
  assert (Hf : map fst members = [quote (lit "bold") ++ lit ":" ++ bool_lit (st_bold style);
      quote (lit "italic") ++ lit ":" ++ bool_lit (st_italic style);
      quote (lit "underline") ++ lit ":" ++ bool_lit (st_underline style)] ++
     (match st_color style with Some c => [quote (lit "color") ++ lit ":" ++ quote (json_escape c)] | None => [] end) ++
     (match st_background style with Some c => [quote (lit "background_color") ++ lit ":" ++ quote (json_escape c)] | None => [] end)).
  { unfold members. rewrite !map_app. destruct (st_color style), (st_background style); reflexivity. }
  rewrite Hf. clear. cbn [map fst]. generalize ([quote (lit "bold") ++ lit ":" ++ bool_lit (st_bold style);
      quote (lit "italic") ++ lit ":" ++ bool_lit (st_italic style);
      quote (lit "underline") ++ lit ":" ++ bool_lit (st_underline style)] ++
     (match st_color style with Some c => [quote (lit "color") ++ lit ":" ++ quote (json_escape c)] | None => [] end) ++
     (match st_background style with Some c => [quote (lit "background_color") ++ lit ":" ++ quote (json_escape c)] | None => [] end)).
  intros l. generalize (join (lit ",") l) (dec (sg_start s)) (dec (sg_end s)) (json_escape (sg_text s)). intros a b c d. cbn [join].
  unfold quote. rewrite <- !app_assoc. cbn [lit app]. repeat (rewrite <- !app_assoc; cbn [app]). reflexivity.
Qed.

Lemma export_json_value segments source : scalars source ->
  Forall (fun s => scalars (sg_text s) /\ style_scalars (sg_style s)) segments ->
  exists vs, Forall2 segment_value segments vs /\
    jvalue (export_json segments source) (JObject [(lit "segments", JArray vs); (lit "source", JString source)]).
Proof.
  intros Hs Hf.
  assert (G : exists vs, Forall2 segment_value segments vs /\ Forall2 jvalue (map segment_json segments) vs).
  { induction Hf as [| s r [H1 H2] Hr (vs & IH1 & IH2)]; [exists []; split; constructor|].
    destruct (segment_json_value s H1 H2) as (v & G1 & G2). exists (v :: vs). split; constructor; assumption. }
  destruct G as (vs & G1 & G2). exists vs. split; [assumption|].
  assert (Harr : jvalue (lit "[" ++ join (lit ",") (map segment_json segments) ++ lit "]") (JArray vs)).
  { destruct segments as [| s r].
    - inv G1. apply (VArray0 []). constructor.
    - apply VArray. assert (E : exists es, map fst es = map segment_json (s :: r) /\ map snd es = vs /\ Forall (fun e => jtext (fst e) (snd e)) es).
      { clear -G2. revert G2. generalize (map segment_json (s :: r)). intros l. revert vs. induction l as [| a l IH]; intros vs H; inv H.
        - exists []. repeat split. constructor.
        - destruct (IH _ H4) as (es & E1 & E2 & E3). exists ((a, y) :: es). cbn [map fst snd]. rewrite E1, E2. repeat split.
          constructor; [now apply jtext_of | assumption]. }
      destruct E as (es & E1 & E2 & E3). rewrite <- E1, <- E2. apply elements_join; [assumption|]. intros ->. discriminate. }
  assert (K : jvalue (lit "{" ++ join (lit ",") (map fst [(quote (lit "segments") ++ lit ":" ++ (lit "[" ++ join (lit ",") (map segment_json segments) ++ lit "]"), (lit "segments", JArray vs));
     (quote (lit "source") ++ lit ":" ++ quote (json_escape source), (lit "source", JString source))]) ++ lit "}")
    (JObject [(lit "segments", JArray vs); (lit "source", JString source)])).
  { apply VObject. apply (members_join [(_, (_, _)); (_, (_, _))]); [|discriminate].
    repeat apply Forall_cons; try apply Forall_nil; cbn [fst snd]; (apply member_of; [key|]); [exact Harr | apply VString; now apply quote_string]. }
  match goal with |- jvalue ?a _ => match type of K with jvalue ?b _ => assert (Eq : a = b) end end; [|rewrite Eq; exact K].
  unfold export_json. clear. cbn [map fst join]. generalize (join (lit ",") (map segment_json segments)) (json_escape source). intros a b.
  unfold quote. rewrite <- !app_assoc. cbn [lit app]. repeat (rewrite <- !app_assoc; cbn [app]). reflexivity.
Qed.

(** ** Inline styles can be told apart *)
Definition plain_color (c : option str) : Prop := forall s, c = Some s -> ~ In 59%Z s.

Lemma semi_split a b a' b' : ~ In 59%Z a -> ~ In 59%Z a' -> a ++ 59%Z :: b = a' ++ 59%Z :: b' -> a = a' /\ b = b'.
Proof.
  revert a'. induction a as [| x a IH]; intros [| y a'] N N' E; cbn [app] in E; [injection E as E2 | injection E as E1 E2 | injection E as E1 E2 | injection E as E1 E2].
  - now split.
  - exfalso. apply N'. now left.
  - exfalso. apply N. now left.
  - subst y. destruct (IH a') as [-> ->]; [intros G; apply N; now right | intros G; apply N'; now right | assumption | now split].
Qed.

Lemma join_inj l : forall l', Forall (fun p => ~ In 59%Z p) l -> Forall (fun p => ~ In 59%Z p) l' ->
  l <> [] -> l' <> [] -> join (lit "; ") l = join (lit "; ") l' -> l = l'.
Proof.
  induction l as [| p [| q r] IH]; intros [| p' [| q' r']] F F' N N' E; try congruence.
  - cbn in E. congruence.
  - exfalso. inv F. cbn [join] in E. apply H1. rewrite E. apply in_or_app. right. now left.
  - exfalso. inv F'. cbn [join] in E. apply H1. rewrite <- E. apply in_or_app. right. now left.
  - inv F. inv F'. change (join (lit "; ") (p :: q :: r)) with (p ++ 59%Z :: 32%Z :: join (lit "; ") (q :: r)) in E.
    change (join (lit "; ") (p' :: q' :: r')) with (p' ++ 59%Z :: 32%Z :: join (lit "; ") (q' :: r')) in E.
    apply semi_split in E; [|assumption|assumption]. destruct E as [-> E]. injection E as E. f_equal. apply IH; try assumption; discriminate.
Qed.

Lemma attrs_plain s : plain_color (st_color s) -> plain_color (st_background s) -> Forall (fun p => ~ In 59%Z p) (style_attrs s).
Proof.
  intros Hc Hb. apply Forall_forall. intros p Hp Hi. unfold style_attrs in Hp. rewrite !in_app_iff in Hp.
  destruct Hp as [Hp | [Hp | [Hp | [Hp | Hp]]]].
  - destruct (st_color s) as [c|]; [|contradiction]. destruct Hp as [<- | []]. apply in_app_or in Hi.
    destruct Hi as [Hi | Hi]; [vm_compute in Hi; lia | now apply (Hc c)].
  - destruct (st_background s) as [c|]; [|contradiction]. destruct Hp as [<- | []]. apply in_app_or in Hi.
    destruct Hi as [Hi | Hi]; [vm_compute in Hi; lia | now apply (Hb c)].
  - destruct (st_bold s); [|contradiction]. destruct Hp as [<- | []]. vm_compute in Hi; lia.
  - destruct (st_italic s); [|contradiction]. destruct Hp as [<- | []]. vm_compute in Hi; lia.
  - destruct (st_underline s); [|contradiction]. destruct Hp as [<- | []]. vm_compute in Hi; lia.
Qed.

Lemma attrs_inj s s' : style_attrs s = style_attrs s' -> s = s'.
Proof.
  destruct s as [[c|] [b|] [] [] []], s' as [[c'|] [b'|] [] [] []]; cbn; intros H; try discriminate H; try (injection H; intros); subst; reflexivity.
Qed.

Lemma inline_inj s s' : sg_text s = sg_text s' ->
  plain_color (st_color (sg_style s)) -> plain_color (st_background (sg_style s)) ->
  plain_color (st_color (sg_style s')) -> plain_color (st_background (sg_style s')) ->
  segment_inline s = segment_inline s' -> sg_style s = sg_style s'.
Proof.
  intros Et C B C' B' E. apply attrs_inj. unfold segment_inline in E. rewrite <- Et in E.
  destruct (style_attrs (sg_style s)) as [| a l] eqn:Ea; destruct (style_attrs (sg_style s')) as [| a' l'] eqn:Ea'.
  - reflexivity.
  - apply (f_equal (@length Z)) in E. rewrite !app_length in E. cbn in E. lia.
  - apply (f_equal (@length Z)) in E. rewrite !app_length in E. cbn in E. lia.
  - apply app_inv_head in E. apply app_inv_head in E. rewrite !(app_assoc (join _ _)) in E. rewrite !app_assoc in E.
    apply app_inv_tail in E. apply app_inv_tail in E. apply app_inv_tail in E. apply app_inv_tail in E.
    rewrite <- Ea, <- Ea' in *. apply join_inj; try (now apply attrs_plain); try assumption; congruence.
Qed.
