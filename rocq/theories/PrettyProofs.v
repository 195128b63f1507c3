(** Lemmas about the pretty printer. *)
From Verif Require Import Base Utf8 PrettyModel PrettySpec.

Section DocInd.
  Variable P : doc -> Prop.
  Hypothesis Hnil : P Nil.
  Hypothesis Htext : forall s, P (Text s).
  Hypothesis Hconcat : forall ds, Forall P ds -> P (Concat ds).
  Hypothesis Hgroup : forall d, P d -> P (Group d).
  Hypothesis Hindent : forall d, P d -> P (Indent d).
  Hypothesis Hline : P Line.
  Hypothesis Hsoft : P SoftLine.
  Hypothesis Hspace : P SoftLineSpace.
  Hypothesis Hhard : P HardLine.
  Fixpoint doc_ind' (d : doc) : P d :=
    match d with
    | Nil => Hnil
    | Text s => Htext s
    | Concat ds => Hconcat ds ((fix go ds : Forall P ds :=
        match ds with [] => Forall_nil P | d :: r => Forall_cons d (doc_ind' d) (go r) end) ds)
    | Group d => Hgroup d (doc_ind' d)
    | Indent d => Hindent d (doc_ind' d)
    | Line => Hline
    | SoftLine => Hsoft
    | SoftLineSpace => Hspace
    | HardLine => Hhard
    end.
End DocInd.

Scheme lays_mind := Minimality for lays Sort Prop
  with lays_all_mind := Minimality for lays_all Sort Prop.
Combined Scheme lays_mutind from lays_mind, lays_all_mind.

(** ** Hard breaks *)

Lemma hardb_spec d : hardb d = true <-> has_hard d.
Proof.
  induction d using doc_ind'; simpl; split; intros Hx; try discriminate; try (now inversion Hx); try constructor.
  - apply existsb_exists in Hx. destruct Hx as (d & Hi & Hd). rewrite Forall_forall in H.
    apply hh_concat with d; [assumption|]. now apply H.
  - apply existsb_exists. inversion Hx as [|ds' d Hi Hd| |]; subst. exists d. split; [assumption|].
    rewrite Forall_forall in H. now apply H.
  - tauto.
  - inversion Hx; subst. tauto.
  - tauto.
  - inversion Hx; subst. tauto.
Qed.

Lemma hardb_false d : hardb d = false <-> ~ has_hard d.
Proof. rewrite <- hardb_spec. destruct (hardb d); split; congruence. Qed.

(** ** Width prediction *)

Section CheckWidth.
  Variable cfg : config.
  Notation mx := (max_width cfg).

  Definition check_all : list doc -> nat -> bool * nat :=
    fix go (ds : list doc) (width : nat) : bool * nat :=
      match ds with
      | [] => (false, width)
      | d :: r => let '(b, w) := check_width cfg d width in if b then (true, w) else go r w
      end.

  Lemma check_width_spec d : forall w,
    (fst (check_width cfg d w) = false <-> fits mx w d) /\
    (fst (check_width cfg d w) = false -> snd (check_width cfg d w) = w + length (flat d)).
  Proof.
    induction d using doc_ind'; intros w.
    1,2,6,7,8,9: cbn [check_width]; unfold fits; cbn [flat length];
      destruct (mx <? w) eqn:E; cbn [fst snd]; (split; [split; intros Hx|intros Hx]);
      try discriminate Hx; try lia; try (split; [intros Hh; inversion Hh|lia]);
      try (destruct Hx as (Hh & Hl); lia); try (destruct Hx as (Hh & Hl); exfalso; apply Hh; constructor).
    2,3: cbn [check_width]; unfold fits; cbn [flat]; destruct (mx <? w) eqn:E; cbn [fst snd];
      [split; [split; [discriminate|intros (Hh & Hl); lia]|discriminate]|];
      destruct (IHd w) as (H1 & H2); split; [|exact H2];
      rewrite H1; unfold fits; rewrite <- !hardb_false; reflexivity.
    cbn [check_width]. destruct (mx <? w) eqn:E; cbn [fst snd].
    { split; [split; [discriminate|intros (Hh & Hl); lia]|discriminate]. }
    fold check_all.
    assert (Hall : forall ds w, Forall (fun d => forall w, (fst (check_width cfg d w) = false <-> fits mx w d) /\
        (fst (check_width cfg d w) = false -> snd (check_width cfg d w) = w + length (flat d))) ds ->
      w <= mx ->
      (fst (check_all ds w) = false <-> fits mx w (Concat ds)) /\
      (fst (check_all ds w) = false -> snd (check_all ds w) = w + length (flat (Concat ds)))).
    { clear. induction ds as [|d ds IH]; intros w HF Hw.
      - cbn. unfold fits. cbn. split; [|lia]. split; [|reflexivity]. intros _. split; [|lia].
        intros Hh. inversion Hh. contradiction.
      - inversion HF as [|? ? Hd HF']; subst. cbn [check_all]. destruct (Hd w) as (H1 & H2).
        destruct (check_width cfg d w) as [b w'] eqn:Ec. cbn [fst snd] in *.
        unfold fits in *. rewrite <- !hardb_false in *. cbn [hardb existsb flat flat_map] in *. rewrite app_length in *.
        destruct b; cbn [fst snd].
        + split; [|discriminate]. split; [discriminate|]. intros (Hh & Hl). apply orb_false_iff in Hh.
          apply H1. split; [tauto|lia].
        + rewrite (H2 eq_refl) in *. assert (Hf := proj1 H1 eq_refl).
          destruct (IH (w + length (flat d)) HF' ltac:(lia)) as (I1 & I2).
          unfold fits in I1. rewrite <- !hardb_false in I1. cbn [hardb flat] in I1, I2.
          split; [|intros Hx; rewrite (I2 Hx); lia].
          rewrite I1. destruct Hf as (Hf1 & Hf2). rewrite Hf1. cbn [orb]. split; intros (A & B); (split; [exact A|lia]). }
    apply Hall; [exact H|lia].
  Qed.

  Lemma will_break_spec p d : will_break cfg p d = false <-> fits mx (column p) d.
  Proof. apply check_width_spec. Qed.

  Lemma will_break_true p d : will_break cfg p d = true <-> ~ fits mx (column p) d.
  Proof. rewrite <- will_break_spec. destruct (will_break cfg p d); split; congruence. Qed.
End CheckWidth.

(** ** Trimming *)

Lemma drop_blanks_spec r : exists h, r = h ++ drop_blanks r /\ Forall blank h /\
  match drop_blanks r with [] => True | c :: _ => ~ blank c end.
Proof.
  induction r as [|c r (h & E & Hh & Ht)]; simpl.
  - exists []. repeat split; constructor.
  - destruct ((c =? 32) || (c =? 9))%Z eqn:Eb.
    + exists (c :: h). split; [simpl; now f_equal|]. split; [|exact Ht]. constructor; [unfold blank; lia|assumption].
    + exists []. split; [reflexivity|]. split; [constructor|]. unfold blank. lia.
Qed.

Lemma trim_end_spec s : rtrimmed s (trim_end_blanks s).
Proof.
  unfold trim_end_blanks. destruct (drop_blanks_spec (rev s)) as (h & E & Hh & Ht).
  exists (rev h). split; [|split].
  - rewrite <- rev_app_distr, <- E. now rewrite rev_involutive.
  - apply Forall_rev. assumption.
  - intros (t' & c & Et & Hb). apply (f_equal (@rev Z)) in Et. rewrite rev_involutive, rev_app_distr in Et. simpl in Et.
    rewrite Et in Ht. tauto.
Qed.

Lemma rtrimmed_unique s t1 t2 : rtrimmed s t1 -> rtrimmed s t2 -> t1 = t2.
Proof.
  intros (h1 & E1 & F1 & N1) (h2 & E2 & F2 & N2).
  assert (Hlt : forall (a b ha hb : str), a ++ ha = b ++ hb -> Forall blank hb ->
            ~ (exists t' c, a = t' ++ [c] /\ blank c) -> length a <= length b).
  { clear. intros a b ha hb E F N. destruct (Nat.le_gt_cases (length a) (length b)) as [|Hgt]; [assumption|].
    exfalso. apply N. destruct a as [|x a] using rev_ind; [simpl in Hgt; lia|]. clear IHa.
    exists a, x. split; [reflexivity|]. rewrite app_length in Hgt. simpl in Hgt.
    assert (Hx : nth_error (b ++ hb) (length a) = Some x).
    { rewrite <- E. rewrite <- app_assoc. rewrite nth_error_app2 by lia. now rewrite Nat.sub_diag. }
    rewrite nth_error_app2 in Hx by lia. rewrite Forall_forall in F. apply F. eapply nth_error_In. exact Hx. }
  assert (length t1 = length t2).
  { apply Nat.le_antisymm; [apply (Hlt t1 t2 h1 h2)|apply (Hlt t2 t1 h2 h1)]; congruence. }
  destruct (app_inj_length _ t1 h1 t2 h2) as (? & _); congruence.
Qed.

Lemma rtrim_ending a e s t : (exists e', e = e' ++ [10%Z]) -> rtrimmed s t -> rtrimmed (a ++ e ++ s) (a ++ e ++ t).
Proof.
  intros (e' & He) (h & E & F & N). exists h. split; [|split].
  - rewrite E. now rewrite !app_assoc.
  - assumption.
  - intros (t' & c & Et & Hb). destruct t as [|x t] using rev_ind.
    + rewrite app_nil_r in Et. rewrite He in Et. rewrite app_assoc in Et. apply app_inj_tail in Et. destruct Et as (_ & <-).
      unfold blank in Hb. lia.
    + clear IHt. rewrite !app_assoc in Et. apply app_inj_tail in Et. destruct Et as (_ & <-). apply N. now exists t, x.
Qed.

Lemma trim_end_ending a e s : (exists e', e = e' ++ [10%Z]) -> trim_end_blanks (a ++ e ++ s) = a ++ e ++ trim_end_blanks s.
Proof.
  intros He. apply rtrimmed_unique with (a ++ e ++ s); [apply trim_end_spec|]. apply rtrim_ending; [assumption|apply trim_end_spec].
Qed.

Lemma ending_lf cfg : exists e', line_ending_string cfg = e' ++ [10%Z].
Proof. unfold line_ending_string. destruct (line_end cfg); [now exists []|now exists [13%Z]|now exists []]. Qed.

(** ** Output *)

Section Output.
  Variable cfg : config.
  Notation ind := (indent_text cfg).
  Notation ending := (line_ending_string cfg).

  Definition trimf (s : str) : str := if trim_trailing_whitespace cfg then trim_end_blanks s else s.

  (** All lines trimmed except the last, which is still being written. *)
  Fixpoint open_lines (ls : list str) : str :=
    match ls with [] => [] | [l] => l | l :: r => trimf l ++ ending ++ open_lines r end.

  Lemma write_indent_spec n out : write_indent cfg n out = out ++ concat (repeat ind n).
  Proof.
    revert out. induction n as [|n IH]; intros out; simpl; [now rewrite app_nil_r|].
    rewrite IH. now rewrite app_assoc.
  Qed.

  Lemma lines_of_ne ps : forall cur, lines_of ind cur ps <> [].
  Proof. induction ps as [|[s| |n] ps IH]; intros cur; simpl; try discriminate; apply IH. Qed.

  Lemma lines_of_app ps1 : forall cur ps2, exists done cur', lines_of ind cur ps1 = done ++ [cur'] /\
    lines_of ind cur (ps1 ++ ps2) = done ++ lines_of ind cur' ps2.
  Proof.
    induction ps1 as [|[s| |n] ps1 IH]; intros cur ps2; simpl.
    - exists [], cur. split; reflexivity.
    - apply IH.
    - apply IH.
    - destruct (IH (concat (repeat ind n)) ps2) as (dn & c' & E1 & E2). exists (cur :: dn), c'. rewrite E1, E2. split; reflexivity.
  Qed.

  Lemma open_lines_snoc dn c : open_lines (dn ++ [c]) = flat_map (fun l => trimf l ++ ending) dn ++ c.
  Proof.
    induction dn as [|l dn IH]; [reflexivity|]. cbn [app flat_map]. rewrite <- !app_assoc, <- IH.
    destruct (dn ++ [c]) eqn:E; [destruct dn; discriminate|]. reflexivity.
  Qed.

  Lemma trimf_open dn c : trimf (flat_map (fun l => trimf l ++ ending) dn ++ c) =
    flat_map (fun l => trimf l ++ ending) dn ++ trimf c.
  Proof.
    unfold trimf. destruct (trim_trailing_whitespace cfg) eqn:Et; [|reflexivity].
    destruct dn as [|l dn] using rev_ind; [reflexivity|]. clear IHdn.
    rewrite flat_map_app. cbn [flat_map]. rewrite app_nil_r, <- !app_assoc.
    rewrite (app_assoc (flat_map _ _)).
    rewrite trim_end_ending by apply ending_lf. now rewrite <- !app_assoc.
  Qed.

  (** The printer's output is the open lines of the pieces so far. *)
  Definition shows (ps : list piece) (p : printer) : Prop := output p = open_lines (lines_of ind [] ps).

  Lemma shows_break ps p : shows ps p ->
    shows (ps ++ [PBreak (indent_level p)]) (newline cfg p).
  Proof.
    unfold shows, newline. intros H. cbn [output]. rewrite write_indent_spec.
    destruct (lines_of_app ps [] [PBreak (indent_level p)]) as (dn & c & E1 & E2). rewrite E2. cbn [lines_of].
    rewrite H, E1. fold (trimf (open_lines (dn ++ [c]))). rewrite open_lines_snoc, trimf_open.
    change (dn ++ [c; concat (repeat ind (indent_level p))]) with (dn ++ [c] ++ [concat (repeat ind (indent_level p))]).
    rewrite app_assoc, open_lines_snoc, flat_map_app. cbn [flat_map]. now rewrite app_nil_r, <- !app_assoc.
  Qed.

  Lemma shows_text ps p s n k : shows ps p -> shows (ps ++ [PText s]) (Printer (output p ++ s) n k).
  Proof.
    unfold shows. intros H. cbn [output]. destruct (lines_of_app ps [] [PText s]) as (dn & c & E1 & E2). rewrite E2. cbn [lines_of].
    rewrite H, E1, !open_lines_snoc. now rewrite app_assoc.
  Qed.

  Lemma shows_space ps p : shows ps p -> shows (ps ++ [PSpace]) (space p).
  Proof.
    unfold shows, space. intros H. cbn [output]. destruct (lines_of_app ps [] [PSpace]) as (dn & c & E1 & E2). rewrite E2. cbn [lines_of].
    rewrite H, E1, !open_lines_snoc. now rewrite app_assoc.
  Qed.

  Definition render_all (b : bool) : list doc -> printer -> printer :=
    fix go (ds : list doc) (p : printer) : printer :=
      match ds with [] => p | d :: r => go r (render cfg d b p) end.

  Lemma render_spec d : forall b p ps0, shows ps0 p -> exists ps,
    lays (max_width cfg) (indent_size cfg) (indent_level p) b (column p) d ps (column (render cfg d b p)) /\
    indent_level (render cfg d b p) = indent_level p /\
    shows (ps0 ++ ps) (render cfg d b p).
  Proof.
    induction d using doc_ind'; intros b p ps0 Hs; cbn [render].
    - exists []. split; [constructor|]. split; [reflexivity|]. now rewrite app_nil_r.
    - exists [PText s]. split; [constructor|]. split; [reflexivity|]. now apply shows_text.
    - fold (render_all b).
      cut (exists ps, lays_all (max_width cfg) (indent_size cfg) (indent_level p) b (column p) ds ps (column (render_all b ds p)) /\
         indent_level (render_all b ds p) = indent_level p /\ shows (ps0 ++ ps) (render_all b ds p)).
      { intros (ps & Hl & Hr). exists ps. split; [now constructor|assumption]. }
      revert p ps0 Hs. induction ds as [|d ds IHds]; intros p ps0 Hs; cbn [render_all].
      + exists []. split; [constructor|]. split; [reflexivity|]. now rewrite app_nil_r.
      + inversion H as [|? ? Hd HF]; subst. destruct (Hd b p ps0 Hs) as (ps1 & L1 & V1 & S1).
        destruct (IHds HF _ _ S1) as (ps2 & L2 & V2 & S2).
        exists (ps1 ++ ps2). split; [|split].
        * eapply la_cons; [exact L1|]. rewrite V1 in L2. exact L2.
        * congruence.
        * now rewrite app_assoc.
    - destruct (IHd (will_break cfg p d) p ps0 Hs) as (ps & L & V & S1). exists ps. split; [|split; assumption].
      destruct (will_break cfg p d) eqn:E.
      + apply ly_group_breaks; [now apply will_break_true|exact L].
      + apply ly_group_fits; [now apply will_break_spec|exact L].
    - rewrite Nat.add_1_r. destruct (IHd b (Printer (output p) (S (indent_level p)) (column p)) ps0 Hs) as (ps & L & V & S1).
      cbn [indent_level column] in L, V.
      exists ps. cbn [indent_level column]. rewrite V. split; [now apply ly_indent|]. split; [lia|]. exact S1.
    - destruct b; eexists; (split; [|split; [reflexivity|]]);
        [apply ly_break; tauto|now apply shows_break|apply ly_space; tauto|now apply shows_space].
    - destruct b; eexists; (split; [|split; [reflexivity|]]);
        [apply ly_break; tauto|now apply shows_break|apply ly_nothing|now rewrite app_nil_r].
    - destruct b; eexists; (split; [|split; [reflexivity|]]);
        [apply ly_break; tauto|now apply shows_break|apply ly_space; tauto|now apply shows_space].
    - eexists; (split; [|split; [reflexivity|]]); [apply ly_hard|now apply shows_break].
  Qed.

  Lemma joined_open dn c : joined ending (map trimf (dn ++ [c])) = flat_map (fun l => trimf l ++ ending) dn ++ trimf c.
  Proof.
    induction dn as [|l dn IH]; [reflexivity|]. cbn [app map flat_map]. rewrite <- !app_assoc, <- IH.
    cbn [joined]. destruct (map trimf (dn ++ [c])) eqn:E; [destruct dn; discriminate|]. reflexivity.
  Qed.

  Definition finish (s : str) : str :=
    if insert_final_newline cfg && negb (is_empty s) && negb (ends_with_lf s) then s ++ ending else s.

  Lemma print_spec d : exists ps c', lays (max_width cfg) (indent_size cfg) 0 false 0 d ps c' /\
    print cfg d = finish (joined ending (map trimf (lines_of ind [] ps))).
  Proof.
    destruct (render_spec d false (Printer [] 0 0) [] eq_refl) as (ps & L & _ & S1).
    exists ps, (column (render cfg d false (Printer [] 0 0))). split; [exact L|].
    unfold print, finalize. fold (trimf (output (render cfg d false (Printer [] 0 0)))).
    unfold finish. unfold shows in S1. rewrite S1. cbn [app].
    destruct (lines_of_app ps [] []) as (dn & c & E1 & _). rewrite E1, open_lines_snoc, trimf_open, joined_open. reflexivity.
  Qed.
End Output.

(** The layout is unique. *)
Lemma lays_det max isz :
  (forall n b c d ps c', lays max isz n b c d ps c' -> forall ps2 c2, lays max isz n b c d ps2 c2 -> ps2 = ps /\ c2 = c') /\
  (forall n b c ds ps c', lays_all max isz n b c ds ps c' -> forall ps2 c2, lays_all max isz n b c ds ps2 c2 -> ps2 = ps /\ c2 = c').
Proof.
  Ltac lines H := first [destruct H as [H|H]|idtac]; try destruct H as [H|H]; try discriminate H; subst.
  Ltac leaf := match goal with H : lays _ _ _ _ _ _ _ _ |- _ => inversion H; subst; clear H end;
    repeat match goal with H : _ \/ _ |- _ => destruct H | H : @eq doc _ _ |- _ => discriminate H end;
    try (split; reflexivity).
  apply lays_mutind; intros; repeat match goal with H : _ \/ _ |- _ => destruct H end; subst;
    try (leaf; fail).
  - leaf. now apply H0.
  - leaf; [now apply H1|contradiction].
  - leaf; [contradiction|now apply H1].
  - leaf. now apply H0.
  - inversion H; subst. split; reflexivity.
  - inversion H3; subst. destruct (H0 _ _ H9) as (-> & ->). destruct (H2 _ _ H12) as (-> & ->). split; reflexivity.
Qed.

(** ** Consequences for layouts *)

Lemma lays_texts max isz :
  (forall n b c d ps c', lays max isz n b c d ps c' ->
     texts d = flat_map (fun p => match p with PText s => [s] | _ => [] end) ps) /\
  (forall n b c ds ps c', lays_all max isz n b c ds ps c' ->
     flat_map texts ds = flat_map (fun p => match p with PText s => [s] | _ => [] end) ps).
Proof.
  apply lays_mutind; intros; repeat match goal with H : _ \/ _ |- _ => destruct H end; subst; cbn [texts flat_map]; try reflexivity; try assumption.
  rewrite flat_map_app. congruence.
Qed.

Lemma lays_forced max isz :
  (forall n b c d ps c', lays max isz n b c d ps c' -> forced d + (if b then soft_lines d else 0) <= breaks ps) /\
  (forall n b c ds ps c', lays_all max isz n b c ds ps c' ->
     list_sum (map forced ds) + (if b then list_sum (map soft_lines ds) else 0) <= breaks ps).
Proof.
  unfold breaks.
  apply lays_mutind; intros; repeat match goal with H : _ \/ _ |- _ => destruct H end; subst;
    cbn [forced soft_lines filter length map]; try assumption; try (destruct b; cbn; lia); try (cbn; lia).
  - destruct H as (Hh & _). rewrite <- hardb_false in Hh. rewrite Hh. destruct b; lia.
  - destruct (hardb d), b; lia.
  - rewrite filter_app, app_length. cbn [list_sum fold_right]. fold (list_sum (map forced ds)).
    fold (list_sum (map soft_lines ds)). destruct b; lia.
Qed.

(** The pieces of one line. *)
Definition flat_piece (p : piece) : str := match p with PText s => s | PSpace => [32%Z] | PBreak _ => [] end.

Lemma lays_flat max isz :
  (forall n b c d ps c', lays max isz n b c d ps c' -> b = false -> fits max c d ->
     breaks ps = 0 /\ flat_map flat_piece ps = flat d /\ c' = c + length (flat d)) /\
  (forall n b c ds ps c', lays_all max isz n b c ds ps c' -> b = false -> fits max c (Concat ds) ->
     breaks ps = 0 /\ flat_map flat_piece ps = flat (Concat ds) /\ c' = c + length (flat (Concat ds))).
Proof.
  unfold fits.
  apply lays_mutind; intros; repeat match goal with H : _ \/ _ |- _ => destruct H end; subst; try discriminate;
    cbn [flat flat_map flat_piece length app] in *; rewrite ?app_nil_r; try (now (repeat split; cbn; lia)).
  - apply H0; [reflexivity|assumption].
  - apply H1; [reflexivity|assumption].
  - exfalso. apply H. destruct H3 as (Hh & Hl). split; [|assumption]. intros Hx. apply Hh. now constructor.
  - apply H0; [reflexivity|]. destruct H2 as (Hh & Hl). split; [|assumption]. intros Hx. apply Hh. now constructor.
  - destruct H0 as (Hh & _). exfalso. apply Hh. constructor.
  - destruct H4 as (Hh & Hl). rewrite app_length in Hl.
    destruct H0 as (B1 & F1 & C1); [reflexivity|split; [|lia]; intros Hx; apply Hh; apply hh_concat with d; [now left|assumption]|].
    destruct H2 as (B2 & F2 & C2); [reflexivity|split; [|lia]|].
    { intros Hx. apply Hh. inversion Hx; subst. apply hh_concat with d0; [now right|assumption]. }
    unfold breaks in *. rewrite filter_app, !app_length, flat_map_app, B1, B2, F1, F2. split; [reflexivity|]. split; [reflexivity|lia].
Qed.

Lemma lays_total max isz d : forall n b c, exists ps c', lays max isz n b c d ps c'.
Proof.
  intros n b c.
  assert (Hg : exists ps c', lays max isz n b c d ps c').
  2: exact Hg.
  revert n b c. induction d using doc_ind'; intros n b c.
  - do 2 eexists. constructor.
  - do 2 eexists. constructor.
  - cut (exists ps c', lays_all max isz n b c ds ps c').
    { intros (ps & c' & Hl). exists ps, c'. now constructor. }
    revert c. induction ds as [|d ds IH]; intros c; [do 2 eexists; constructor|].
    inversion H as [|? ? Hd HF]; subst. destruct (Hd n b c) as (ps1 & c1 & L1). destruct (IH HF c1) as (ps2 & c2 & L2).
    do 2 eexists. eapply la_cons; eassumption.
  - assert (Hdec : fits max c d \/ ~ fits max c d).
    { unfold fits. rewrite <- hardb_false. destruct (hardb d); [right; intros (? & ?); discriminate|].
      destruct (Nat.le_gt_cases (c + length (flat d)) max); [left; auto|right; lia]. }
    destruct Hdec.
    + destruct (IHd n false c) as (ps & c' & L). do 2 eexists. eapply ly_group_fits; eassumption.
    + destruct (IHd n true c) as (ps & c' & L). do 2 eexists. eapply ly_group_breaks; eassumption.
  - destruct (IHd (S n) b c) as (ps & c' & L). do 2 eexists. eapply ly_indent; eassumption.
  - destruct b; do 2 eexists; [apply ly_break|apply ly_space]; tauto.
  - destruct b; do 2 eexists; [apply ly_break; tauto|apply ly_nothing].
  - destruct b; do 2 eexists; [apply ly_break|apply ly_space]; tauto.
  - do 2 eexists. apply ly_hard.
Qed.

(** ** Lines *)

Lemma trimf_rtrimmed cfg s : trim_trailing_whitespace cfg = true -> rtrimmed s (trimf cfg s).
Proof. intros E. unfold trimf. rewrite E. apply trim_end_spec. Qed.

Lemma joined_cons e l r : r <> [] -> joined e (l :: r) = l ++ e ++ joined e r.
Proof. destruct r; [congruence|reflexivity]. Qed.

Lemma woven_gap ind e g ts o : gap ind e g -> woven ind e ts o -> woven ind e ts (g ++ o).
Proof.
  assert (Happ : forall a b, gap ind e a -> gap ind e b -> gap ind e (a ++ b)).
  { intros a b Ha Hb. induction Hb; rewrite ?app_nil_r, ?app_assoc; [assumption|constructor; assumption ..]. }
  intros Hg Ho. destruct Ho as [g' Hg'|t ts g' o Hg' Ho].
  - constructor. now apply Happ.
  - rewrite app_assoc. constructor; [now apply Happ|assumption].
Qed.

Lemma gap1_space ind e : gap ind e [32%Z].
Proof. apply (gap_space ind e []). constructor. Qed.
Lemma gap1_end ind e : gap ind e e.
Proof. apply (gap_end ind e []). constructor. Qed.
Lemma gap_indents ind e n : gap ind e (concat (repeat ind n)).
Proof.
  assert (forall g, gap ind e g -> gap ind e (g ++ concat (repeat ind n))).
  { induction n as [|n IH]; intros g Hg; simpl; [now rewrite app_nil_r|]. rewrite app_assoc. apply IH. now constructor. }
  apply (H []). constructor.
Qed.

Lemma woven_tail ind e ts o g : woven ind e ts o -> gap ind e g -> woven ind e ts (o ++ g).
Proof.
  intros Ho Hg. induction Ho as [g' Hg'|t ts g' o Hg' Ho IH].
  - rewrite <- (app_nil_r (g' ++ g)), <- app_assoc. apply woven_gap; [assumption|].
    rewrite app_nil_r. now constructor.
  - rewrite <- !app_assoc. constructor; [assumption|]. exact IH.
Qed.

Lemma lines_woven ind e ps : forall cur,
  exists rest, joined e (lines_of ind cur ps) = cur ++ rest /\
    woven ind e (flat_map (fun p => match p with PText s => [s] | _ => [] end) ps) rest.
Proof.
  induction ps as [|[s| |n] ps IH]; intros cur; cbn [lines_of flat_map app].
  - exists []. split; [simpl; now rewrite app_nil_r|]. constructor. constructor.
  - destruct (IH (cur ++ s)) as (r & E & W). exists (s ++ r). split; [now rewrite E, app_assoc|].
    apply (wv_cons ind e s _ [] r); [constructor|assumption].
  - destruct (IH (cur ++ [32%Z])) as (r & E & W). exists ([32%Z] ++ r). split; [now rewrite E, app_assoc|].
    apply woven_gap; [apply gap1_space|assumption].
  - destruct (IH (concat (repeat ind n))) as (r & E & W). rewrite joined_cons.
    + exists (e ++ concat (repeat ind n) ++ r). split; [now rewrite E|].
      apply woven_gap; [apply gap1_end|]. apply woven_gap; [apply gap_indents|assumption].
    + clear. generalize (concat (repeat ind n)). induction ps as [|[s| |m] ps IH]; intros cur; simpl; try discriminate; apply IH.
Qed.

Lemma ink_app a b : ink (a ++ b) = ink a ++ ink b.
Proof. apply filter_app. Qed.

Lemma ink_blank s : Forall blank s -> ink s = [].
Proof.
  induction 1 as [|c s Hc Hs IH]; [reflexivity|]. unfold ink in *. cbn [filter].
  destruct Hc as [-> | ->]; exact IH.
Qed.

Lemma ink_ending cfg : ink (line_ending_string cfg) = [].
Proof. unfold line_ending_string. destruct (line_end cfg); reflexivity. Qed.

Lemma ink_trimf cfg s : ink (trimf cfg s) = ink s.
Proof.
  unfold trimf. destruct (trim_trailing_whitespace cfg); [|reflexivity].
  destruct (trim_end_spec s) as (h & E & F & _). rewrite E at 2. now rewrite ink_app, (ink_blank h F), app_nil_r.
Qed.

Lemma ink_finish cfg s : ink (finish cfg s) = ink s.
Proof. unfold finish. destruct (_ && _); [|reflexivity]. now rewrite ink_app, ink_ending, app_nil_r. Qed.

Lemma ink_lines cfg ps : ink (indent_text cfg) = [] -> forall cur,
  ink (joined (line_ending_string cfg) (map (trimf cfg) (lines_of (indent_text cfg) cur ps))) =
  ink cur ++ ink (concat (flat_map (fun p => match p with PText s => [s] | _ => [] end) ps)).
Proof.
  intros Hi. induction ps as [|[s| |n] ps IH]; intros cur; cbn [lines_of flat_map app concat].
  - cbn. now rewrite ink_trimf, app_nil_r.
  - rewrite IH, !ink_app. now rewrite app_assoc.
  - rewrite IH, ink_app. cbn. now rewrite app_nil_r.
  - cbn [map]. rewrite joined_cons.
    + rewrite !ink_app, ink_trimf, ink_ending, IH. cbn [app]. f_equal.
      replace (ink (concat (repeat (indent_text cfg) n))) with (@nil Z); [reflexivity|].
      induction n as [|n IHn]; [reflexivity|]. simpl. now rewrite ink_app, Hi, <- IHn.
    + destruct (lines_of (indent_text cfg) (concat (repeat (indent_text cfg) n)) ps) eqn:E; [now apply lines_of_ne in E|discriminate].
Qed.

Lemma lf_app a b : lf_count (a ++ b) = lf_count a + lf_count b.
Proof. unfold lf_count. induction a as [|c a IH]; [reflexivity|]. cbn [app count_occ]. destruct (Z.eq_dec c 10); lia. Qed.

Lemma lf_ending cfg : lf_count (line_ending_string cfg) = 1.
Proof. unfold line_ending_string. destruct (line_end cfg); reflexivity. Qed.

Lemma lf_lines cfg ps : forall cur,
  breaks ps <= lf_count (joined (line_ending_string cfg) (map (trimf cfg) (lines_of (indent_text cfg) cur ps))).
Proof.
  unfold breaks. induction ps as [|[s| |n] ps IH]; intros cur; cbn [lines_of filter].
  - simpl. lia.
  - apply IH.
  - apply IH.
  - cbn [map]. rewrite joined_cons.
    + rewrite !lf_app, lf_ending. cbn [length]. specialize (IH (concat (repeat (indent_text cfg) n))). lia.
    + destruct (lines_of (indent_text cfg) (concat (repeat (indent_text cfg) n)) ps) eqn:E; [now apply lines_of_ne in E|discriminate].
Qed.

Lemma lf_finish cfg s : lf_count s <= lf_count (finish cfg s).
Proof. unfold finish. destruct (_ && _); [|lia]. rewrite lf_app. lia. Qed.

Lemma lines_single ind ps : breaks ps = 0 -> forall cur, lines_of ind cur ps = [cur ++ flat_map flat_piece ps].
Proof.
  unfold breaks. induction ps as [|[s| |n] ps IH]; intros Hb cur; cbn [lines_of flat_map flat_piece filter] in *.
  - now rewrite app_nil_r.
  - rewrite IH by assumption. now rewrite app_assoc.
  - rewrite IH by assumption. now rewrite app_assoc.
  - discriminate.
Qed.

(** The last line has the length of the column, if the indentation text is as wide as declared. *)
Lemma lays_column max isz (ind : str) : length ind = isz ->
  (forall n b c d ps c', lays max isz n b c d ps c' ->
     forall cur, length cur = c -> exists dn cur', lines_of ind cur ps = dn ++ [cur'] /\ length cur' = c') /\
  (forall n b c ds ps c', lays_all max isz n b c ds ps c' ->
     forall cur, length cur = c -> exists dn cur', lines_of ind cur ps = dn ++ [cur'] /\ length cur' = c').
Proof.
  intros Hi.
  assert (Hrep : forall n, length (concat (repeat ind n)) = n * isz).
  { induction n; simpl; [reflexivity|]. rewrite app_length. lia. }
  apply lays_mutind; intros; repeat match goal with H : _ \/ _ |- _ => destruct H end; subst; cbn [lines_of];
    try (match goal with |- exists a b, [?x] = _ /\ _ => exists [], x end; rewrite ?app_length; simpl; auto; fail);
    try (match goal with |- exists a b, [?x; ?y] = _ /\ _ => exists [x], y end; auto; fail); auto.
  destruct (H0 cur eq_refl) as (d1 & c1' & E1 & L1).
  destruct (lines_of_app (Config ind Unix 0 false false 0) ps1 cur ps2) as (d2 & c2' & E2 & E3). cbn [indent_text] in *.
  rewrite E1 in E2. apply app_inj_tail in E2. destruct E2 as (-> & ->).
  destruct (H2 c2' L1) as (d3 & c3 & E4 & L4). exists (d2 ++ d3), c3. rewrite E3, E4, app_assoc. auto.
Qed.

Lemma joined_last e a l : exists p, joined e (a ++ [l]) = p ++ l /\ (p = [] \/ exists q, p = q ++ e).
Proof.
  induction a as [|x a (p & IH & Hp)]; [exists []; auto|]. cbn [app]. rewrite joined_cons by (destruct a; discriminate).
  rewrite IH. exists (x ++ e ++ p). split; [now rewrite <- !app_assoc|]. right.
  destruct Hp as [-> |(q & ->)]; [exists x; now rewrite app_nil_r|exists (x ++ e ++ q); now rewrite <- !app_assoc].
Qed.

(** ** Blanks before line endings *)

Definition no_blank_end (s : str) : Prop := ~ exists t c, s = t ++ [c] /\ blank c.

Lemma no_blank_end_app a s : no_blank_end s -> (s = [] -> no_blank_end a) -> no_blank_end (a ++ s).
Proof.
  intros Hs Ha. destruct s as [|x s] using rev_ind; [rewrite app_nil_r; auto|]. clear IHs.
  intros (t & c & E & Hb). rewrite app_assoc in E. apply app_inj_tail in E. destruct E as (_ & <-). apply Hs. now exists s, x.
Qed.

Lemma no_blank_end_ending cfg : no_blank_end (line_ending_string cfg).
Proof.
  destruct (ending_lf cfg) as (e' & E). rewrite E. intros (t & c & Ht & Hb). apply app_inj_tail in Ht.
  destruct Ht as (_ & <-). unfold blank in Hb. lia.
Qed.

Lemma nth_error_lf_plain s i : plain s -> nth_error s i = Some 10%Z -> False.
Proof. intros Hp Hn. apply Hp. eapply nth_error_In. exact Hn. Qed.

Lemma split_at_ending cfg a b l J : plain l -> a ++ line_ending_string cfg ++ b = l ++ line_ending_string cfg ++ J ->
  a = l \/ (exists x, a = l ++ [x] /\ x = 13%Z) \/ exists a', a = l ++ line_ending_string cfg ++ a' /\ J = a' ++ line_ending_string cfg ++ b.
Proof.
  intros Hp E.
  destruct (Nat.lt_trichotomy (length a) (length l)) as [Hlt|[Heq|Hgt]].
  - exfalso. set (e := line_ending_string cfg) in *.
    assert (He : e = [10%Z] \/ e = [13%Z; 10%Z]) by (unfold e, line_ending_string; destruct (line_end cfg); auto).
    destruct He as [He|He]; rewrite He in E.
    + apply (nth_error_lf_plain l (length a) Hp). rewrite <- (nth_error_app1 l ([10%Z] ++ J)) by lia. rewrite <- E.
      rewrite nth_error_app2 by lia. now rewrite Nat.sub_diag.
    + assert (Hn : nth_error (l ++ [13%Z; 10%Z] ++ J) (S (length a)) = Some 10%Z).
      { rewrite <- E. rewrite nth_error_app2 by lia. now replace (S (length a) - length a) with 1 by lia. }
      destruct (Nat.eq_dec (S (length a)) (length l)) as [Hx|Hx].
      * rewrite nth_error_app2 in Hn by lia. rewrite Hx, Nat.sub_diag in Hn. discriminate.
      * rewrite nth_error_app1 in Hn by lia. now apply nth_error_lf_plain in Hn.
  - left. now destruct (app_inj_length _ _ _ _ _ Heq E).
  - right. assert (Ha : a = l ++ skipn (length l) a).
    { rewrite <- (firstn_skipn (length l) a) at 1. f_equal.
      apply (f_equal (firstn (length l))) in E. rewrite firstn_app_le in E by lia. now rewrite firstn_app_exact in E. }
    set (a' := skipn (length l) a) in *. rewrite Ha in E, Hgt |- *. rewrite <- app_assoc in E. apply app_inv_head in E.
    rewrite app_length in Hgt. clear Ha. clearbody a'.
    destruct (Nat.le_gt_cases (length (line_ending_string cfg)) (length a')) as [Hle|Hlt].
    + right. exists (skipn (length (line_ending_string cfg)) a').
      assert (Hb : a' = line_ending_string cfg ++ skipn (length (line_ending_string cfg)) a').
      { rewrite <- (firstn_skipn (length (line_ending_string cfg)) a') at 1. f_equal.
        apply (f_equal (firstn (length (line_ending_string cfg)))) in E. rewrite firstn_app_le in E by lia. now rewrite firstn_app_exact in E. }
      split; [now rewrite <- Hb|]. rewrite Hb, <- !app_assoc in E. apply app_inv_head in E. now rewrite E.
    + left. unfold line_ending_string in *. destruct (line_end cfg); simpl in *; try lia.
      destruct a' as [|x [|y a']]; simpl in *; try lia. injection E as E1 E2. exists x. split; [reflexivity|exact E1].
Qed.

Lemma joined_no_blank cfg ls : Forall plain ls -> Forall no_blank_end ls -> forall a b,
  joined (line_ending_string cfg) ls = a ++ line_ending_string cfg ++ b -> no_blank_end a.
Proof.
  induction ls as [|l ls IH]; intros Hp Hn a b E.
  - exfalso. destruct (ending_lf cfg) as (e' & Ee). rewrite Ee in E. cbn in E. destruct a, e'; discriminate.
  - inversion Hp; inversion Hn; subst. destruct ls as [|l2 ls].
    + exfalso. cbn in E. destruct (ending_lf cfg) as (e' & Ee). rewrite Ee in E. apply H1. rewrite E.
      rewrite !in_app_iff. cbn. tauto.
    + rewrite joined_cons in E by discriminate. symmetry in E. apply split_at_ending in E; [|assumption].
      destruct E as [-> |[(x & -> & ->)|(a' & -> & EJ)]].
      * assumption.
      * intros (t & c & Et & Hb). apply app_inj_tail in Et. destruct Et as (_ & <-). unfold blank in Hb. lia.
      * rewrite app_assoc. apply no_blank_end_app; [eapply IH; eassumption|]. intros ->.
        apply no_blank_end_app; [apply no_blank_end_ending|]. intros He. destruct (ending_lf cfg) as (e' & Ee).
        rewrite Ee in He. destruct e'; discriminate.
Qed.

Lemma joined_end_no_blank cfg ls : Forall no_blank_end ls -> no_blank_end (joined (line_ending_string cfg) ls).
Proof.
  induction ls as [|l ls IH]; intros Hn.
  - intros (t & c & E & _). destruct t; discriminate.
  - inversion Hn; subst. destruct ls as [|l2 ls]; [assumption|].
    rewrite joined_cons by discriminate. rewrite app_assoc. apply no_blank_end_app; [auto|]. intros _.
    apply no_blank_end_app; [apply no_blank_end_ending|]. intros He. destruct (ending_lf cfg) as (e' & Ee).
    rewrite Ee in He. destruct e'; discriminate.
Qed.

Lemma lines_plain ind ps : plain ind -> Forall plain (flat_map (fun p => match p with PText s => [s] | _ => [] end) ps) ->
  forall cur, plain cur -> Forall plain (lines_of ind cur ps).
Proof.
  intros Hi. induction ps as [|[s| |n] ps IH]; intros Hf cur Hc; cbn [lines_of flat_map app] in *.
  - constructor; [assumption|constructor].
  - inversion Hf; subst. apply IH; [assumption|]. unfold plain in *. rewrite in_app_iff. tauto.
  - apply IH; [assumption|]. unfold plain in *. rewrite in_app_iff. intros [Hx|[Hx|[]]]; [tauto|discriminate].
  - constructor; [assumption|]. apply IH; [assumption|]. clear -Hi. unfold plain in *.
    induction n; simpl; [tauto|]. rewrite in_app_iff. tauto.
Qed.

Lemma trimf_no_blank cfg s : trim_trailing_whitespace cfg = true -> no_blank_end (trimf cfg s).
Proof. intros E. destruct (trimf_rtrimmed cfg s E) as (h & _ & _ & N). exact N. Qed.

Lemma trimf_plain cfg s : plain s -> plain (trimf cfg s).
Proof.
  intros Hp. unfold trimf. destruct (trim_trailing_whitespace cfg); [|assumption].
  destruct (trim_end_spec s) as (h & E & _). unfold plain in *. rewrite E, in_app_iff in Hp. tauto.
Qed.

Lemma ends_with_lf_spec s : ends_with_lf s = true <-> ends_in_lf s.
Proof.
  unfold ends_with_lf, ends_in_lf. destruct s as [|c s] using rev_ind; [split; [discriminate|intros (t & E); destruct t; discriminate]|].
  clear IHs. rewrite rev_app_distr. simpl. split.
  - intros E. apply Z.eqb_eq in E. subst. now exists s.
  - intros (t & E). apply app_inj_tail in E. destruct E as (_ & ->). reflexivity.
Qed.

Lemma is_empty_spec (s : str) : is_empty s = true <-> s = [].
Proof. destruct s; simpl; split; congruence. Qed.

Lemma lays_group_inv max isz n b c d ps c' : lays max isz n b c (Group d) ps c' ->
  (fits max c d /\ lays max isz n false c d ps c') \/ (~ fits max c d /\ lays max isz n true c d ps c').
Proof.
  intros L. inversion L; subst; auto; exfalso; intuition discriminate.
Qed.

Lemma joined_snoc_nil e ls : ls <> [] -> joined e (ls ++ [[]]) = joined e ls ++ e.
Proof.
  induction ls as [|l ls IH]; intros Hne; [congruence|].
  destruct ls as [|l2 ls]; [simpl; now rewrite app_nil_r|].
  specialize (IH ltac:(discriminate)). cbn [app joined] in *. rewrite IH. now rewrite <- !app_assoc.
Qed.
