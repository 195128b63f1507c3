(** The pieces of a text are unique; the layout of pieces. *)
From Verif Require Import Base Utf8 Utf8Facts ScanSpec LexModel JsonLangSpec JsonLexProofs LangSpec LangLexProofs PyModel PySpec PyProofs.

(** ** The pieces are unique *)
Lemma run_same (P : Z -> Prop) : forall t t' r r', Forall P t -> (forall c, hd_error r = Some c -> ~ P c) -> Forall P t' -> (forall c, hd_error r' = Some c -> ~ P c) -> t ++ r = t' ++ r' -> t = t'.
Proof.
  induction t as [| c t IH]; intros [| c' t'] r r' F E F' E' H; cbn [app] in H.
  - reflexivity.
  - subst r. inversion F'; subst. exfalso. now apply (E c').
  - subst r'. inversion F; subst. exfalso. now apply (E' c).
  - injection H as <- H. inversion F; subst. inversion F'; subst. f_equal. now apply (IH t' r r').
Qed.

Lemma closes_same q t : quote q -> forall s r, closes q t s r -> forall s' r', closes q t s' r' -> s ++ r = s' ++ r' -> s = s'.
Proof.
  intros Q. assert (Q92 : q <> 92%Z) by (destruct Q as [-> | ->]; discriminate). assert (Qe : ~ eol q) by (destruct Q as [-> | ->]; unfold eol; lia).
  assert (N92 : ~ eol 92) by (unfold eol; lia).
  induction 1 as [| c r Ht He | r Ht | r Ht | | c s r C IH | c s r N1 N2 N3 C IH]; intros s' r' C' E; destruct C' as [| c' r' Ht' He' | r' Ht' | r' Ht' | | c' s' r' C' | c' s' r' M1 M2 M3 C']; cbn [app] in *; try congruence; try discriminate; try (injection E as E1 E2; subst; congruence).
  all: try (injection E as E1 E2; subst; repeat match goal with H : ?x = ?x -> _ |- _ => specialize (H eq_refl) end; repeat match goal with H : _ /\ _ |- _ => destruct H end; first [contradiction | congruence | idtac]).
  - f_equal. f_equal. now apply (IH s' r').
  - f_equal. now apply (IH s' r').
Qed.
Lemma opened_same q s r s' r' : quote q -> opened q s r -> opened q s' r' -> s ++ r = s' ++ r' -> s = s'.
Proof.
  intros Q O O' E. destruct O as [s r N C | s r C]; destruct O' as [s' r' N' C' | s' r' C']; cbn [app] in *.
  - now apply (closes_same q false Q s r C s' r').
  - exfalso. now apply (N (s' ++ r')).
  - exfalso. now apply (N' (s ++ r)).
  - injection E as E. f_equal. f_equal. now apply (closes_same q true Q s r C s' r').
Qed.

Definition tag (c : Z) : nat :=
  if py_blank c then 0 else if py_eol c then 1 else if (c =? 35)%Z then 2 else if py_quote c then 3 else if py_digit c then 4
  else if py_letter c then 5 else if py_is_operator c then 6 else if py_is_open c || py_is_close c || py_is_punct c then 7 else 8.
Definition by_tag (c : Z) (k : nat) (t r : list Z) (n : nat) : Prop :=
  match n with
  | 0 => k = PyWhitespace /\ Forall blank t /\ ends blank r
  | 1 => k = PyNewline /\ ((c = 13%Z /\ t = [10%Z]) \/ (t = [] /\ (c = 13%Z -> ends (eq 10%Z) r)))
  | 2 => k = PyComment /\ Forall (fun c => ~ eol c) t /\ (forall c, hd_error r = Some c -> eol c)
  | 3 => k = PyString /\ quote c /\ opened c t r
  | 4 => k = PyNumber /\ Forall numeral t /\ ends numeral r
  | 5 => (Forall wordy t /\ ends wordy r /\ word_of (c :: t) k /\ (t = [] -> In c (map fst prefixes) -> ends quote r)) \/
         (exists q s, t = q :: s /\ In (c, k) prefixes /\ quote q /\ opened q s r)
  | 6 => In (c :: t, k) operators /\ longest (c :: t) r
  | 7 => In (c, k) marks /\ t = []
  | _ => k = PyError /\ t = []
  end.
Ltac off_tag := unfold tag, py_blank, py_eol, py_quote, py_digit, py_letter, py_is_operator, py_is_open, py_is_close, py_is_punct;
  repeat match goal with |- (if ?b then _ else _) = _ => let E := fresh in destruct b eqn:E; [first [reflexivity | exfalso; lia]|] end; first [reflexivity | exfalso; lia].
Lemma tag_blank c : blank c -> tag c = 0.
Proof. unfold blank. intros [-> | ->]; reflexivity. Qed.
Lemma tag_digit c : digit c -> tag c = 4.
Proof. unfold digit. intros H. off_tag. Qed.
Lemma tag_letter c : letter c -> tag c = 5.
Proof. unfold letter. intros H. off_tag. Qed.
Lemma tag_operator c : py_is_operator c = true -> tag c = 6.
Proof. unfold py_is_operator. rewrite !orb_true_iff, !Z.eqb_eq. intros H. repeat (destruct H as [H | H]); subst c; reflexivity. Qed.
Lemma tag_mark c : (py_is_open c || py_is_close c || py_is_punct c) = true -> tag c = 7.
Proof. unfold py_is_open, py_is_close, py_is_punct. rewrite !orb_true_iff, !Z.eqb_eq. intros H. repeat (destruct H as [H | H]); subst c; reflexivity. Qed.

Lemma piece_by_tag k c t r : py_piece (Some k) (c :: t) r -> by_tag c k t r (tag c).
Proof.
  intros P. remember (Some k) as k0 eqn:Ek. remember (c :: t) as s0 eqn:Es. destruct P as [c0 s0 r B F E | r | r | r E | s0 r F E | c0 s0 r D F E | c0 s0 k1 r Lt F E Wd Np | q s0 r Q O | p k1 q s0 r I Q O | o k1 r I Lo | c0 k1 r I | c0 r N1 N2 N3 N4 N5 N6 N7 N8]; injection Ek as <-; try (injection Es as <- <-).
  - rewrite (tag_blank c0 B). now split.
  - split; [reflexivity|]. right. split; [reflexivity | discriminate].
  - split; [reflexivity|]. left. now split.
  - split; [reflexivity|]. right. now split.
  - now split.
  - rewrite (tag_digit c0 D). now split.
  - rewrite (tag_letter c0 Lt). left. now split.
  - destruct Q as [-> | ->]; (split; [reflexivity|]; split; [unfold quote; tauto | assumption]).
  - destruct (prefix_kind _ _ I) as (_ & _ & Lp). rewrite (tag_letter p Lp). right. now exists q, s0.
  - destruct (operator_kind _ _ I) as (_ & _ & c1 & s1 & E1 & Ho). rewrite E1 in Es. injection Es as -> ->. rewrite (tag_operator c Ho). rewrite E1 in I, Lo. now split.
  - destruct (mark_kind _ _ I) as (_ & _ & _ & Hm). rewrite (tag_mark c0 Hm). now split.
  - unfold tag. rewrite (is_false _ _ (blankb c0) N1), (is_false _ _ (eolb c0) N2), (is_false _ _ (quoteb c0) N6), (is_false _ _ (digitb c0) N4), (is_false _ _ (letterb c0) N5), (is_false _ _ (py_is_operator_in c0) N7), (is_false _ _ (py_marks_in c0) N8).
    apply Z.eqb_neq in N3. rewrite N3. now split.
Qed.

Lemma mark_same c k k' : In (c, k) marks -> In (c, k') marks -> k = k'.
Proof. intros I I'. cbn in I, I'. repeat (destruct I as [I | I]; [injection I as <- <-; repeat (destruct I' as [I' | I']; [try discriminate; injection I' as <-; reflexivity|]); contradiction|]). contradiction. Qed.
Definition one_kind (table : list (list Z * nat)) : bool := forallb (fun a => forallb (fun b => if list_eq_dec Z.eq_dec (fst a) (fst b) then snd a =? snd b else true) table) table.
Lemma table_same table w k k' : one_kind table = true -> In (w, k) table -> In (w, k') table -> k = k'.
Proof.
  intros H I I'. unfold one_kind in H. rewrite forallb_forall in H. specialize (H _ I). rewrite forallb_forall in H. specialize (H _ I'). cbn [fst snd] in H. destruct (list_eq_dec Z.eq_dec w w); [|contradiction]. now apply Nat.eqb_eq.
Qed.
Lemma word_same w k k' : word_of w k -> word_of w k' -> k = k'.
Proof.
  intros [I | [-> N]] [I' | [-> N']].
  - now apply (table_same reserved w).
  - exfalso. apply N', in_map_iff. now exists (w, k).
  - exfalso. apply N, in_map_iff. now exists (w, k').
  - reflexivity.
Qed.
Lemma prefix_same p k k' : In (p, k) prefixes -> In (p, k') prefixes -> k = k'.
Proof. intros I I'. cbn in I, I'. repeat (destruct I as [I | I]; [injection I as <- <-; repeat (destruct I' as [I' | I']; [try discriminate; injection I' as <-; reflexivity|]); contradiction|]). contradiction. Qed.
Lemma app_same {A} (a b r r' : list A) : a ++ r = b ++ r' -> length a = length b -> a = b.
Proof. revert b. induction a as [| x a IH]; intros [| y b] E L; try discriminate; [reflexivity|]. injection E as -> E. f_equal. apply IH; [assumption | now injection L]. Qed.
Lemma quote_not_wordy q : quote q -> ~ wordy q.
Proof. intros [-> | ->]; unfold wordy, letter, digit; lia. Qed.

Lemma piece_same k s r k' s' r' : s ++ r = s' ++ r' -> s <> [] -> s' <> [] -> py_piece k s r -> py_piece k' s' r' -> k = k' /\ s = s'.
Proof.
  intros E N N' P P'. destruct k as [k|]; [|inversion P]. destruct k' as [k'|]; [|inversion P']. destruct s as [| c t]; [contradiction|]. destruct s' as [| c' t']; [contradiction|]. injection E as <- E.
  apply piece_by_tag in P, P'. assert (G : k = k' /\ t = t' -> Some k = Some k' /\ c :: t = c :: t') by (intros [-> ->]; now split). apply G. clear G N N'. destruct (tag c) as [| [| [| [| [| [| [| [| n]]]]]]]]; cbn [by_tag] in P, P'.
  - destruct P as (-> & F & En), P' as (-> & F' & En'). split; [reflexivity|]. now apply (run_same blank t t' r r').
  - destruct P as (-> & H), P' as (-> & H'). split; [reflexivity|]. destruct H as [[Ec ->] | [-> H]], H' as [[Ec' ->] | [-> H']]; try reflexivity; cbn [app] in E.
    + subst r'. exfalso. now apply (H' Ec 10%Z).
    + subst r. exfalso. now apply (H Ec' 10%Z).
  - destruct P as (-> & F & En), P' as (-> & F' & En'). split; [reflexivity|]. apply (run_same (fun c => ~ eol c) t t' r r'); try assumption; intros x Hx Nx; [now apply Nx, En | now apply Nx, En'].
  - destruct P as (-> & Q & O), P' as (-> & _ & O'). split; [reflexivity|]. now apply (opened_same c t r t' r').
  - destruct P as (-> & F & En), P' as (-> & F' & En'). split; [reflexivity|]. now apply (run_same numeral t t' r r').
  - destruct P as [(F & En & W & Np) | (q & s & -> & I & Q & O)], P' as [(F' & En' & W' & Np') | (q' & s' & -> & I' & Q' & O')].
    + assert (t = t') by now apply (run_same wordy t t' r r'). subst t'. split; [now apply (word_same (c :: t)) | reflexivity].
    + exfalso. destruct t as [| d t]; cbn [app] in E.
      * subst r. apply (Np eq_refl) with (c := q'); [|reflexivity | assumption]. apply in_map_iff. now exists (c, k').
      * injection E as <- _. inversion F; subst. now apply (quote_not_wordy d).
    + exfalso. destruct t' as [| d t']; cbn [app] in E.
      * subst r'. apply (Np' eq_refl) with (c := q); [|reflexivity | assumption]. apply in_map_iff. now exists (c, k).
      * injection E as <- _. inversion F'; subst. now apply (quote_not_wordy q).
    + cbn [app] in E. injection E as <- E. split; [now apply (prefix_same c)|]. f_equal. now apply (opened_same q s r s' r').
  - destruct P as (I & Lo), P' as (I' & Lo'). assert (Et : t = t').
    { apply (app_same t t' r r' E). assert (E1 : (c :: t) ++ r = (c :: t') ++ r') by (cbn; now rewrite E). pose proof (Lo _ _ r' I' E1). pose proof (Lo' _ _ r I (eq_sym E1)). cbn [length] in *. lia. }
    subst t'. split; [|reflexivity]. now apply (table_same operators (c :: t)).
  - destruct P as (I & ->), P' as (I' & ->). split; [now apply (mark_same c) | reflexivity].
  - destruct P as (-> & ->), P' as (-> & ->). now split.
Qed.
Lemma pieces_same cs ps ps' : cut py_piece cs ps -> cut py_piece cs ps' -> ps = ps'.
Proof. intros C C'. exact (cut_unique py_piece cs ps piece_same C ps' C'). Qed.
