(** The Scheme lexer. *)
From Verif Require Import Base Utf8 Utf8Facts ScanSpec CursorModel CursorSpec CursorProofs RopeModel LexModel LexSpec LexProofs LexLoopProofs.
From Verif Require Import JsonLangSpec JsonLexProofs LangModel LangSpec LangLexProofs IniModel SchModel SchSpec.
From Verif Require XmlLexProofs XmlSerdeProofs VfsModel RopeProofs.
Notation str_eqb := VfsModel.str_eqb.

Notation same := (XmlLexProofs.same _ _).

Lemma digitb c : ascii_digit_c c = true <-> sdigit c.
Proof. unfold ascii_digit_c, sdigit. rewrite andb_true_iff, !Z.leb_le. reflexivity. Qed.
Lemma startb alpha c : sch_start alpha c = true <-> sstart alpha c.
Proof.
  unfold sch_start, sstart. rewrite orb_true_iff, existsb_exists. split; (intros [H | H]; [now left | right]).
  - destruct H as (x & I & E). apply Z.eqb_eq in E. subst x. exact I.
  - exists c. split; [exact H | apply Z.eqb_refl].
Qed.
Lemma continueb alpha c : sch_continue alpha c = true <-> sletter alpha c.
Proof. unfold sch_continue, sletter. now rewrite orb_true_iff, startb, digitb. Qed.

(** ** Runs *)
Lemma run_full P p cs : (forall c, p c = true <-> P c) -> full_run P (char_run p cs) (drop_run p cs).
Proof. exact (XmlLexProofs.run_spec P p cs). Qed.
Lemma full_run_is P p s r : (forall c, p c = true <-> P c) -> full_run P s r -> char_run p (s ++ r) = s /\ drop_run p (s ++ r) = r.
Proof. exact (XmlLexProofs.run_plain P p s r). Qed.

Lemma drop_cons p c r : drop_run p (c :: r) = if p c then drop_run p r else c :: r.
Proof. unfold drop_run. cbn [char_run]. now destruct (p c). Qed.

(** ** Numbers on lists *)
Definition signed (p : list Z) : list Z * list Z := match p with c :: t => if ((c =? 45) || (c =? 43))%Z then ([c], t) else ([], p) | [] => ([], []) end.
Definition figures (p : list Z) : list Z * list Z * bool :=
  let a := char_run ascii_digit_c p in
  match drop_run ascii_digit_c p with
  | c :: v => if (c =? 46)%Z then let b := char_run ascii_digit_c v in (a ++ c :: b, drop_run ascii_digit_c v, LexModel.nonempty a || LexModel.nonempty b) else (a, c :: v, LexModel.nonempty a)
  | [] => (a, [], LexModel.nonempty a)
  end.
Definition number_of (p : list Z) : option (list Z * list Z) :=
  let '(g, t) := signed p in
  match g, p with
  | [], c :: _ => if ascii_digit_c c then let '(s, q, h) := figures p in Some (s, q) else None
  | [], [] => None
  | _, _ => let '(s, q, h) := figures t in if h then Some (g ++ s, q) else None
  end.

Lemma nonempty_app (a b : list Z) : LexModel.nonempty (a ++ b) = LexModel.nonempty a || LexModel.nonempty b.
Proof. now destruct a. Qed.
Lemma nonempty_iff (a : list Z) : LexModel.nonempty a = true <-> a <> [].
Proof. destruct a; [split; [discriminate | now intros []] | now split]. Qed.
Lemma fraction_run cs : forall len h, sch_fraction cs len h = (len + length (encode (char_run ascii_digit_c cs)), h || LexModel.nonempty (char_run ascii_digit_c cs)).
Proof.
  induction cs as [| c r IH]; intros len h; cbn [sch_fraction char_run].
  - cbn. now rewrite Nat.add_0_r, orb_false_r.
  - destruct (ascii_digit_c c); [|cbn; now rewrite Nat.add_0_r, orb_false_r]. rewrite IH. cbn [encode LexModel.nonempty]. rewrite app_length, encode_char_length. f_equal; [lia | now destruct h].
Qed.
Lemma figures_run cs : forall len h, sch_figures cs len h = let '(s, _, b) := figures cs in (len + length (encode s), h || b).
Proof.
  induction cs as [| c r IH]; intros len h; unfold figures; [|rewrite drop_cons]; cbn [sch_figures char_run].
  - cbn. now rewrite Nat.add_0_r, orb_false_r.
  - destruct (ascii_digit_c c) eqn:D.
    + rewrite IH. unfold figures. destruct (drop_run ascii_digit_c r) as [| d v].
      * cbn [encode LexModel.nonempty]. rewrite app_length, encode_char_length. f_equal; [lia | now destruct h].
      * destruct (d =? 46)%Z; cbn [encode LexModel.nonempty app orb]; rewrite app_length, encode_char_length; (f_equal; [lia | now destruct h]).
    + destruct (c =? 46)%Z eqn:E.
      * rewrite fraction_run. cbn [app encode LexModel.nonempty orb]. rewrite app_length, encode_char_length. f_equal; lia.
      * cbn. now rewrite Nat.add_0_r, orb_false_r.
Qed.
Lemma figures_app cs : let '(s, q, _) := figures cs in s ++ q = cs.
Proof.
  unfold figures. pose proof (run_drop ascii_digit_c cs) as E. destruct (drop_run ascii_digit_c cs) as [| c v]; [assumption|]. destruct (c =? 46)%Z; [|assumption].
  rewrite <- app_assoc. cbn [app]. now rewrite run_drop.
Qed.
Lemma digits_run cs : Forall sdigit (char_run ascii_digit_c cs).
Proof. apply (run_full sdigit ascii_digit_c cs digitb). Qed.
Lemma digit_no_point s : Forall sdigit s -> ~ In 46%Z s.
Proof. intros F H. rewrite Forall_forall in F. apply F in H. unfold sdigit in H. lia. Qed.
(** What [figures] takes *)
Lemma figures_shape cs : let '(s, q, h) := figures cs in
  (Forall sdigit s /\ h = LexModel.nonempty s \/ exists a b, s = a ++ 46%Z :: b /\ Forall sdigit a /\ Forall sdigit b /\ h = LexModel.nonempty a || LexModel.nonempty b) /\ number_stops s q.
Proof.
  unfold figures. pose proof (digits_run cs) as A. pose proof (proj2 (run_full sdigit ascii_digit_c cs digitb)) as St. destruct (drop_run ascii_digit_c cs) as [| c v].
  - split; [left; now split|]. now intros c.
  - destruct (Z.eqb_spec c 46) as [-> | N].
    + split; [right; eexists _, _; split; [reflexivity|]; split; [assumption|]; split; [apply digits_run | reflexivity]|]. intros d E [D | [-> D]].
      * exact (proj2 (run_full sdigit ascii_digit_c v digitb) d E D).
      * apply D. apply in_or_app. right. now left.
    + split; [left; now split|]. intros d E [D | [-> _]]; [exact (St d E D)|]. injection E as ->. now apply N.
Qed.
Lemma figures_int a q : Forall sdigit a -> number_stops a q -> figures (a ++ q) = (a, q, LexModel.nonempty a).
Proof.
  intros A St. destruct (full_run_is sdigit ascii_digit_c a q digitb) as [E1 E2]. { split; [assumption|]. intros c E D. apply (St c E). now left. }
  unfold figures. rewrite E1, E2. destruct q as [| c v]; [reflexivity|]. destruct (Z.eqb_spec c 46) as [-> | N]; [|reflexivity]. destruct (St 46%Z eq_refl). right. split; [reflexivity | now apply digit_no_point].
Qed.
Lemma figures_frac a b q : Forall sdigit a -> Forall sdigit b -> number_stops (a ++ 46%Z :: b) q -> figures ((a ++ 46%Z :: b) ++ q) = (a ++ 46%Z :: b, q, LexModel.nonempty a || LexModel.nonempty b).
Proof.
  intros A B St. rewrite <- app_assoc. destruct (full_run_is sdigit ascii_digit_c a ((46%Z :: b) ++ q) digitb) as [E1 E2]. { split; [assumption|]. intros c E. cbn in E. injection E as <-. unfold sdigit. lia. }
  unfold figures. rewrite E1, E2. cbn [app]. change (46 =? 46)%Z with true. cbv iota. destruct (full_run_is sdigit ascii_digit_c b q digitb) as [E3 E4]. { split; [assumption|]. intros c E D. apply (St c E). now left. }
  now rewrite E3, E4.
Qed.

Lemma signed_case (c : Z) t : (exists g, signed (c :: t) = ([c], t) /\ g = c /\ ssign c) \/ (signed (c :: t) = ([], c :: t) /\ ~ ssign c).
Proof. unfold signed, ssign. destruct (Z.eqb_spec c 45), (Z.eqb_spec c 43); subst; cbn [orb]; try (left; exists 45%Z; tauto); try (left; exists 43%Z; tauto). right. split; [reflexivity|]. intros [H | H]; contradiction. Qed.
Lemma number_of_some p s q : number_of p = Some (s, q) -> p = s ++ q /\ s <> [] /\ number_text s /\ number_stops s q.
Proof.
  unfold number_of. destruct p as [| c t]; [discriminate|]. destruct (signed_case c t) as [(g & -> & _ & Sg) | [-> _]].
  - pose proof (figures_shape t) as Sh. pose proof (figures_app t) as Ap. destruct (figures t) as [[s1 q1] h]. destruct h; [|discriminate]. intros E. injection E as <- <-. destruct Sh as [Sh St]. split; [cbn; now rewrite Ap|]. split; [discriminate|]. split.
    + destruct Sh as [[A E] | (a & b & -> & A & B & E)]; symmetry in E.
      * apply (NInt [c] s1); [right; now exists c | assumption | now apply nonempty_iff].
      * apply (NFrac [c] a b); [right; now exists c | assumption | assumption|]. apply orb_true_iff in E. rewrite !nonempty_iff in E. destruct E; [now left | right; now split].
    + intros d E [D | [-> D]]; apply (St d E) || apply (St 46%Z E); [now left|]. right. split; [reflexivity|]. intros I. apply D. now right.
  - destruct (ascii_digit_c c) eqn:D; [|discriminate]. pose proof (figures_shape (c :: t)) as Sh. pose proof (figures_app (c :: t)) as Ap. assert (Hn : exists x, let '(s1, _, _) := figures (c :: t) in s1 = c :: x).
    { unfold figures. cbn [char_run]. rewrite D. destruct (drop_run ascii_digit_c (c :: t)) as [| d v]; [now eexists|]. destruct (d =? 46)%Z; now eexists. }
    destruct (figures (c :: t)) as [[s1 q1] h]. intros E. injection E as <- <-. destruct Sh as [Sh St], Hn as (x & ->). split; [now symmetry|]. split; [discriminate|]. split; [|assumption].
    destruct Sh as [[A E] | (a & b & E & A & B & _)].
    + apply (NInt [] (c :: x)); [now left | assumption | discriminate].
    + rewrite E. apply (NFrac [] a b); [now left | assumption | assumption|]. left. intros ->. cbn in E. injection E as -> _. discriminate.
Qed.
Lemma sign_no_digit c : ssign c -> ~ sdigit c.
Proof. unfold ssign, sdigit. lia. Qed.
Lemma number_of_text s q : number_text s -> number_stops s q -> number_of (s ++ q) = Some (s, q).
Proof.
  intros N St. assert (Hd : forall a x, Forall sdigit a -> a <> [] -> exists c t, a ++ x = c :: t /\ signed (a ++ x) = ([], a ++ x) /\ ascii_digit_c c = true).
  { intros [| c a] x A N0; [contradiction|]. apply Forall_inv in A. exists c, (a ++ x). split; [reflexivity|]. split; [|now apply digitb]. cbn [app]. destruct (signed_case c (a ++ x)) as [(_ & _ & _ & Sg) | [E _]]; [now destruct (sign_no_digit c Sg) | exact E]. }
  destruct N as [g a G A Na | g a b G A B Na].
  - destruct G as [-> | (c & -> & Sg)].
    + cbn [app] in *. destruct (Hd a q A Na) as (c & t & E1 & E2 & D). unfold number_of. rewrite E2, E1, D, <- E1, (figures_int a q A St). reflexivity.
    + cbn [app]. unfold number_of. destruct (signed_case c (a ++ q)) as [(_ & -> & _) | [_ Ns]]; [|contradiction]. rewrite (figures_int a q A).
      * apply nonempty_iff in Na. now rewrite Na.
      * intros d E [D | [-> D]]; [apply (St d E); now left|]. apply (St 46%Z E). right. split; [reflexivity|]. intros [-> | I]; [unfold ssign in Sg; lia | contradiction].
  - destruct G as [-> | (c & -> & Sg)].
    + destruct Na as [Na | [_ Na]]; [|contradiction]. cbn [app] in *. destruct (Hd a ((46%Z :: b) ++ q) A Na) as (c & t & E1 & E2 & D). unfold number_of. rewrite app_assoc in E1, E2. rewrite E2, E1, D, <- E1, (figures_frac a b q A B St). reflexivity.
    + cbn [app] in *. unfold number_of. destruct (signed_case c ((a ++ 46%Z :: b) ++ q)) as [(_ & -> & _) | [_ Ns]]; [|contradiction]. rewrite (figures_frac a b q A B).
      * assert (LexModel.nonempty a || LexModel.nonempty b = true) as ->; [|reflexivity]. apply orb_true_iff. rewrite !nonempty_iff. tauto.
      * intros d E [D | [-> D]]; [apply (St d E); now left|]. destruct D. apply in_or_app. right. now left.
Qed.
Lemma number_front n x : number_text n -> number_of (n ++ x) <> None.
Proof.
  assert (Hh : forall a x, Forall sdigit a -> a <> [] -> let '(_, _, h) := figures (a ++ x) in h = true).
  { intros [| c a] y A Na; [contradiction|]. apply Forall_inv, digitb in A. unfold figures. cbn [app char_run]. rewrite A. destruct (drop_run ascii_digit_c (c :: a ++ y)) as [| d v]; [reflexivity|]. destruct (d =? 46)%Z; reflexivity. }
  assert (Hf : forall a b x, Forall sdigit a -> Forall sdigit b -> a <> [] \/ b <> [] -> let '(_, _, h) := figures ((a ++ 46%Z :: b) ++ x) in h = true).
  { intros [| c a] b y A B Nn.
    - destruct Nn as [Nn | Nn]; [contradiction|]. destruct b as [| d b]; [contradiction|]. apply Forall_inv, digitb in B. unfold figures. cbn [app]. rewrite drop_cons. cbn [char_run]. change (ascii_digit_c 46) with false. cbv iota. change (46 =? 46)%Z with true. cbv iota. cbn [char_run]. now rewrite B.
    - rewrite <- app_assoc. now apply Hh. }
  assert (Hg : forall g y, ssign g -> (let '(_, _, h) := figures y in h = true) -> number_of (g :: y) <> None).
  { intros g y Sg H. unfold number_of. destruct (signed_case g y) as [(_ & -> & _) | [_ Ns]]; [|contradiction]. destruct (figures y) as [[s q] h]. now rewrite H. }
  assert (Hd : forall c y, sdigit c -> number_of (c :: y) <> None).
  { intros c y D. unfold number_of. destruct (signed_case c y) as [(_ & _ & _ & Sg) | [-> _]]; [now destruct (sign_no_digit c Sg)|]. apply digitb in D. rewrite D. now destruct (figures (c :: y)) as [[s q] h]. }
  intros [g a G A Na | g a b G A B Na]; destruct G as [-> | (c & -> & Sg)].
  - destruct a as [| c a]; [contradiction|]. apply Forall_inv in A. now apply Hd.
  - cbn [app]. apply Hg; [assumption|]. now apply Hh.
  - destruct Na as [Na | [_ Na]]; [|contradiction]. destruct a as [| c a]; [contradiction|]. apply Forall_inv in A. now apply Hd.
  - cbn [app]. apply Hg; [assumption|]. apply Hf; tauto.
Qed.
Lemma number_none p : number_of p = None <-> forall n x, number_text n -> p <> n ++ x.
Proof.
  split.
  - intros E n x N ->. now apply (number_front n x N).
  - intros H. destruct (number_of p) as [[s q]|] eqn:E; [|reflexivity]. apply number_of_some in E. destruct E as (-> & _ & N & _). now destruct (H s q N).
Qed.

(** ** Nested comments on lists: what follows the comment *)
Fixpoint nest (n : nat) (cs : list Z) : list Z :=
  match n with
  | O => cs
  | S m => match cs with
           | [] => []
           | c :: r => match r with
                       | [] => []
                       | d :: r' => if ((c =? 35) && (d =? 124))%Z then nest (S n) r' else if ((c =? 124) && (d =? 35))%Z then nest m r' else nest n r
                       end
           end
  end.
Lemma nest_unfold n c r : nest (S n) (c :: r) = match r with [] => [] | d :: r' => if ((c =? 35) && (d =? 124))%Z then nest (S (S n)) r' else if ((c =? 124) && (d =? 35))%Z then nest n r' else nest (S n) r end.
Proof. reflexivity. Qed.
Lemma pair_no (c d x y : Z) : ((c =? x) && (d =? y))%Z = false <-> ~ (c = x /\ d = y)%Z.
Proof. rewrite andb_false_iff, !Z.eqb_neq. destruct (Z.eq_dec c x), (Z.eq_dec d y); tauto. Qed.
Lemma pair_yes (c d x y : Z) : ((c =? x) && (d =? y))%Z = true <-> (c = x /\ d = y)%Z.
Proof. now rewrite andb_true_iff, !Z.eqb_eq. Qed.
Lemma nest_spec : forall m cs n, length cs <= m -> (exists b, cs = b ++ nest n cs /\ closes n b) \/ (nest n cs = [] /\ stays_open n cs).
Proof.
  induction m as [| m IH]; intros cs n L.
  - destruct cs; [|cbn in L; lia]. destruct n; [left; exists []; split; [reflexivity | constructor] | right; split; [reflexivity | constructor]].
  - destruct n as [| n]; [left; exists []; split; [now destruct cs | constructor]|]. destruct cs as [| c [| d r]]; [right; split; [reflexivity | constructor]; fail | right; split; [reflexivity | constructor]; fail|]. cbn [length] in L. rewrite nest_unfold.
    destruct ((c =? 35) && (d =? 124))%Z eqn:E1; [|destruct ((c =? 124) && (d =? 35))%Z eqn:E2].
    + apply pair_yes in E1. destruct E1 as [-> ->]. destruct (IH r (S (S n)) ltac:(lia)) as [(b & E & C) | [E C]]; [left | right].
      * exists (35 :: 124 :: b)%Z. split; [cbn; now rewrite <- E | now constructor].
      * split; [assumption | now constructor].
    + apply pair_yes in E2. destruct E2 as [-> ->]. destruct (IH r n ltac:(lia)) as [(b & E & C) | [E C]]; [left | right].
      * exists (124 :: 35 :: b)%Z. split; [cbn; now rewrite <- E | now constructor].
      * split; [assumption|]. destruct n; [inversion C | now constructor].
    + apply pair_no in E1, E2. destruct (IH (d :: r) (S n) ltac:(cbn; lia)) as [(b & E & C) | [E C]]; [left | right].
      * destruct b as [| x b]; [inversion C|]. injection E as <- E. exists (c :: d :: b). split; [cbn; now rewrite <- E | now constructor].
      * split; [assumption | now constructor].
Qed.
Lemma nest_closes n b r : closes n b -> nest n (b ++ r) = r.
Proof.
  induction 1 as [| n b _ IH | n b _ IH | n c d b N1 N2 _ IH]; [now destruct r | exact IH | exact IH|]. cbn [app] in *. rewrite nest_unfold. apply pair_no in N1, N2. now rewrite N1, N2.
Qed.
Lemma nest_open n b : stays_open n b -> nest n b = [].
Proof. induction 1 as [n | n c | n b _ IH | n b _ IH | n c d b N1 N2 _ IH]; [reflexivity | reflexivity | exact IH | exact IH|]. rewrite nest_unfold. apply pair_no in N1, N2. now rewrite N1, N2. Qed.

(** ** String literals on lists: what follows the opening quote's literal *)
Fixpoint literal_rest (cs : list Z) : list Z :=
  match cs with
  | [] => []
  | c :: r => if (c =? 34)%Z then r else if (c =? 92)%Z then match r with [] => [] | _ :: r' => literal_rest r' end else literal_rest r
  end.
Lemma body_rest b r : literal_body 34 (Some 92%Z) b -> literal_rest (b ++ r) = literal_rest r.
Proof.
  induction 1 as [| c cs N E _ IH | x c cs E _ IH]; [reflexivity | |]; cbn [app literal_rest].
  - destruct (Z.eqb_spec c 34); [contradiction|]. destruct (Z.eqb_spec c 92) as [-> |]; [now destruct E | exact IH].
  - injection E as <-. exact IH.
Qed.

Lemma byte_in x cs : (0 <= x < 128)%Z -> Forall is_scalar cs -> In x (encode cs) <-> In x cs.
Proof.
  intros X F. induction F as [| c cs Hc _ IH]; [reflexivity|]. cbn [encode]. rewrite in_app_iff, IH. cbn [In]. assert (In x (encode_char c) <-> c = x); [|tauto].
  unfold encode_char. destruct (Z.ltb_spec c 128); [cbn; tauto|]. unfold is_scalar in Hc. split; [|lia].
  assert (Q1 : (0 <= c / 64)%Z) by (apply Z.div_pos; lia). assert (Q2 : (0 <= c / 4096)%Z) by (apply Z.div_pos; lia). assert (Q3 : (0 <= c / 262144)%Z) by (apply Z.div_pos; lia).
  pose proof (Z.mod_pos_bound c 64 ltac:(lia)). pose proof (Z.mod_pos_bound (c / 64) 64 ltac:(lia)). pose proof (Z.mod_pos_bound (c / 4096) 64 ltac:(lia)).
  destruct (c <? 2048)%Z; [|destruct (c <? 65536)%Z]; cbn [In]; lia.
Qed.

(** ** The rules on a source *)
Section Rules.
  Variable (alpha : Z -> bool) (src : source) (text : str) (slice : nat -> nat -> str).
  Hypothesis Hs : serves src text.
  Notation view := (view src text).
  Notation stepped := (stepped src text).
  Notation same := (XmlLexProofs.same src text).
  Notation reading := (XmlLexProofs.reading src text).

  Lemma token_view k l l0 l' r : lx_toks l' = lx_toks l -> lx_pos l0 = lx_pos l -> view l' r -> exists x, sch_token k l0 l' = Some (true, x) /\ stepped l x (Some k) r.
  Proof. intros T O V. eexists. split; [reflexivity|]. split; [exact V|]. cbn [add_token lx_toks]. rewrite T, O. reflexivity. Qed.
  Lemma view_jump s r l : view l (s ++ r) -> view (lx_advance src l (length (encode s))) r /\ lx_toks (lx_advance src l (length (encode s))) = lx_toks l.
  Proof.
    revert l. induction s as [| c s IH]; intros l V; cbn [encode app] in *.
    - cbn [length]. assert (E : lx_advance src l 0 = l). { destruct V as [[P B] R]. unfold lx_advance, advance_bytes. rewrite Nat.add_0_r. apply is_boundary_le in B. rewrite (Hlen src text Hs). destruct l as [[o st tx] tk]. cbn in *. rewrite Nat.min_l by assumption. reflexivity. }
      rewrite E. now split.
    - rewrite app_length, encode_char_length. destruct (view_advance src text Hs l c (s ++ r) V) as (V1 & _ & T1). destruct (IH _ V1) as (V2 & T2).
      assert (E : lx_advance src (lx_advance src l (char_len c)) (length (encode s)) = lx_advance src l (char_len c + length (encode s))). { unfold lx_advance, advance_bytes. cbn. do 2 f_equal. lia. }
      rewrite E in *. split; [assumption | congruence].
  Qed.

  Definition r_space (cs : list Z) : option (nat * list Z) := match char_run char_is_whitespace cs with [] => None | _ => Some (HWhitespace, drop_run char_is_whitespace cs) end.
  Lemma space_view cs : reading (sch_whitespace src) cs (r_space cs).
  Proof.
    intros l V. unfold sch_whitespace, scan_whitespace, r_space. destruct (view_take src text Hs l cs char_is_whitespace V) as (l1 & -> & V1 & O1 & T1).
    pose proof (lx_moved_run src text l l1 (char_run char_is_whitespace cs) (drop_run char_is_whitespace cs)) as M. rewrite run_drop in M. specialize (M V V1). unfold lx_moved in M. rewrite M.
    pose proof (run_drop char_is_whitespace cs) as D. destruct (char_run char_is_whitespace cs); (eexists; split; [reflexivity|]).
    - cbn [app] in D. rewrite D in V1. split; [assumption|]. split; [cbn in O1; lia | assumption].
    - split; [assumption|]. cbn [add_token lx_toks]. now rewrite T1.
  Qed.
  (** The newline rule comes after white space and finds nothing. *)
  Lemma newline_view c r : char_is_whitespace c = false -> reading (sch_newline src) (c :: r) None.
  Proof.
    intros W l V. unfold sch_newline. destruct (view_current src text Hs l _ V) as (l1 & -> & V1 & O1 & T1). cbn [hd_error is_char].
    destruct (Z.eqb_spec c 10) as [-> | _]; [discriminate|]. destruct (Z.eqb_spec c 13) as [-> | _]; [discriminate|]. exists l1. split; [reflexivity|]. now split.
  Qed.

  Lemma depth_view : forall fuel cs n l, view l cs -> length cs < fuel -> exists l', depth_loop src sch_comments fuel n l = Some l' /\ view l' (nest n cs) /\ lx_toks l' = lx_toks l.
  Proof.
    induction fuel as [| f IH]; intros cs n l V L; [lia|]. cbn [depth_loop]. rewrite (XmlLexProofs.end_view src text Hs l cs V). destruct n as [| n].
    { exists l. split; [reflexivity|]. split; [now destruct cs | reflexivity]. }
    change (0 <? S n) with true. cbn [andb]. destruct cs as [| c r]; [exists l; now split|].
    cbn [cc_nested sch_comments cc_start cc_end]. unfold marker_here. change (LexModel.nonempty (lit "#|")) with true. change (LexModel.nonempty (lit "|#")) with true. cbv iota.
    destruct (view_starts src text Hs l _ (lit "#|") ltac:(repeat constructor; lia) V) as (b & l1 & -> & V1 & O1 & T1 & B). rewrite nest_unfold. destruct b.
    { destruct (proj1 B eq_refl) as (t & Et). injection Et as -> ->. change (lit "#|" ++ t) with (35 :: 124 :: t)%Z in *. destruct (XmlLexProofs.view_over src text Hs (lit "#|") t l1 ltac:(repeat constructor; lia) V1) as (V2 & T2).
      destruct (IH t (S (S n)) _ V2 ltac:(cbn in L; lia)) as (l' & -> & V' & T'). exists l'. split; [reflexivity|]. split; [exact V' | congruence]. }
    destruct (view_starts src text Hs l1 _ (lit "|#") ltac:(repeat constructor; lia) V1) as (b & l2 & -> & V2 & O2 & T2 & B'). destruct b.
    { destruct (proj1 B' eq_refl) as (t & Et). injection Et as -> ->. destruct (XmlLexProofs.view_over src text Hs (lit "|#") t l2 ltac:(repeat constructor; lia) V2) as (V3 & T3).
      change (S n - 1) with (n - 0). rewrite Nat.sub_0_r. destruct (IH t n _ V3 ltac:(cbn in L; lia)) as (l' & -> & V' & T'). exists l'. split; [reflexivity|]. split; [exact V' | congruence]. }
    destruct (view_current src text Hs l2 _ V2) as (l3 & -> & V3 & O3 & T3). cbn [hd_error]. destruct (view_advance src text Hs l3 c r V3) as (V4 & _ & T4). destruct (IH r (S n) _ V4 ltac:(cbn in L; lia)) as (l' & -> & V' & T').
    exists l'. split; [reflexivity|]. split; [|congruence]. destruct r as [| d r]; [exact V'|].
    assert (N1 : ((c =? 35) && (d =? 124))%Z = false). { apply pair_no. intros [-> ->]. assert (false = true) by (apply B; now exists r). discriminate. }
    assert (N2 : ((c =? 124) && (d =? 35))%Z = false). { apply pair_no. intros [-> ->]. assert (false = true) by (apply B'; now exists r). discriminate. }
    now rewrite N1, N2.
  Qed.

  Definition not_lf (c : Z) : bool := negb (c =? 10)%Z.
  Definition r_comment (cs : list Z) : option (nat * list Z) :=
    match cs with
    | 59%Z :: r => Some (HLineComment, drop_run not_lf r)
    | 35%Z :: 124%Z :: r => Some (HComment, nest 1 r)
    | _ => None
    end.
  Lemma line_view cs l : view l cs -> exists l', lx_scan l (take_while_byte src (fun b => negb (b =? 10)%Z) (lx_cur l)) = Some l' /\ view l' (drop_run not_lf cs) /\ lx_toks l' = lx_toks l.
  Proof.
    intros V. destruct (until_placed src text (lx_cur l) 10%Z (fun t => Some (scan_bytes (fun b => negb (b =? 10)%Z) t 0 0)) Hs (proj1 V) eq_refl) with (fuel := scan_fuel src) as (c' & n & E & P & O & Run).
    { intros t. now rewrite scan_bytes_span. }
    { unfold scan_fuel. rewrite (Hlen src text Hs). lia. }
    unfold take_while_byte. rewrite E. cbn [lx_scan]. eexists. split; [reflexivity|]. split; [|reflexivity].
    assert (P' : lx_placed src text (Lexer c' (lx_toks l))) by exact P.
    destruct (view_reach src text Hs l cs _ V P') as (s & r & -> & V' & O'). { unfold lx_pos. cbn. lia. }
    assert (n = length (encode s)) by (unfold lx_pos in *; cbn in *; lia). subst n. destruct V as [_ (F & _ & R)]. apply Forall_app in F. destruct F as [Fs Fr]. assert (Sk : skipn (cu_off (lx_cur l)) text = encode s ++ encode r).
    { rewrite <- encode_app, <- R. unfold substr, lx_pos. symmetry. apply firstn_all2. rewrite skipn_length. lia. }
    rewrite Sk in Run. destruct Run as (_ & R1 & R2).
    destruct (run_unique not_lf s r (s ++ r) eq_refl) as [_ <-]; [| |exact V'].
    - apply Forall_forall. intros c I. unfold not_lf. destruct (Z.eqb_spec c 10) as [-> |]; [|reflexivity]. apply (byte_in 10%Z s ltac:(lia) Fs) in I. apply In_nth_error in I. destruct I as (k & K).
      assert (k < length (encode s)) by (apply nth_error_Some; congruence). destruct (R1 k 10%Z); [assumption | now rewrite nth_error_app1 | reflexivity].
    - destruct r as [| c r]; [exact I|]. rewrite nth_error_app2, Nat.sub_diag in R2 by lia. cbn [encode] in R2. apply Forall_inv in Fr. unfold not_lf. destruct (Z.eqb_spec c 10) as [-> |]; [reflexivity|].
      pose proof (byte_in 10%Z [c] ltac:(lia) ltac:(now constructor)) as B. cbn [encode In] in B. rewrite app_nil_r in B. pose proof (encode_char_nonempty c). destruct (encode_char c) as [| b t]; [contradiction|]. specialize (R2 b eq_refl). destruct (Z.eq_dec b 10) as [-> | Nb]; [|contradiction].
      destruct (proj1 B (or_introl eq_refl)); [congruence | contradiction].
  Qed.
  Lemma comment_view cs : reading (sch_comment src) cs (r_comment cs).
  Proof.
    intros l V. unfold sch_comment, scan_comment. cbn [cc_line sch_comments cc_start]. unfold marker_here. change (LexModel.nonempty (lit ";")) with true. change (LexModel.nonempty (lit "#|")) with true. cbv iota.
    destruct (view_starts src text Hs l _ (lit ";") ltac:(repeat constructor; lia) V) as (b & l1 & -> & V1 & O1 & T1 & B). destruct b.
    { destruct (proj1 B eq_refl) as (t & ->). cbn [app] in *. destruct (XmlLexProofs.view_over src text Hs (lit ";") t l1 ltac:(repeat constructor; lia) V1) as (V2 & T2). destruct (line_view t _ V2) as (l3 & -> & V3 & T3).
      eexists. split; [reflexivity|]. cbn [r_comment]. split; [exact V3|]. cbn [add_token lx_toks]. now rewrite T3, T2, T1. }
    destruct (view_starts src text Hs l1 _ (lit "#|") ltac:(repeat constructor; lia) V1) as (b & l2 & -> & V2 & O2 & T2 & B'). destruct b.
    { destruct (proj1 B' eq_refl) as (t & ->). destruct (XmlLexProofs.view_over src text Hs (lit "#|") t l2 ltac:(repeat constructor; lia) V2) as (V3 & T3). destruct (depth_view (scan_fuel src) t 1 _ V3 (view_length no_char no_char src text Hs _ _ V3)) as (l3 & -> & V4 & T4).
      eexists. split; [reflexivity|]. split; [exact V4|]. cbn [add_token lx_toks]. now rewrite T4, T3, T2, T1. }
    assert (E : r_comment cs = None).
    { destruct cs as [| c r]; [reflexivity|]. unfold r_comment. assert (c <> 59%Z) by (intros ->; assert (false = true) by (apply B; now exists r); discriminate).
      assert (forall t, c :: r <> 35 :: 124 :: t)%Z by (intros t Et; assert (false = true) by (apply B'; now exists t); discriminate).
      destruct (Z.eq_dec c 35) as [-> | N35]; [destruct r as [| d r]; [reflexivity|]; destruct (Z.eq_dec d 124) as [-> | N124]; [now destruct (H0 r)|]|].
      - clear - N124. destruct d as [| p | p]; try reflexivity. do 7 (destruct p as [p | p |]; try reflexivity). now destruct N124.
      - clear - H N35. destruct c as [| p | p]; try reflexivity. do 6 (destruct p as [p | p |]; try reflexivity); contradiction. }
    rewrite E. exists l2. split; [reflexivity|]. split; [assumption|]. split; congruence.
  Qed.

  Definition r_string (cs : list Z) : option (nat * list Z) := match cs with c :: r => if (c =? 34)%Z then Some (HString, literal_rest r) else None | [] => None end.
  Lemma string_view cs : reading (sch_string src) cs (r_string cs).
  Proof.
    intros l V. unfold sch_string, r_string. destruct (scan_string_spec src text [34]%Z (Some 92%Z) HString l Hs (proj1 V) ltac:(unfold is_scalar; lia)) as (b & l' & -> & P & C).
    assert (Same : forall l', lx_placed src text l' -> declines l l' -> same l l' cs) by (intros x Px [T O]; split; [split; [assumption|]; rewrite O; apply V | now split]). destruct b.
    - destruct C as (L & Em & q & m & Iq & R & Le). destruct Iq as [<- | []].
      destruct Le as [(e & b & R1 & B & R2) | (En & b & R1 & B)].
      + destruct (view_split src text Hs l cs (lx_pos l') ([34%Z] ++ b ++ [34%Z]) V (proj2 P)) as (x & -> & Rx); [exact (reads_app _ _ _ _ _ _ R (reads_app _ _ _ _ _ _ R1 R2))|].
        rewrite <- !app_assoc. cbn [app Z.eqb Pos.eqb]. rewrite (body_rest b _ B). cbn [literal_rest Z.eqb Pos.eqb]. exists l'. split; [reflexivity|]. split; [now split | assumption].
      + destruct (view_split src text Hs l cs (lx_pos l') ([34%Z] ++ b) V (proj2 P)) as (x & -> & Rx); [exact (reads_app _ _ _ _ _ _ R R1)|].
        assert (x = []). { apply reads_end in Rx. rewrite En in Rx. destruct x as [| x0 x]; [reflexivity|]. cbn [encode] in Rx. rewrite app_length, encode_char_length in Rx. pose proof (char_len_pos x0). lia. }
        subst x. rewrite app_nil_r. cbn [app Z.eqb Pos.eqb]. assert (literal_rest b = []) as ->.
        { destruct B as [B | (b' & y & E & -> & B)]; [rewrite <- (app_nil_r b); now rewrite (body_rest b [] B)|]. injection E as <-. now rewrite (body_rest b' _ B). }
        exists l'. split; [reflexivity|]. split; [now split | assumption].
    - destruct C as (D & N). exists l'. destruct cs as [| c r]; [split; [reflexivity | now apply Same]|]. destruct (view_head src text l c r V) as (m & M & _). specialize (N c m M).
      destruct (Z.eqb_spec c 34) as [-> |]; [destruct N; now left|]. split; [reflexivity | now apply Same].
  Qed.

  (** What is at hand: the rest of the current chunk *)
  Definition at_hand (l : lexer) (p q : list Z) : Prop := exists c, rest src (lx_cur l) = (encode p, c) /\ view (Lexer c (lx_toks l)) (p ++ q) /\ cu_off c = lx_pos l /\ rest src c = (encode p, c).
  Lemma ensure_twice c : placed src text c -> ensure_chunk src (ensure_chunk src c) = ensure_chunk src c.
  Proof.
    intros P. destruct (ensure_placed src text c Hs P) as (P' & O & R & Lt). cbv zeta in *. set (c' := ensure_chunk src c) in *. unfold ensure_chunk. rewrite (Hlen src text Hs), O. pose proof (is_boundary_le _ _ (proj2 P)).
    destruct (Nat.ltb_spec (length text) (cu_off c)); [lia|]. destruct (Nat.ltb_spec (cu_off c) (cu_start c')); [lia|]. destruct (Nat.ltb_spec (cu_end c') (cu_off c)); [lia|]. cbn [orb].
    destruct (Nat.eqb_spec (cu_off c) (cu_end c')); cbn [andb]; [destruct (Nat.ltb_spec (cu_off c) (length text)); [lia|]|]; rewrite <- O; now destruct c'.
  Qed.
  Lemma hand_view l cs : view l cs -> exists p q, cs = p ++ q /\ (p = [] -> cs = []) /\ at_hand l p q /\ (cu_end (ensure_chunk src (lx_cur l)) = length text -> q = []).
  Proof.
    intros V. destruct (rest_spec src text (lx_cur l) Hs (proj1 V)) as (c & E & Ec). destruct (ensure_placed src text (lx_cur l) Hs (proj1 V)) as (P & O & R & Lt). destruct (ensure_text src text (lx_cur l) Hs (proj1 V)) as (_ & _ & _ & Le & Bd). cbv zeta in *. rewrite <- Ec in *.
    destruct (reads_of_boundaries text (lx_pos l) (cu_end c) (Hv src text Hs)) as (p & Rp); [apply R | exact (proj2 (proj1 V)) | exact Bd|].
    destruct (view_split src text Hs l cs (cu_end c) p V Bd Rp) as (q & -> & Rq). exists p, q. split; [reflexivity|].
    assert (Ep : encode p = substr text (lx_pos l) (cu_end c)) by (destruct Rp as (_ & _ & Rp); now symmetry).
    split.
    { intros ->. apply reads_end in Rp. cbn in Rp. destruct q as [| x q]; [reflexivity|]. pose proof (view_pos src text l _ V) as L. cbn [app encode] in L. rewrite app_length, encode_char_length in L. pose proof (char_len_pos x). unfold lx_pos in *. lia. }
    split.
    { exists c. split; [rewrite E, Ep; reflexivity|]. split; [|split; [exact O|]].
      - split; [exact P|]. unfold lx_pos. cbn [lx_cur]. rewrite O. apply V.
      - destruct (rest_spec src text c Hs P) as (c' & E' & Ec'). rewrite Ec, (ensure_twice _ (proj1 V)), <- Ec in Ec'. subst c'. rewrite E', O, Ep. reflexivity. }
    { intros En. apply reads_end in Rq. rewrite En in Rq. destruct q as [| x q]; [reflexivity|]. cbn [encode] in Rq. rewrite app_length, encode_char_length in Rq. pose proof (char_len_pos x). lia. }
  Qed.

  Hypothesis Hslice : forall a b s, is_boundary text a = true -> reads text a b s -> slice a b = encode s.
  Lemma hand_scalars l p q : at_hand l p q -> Forall is_scalar p.
  Proof. intros (c & _ & V & _). destruct V as [_ (F & _)]. now apply Forall_app in F. Qed.
  Lemma number_view l p q : at_hand l p q -> match number_of p with
    | Some (s, t) => exists l', sch_number src l = Some (true, l') /\ stepped l l' (Some HNumber) (t ++ q)
    | None => exists l', sch_number src l = Some (false, l') /\ same l l' (p ++ q) /\ at_hand l' p q
    end.
  Proof.
    intros H. pose proof (hand_scalars _ _ _ H) as F. destruct H as (c & E & V & O & E'). unfold sch_number. rewrite E, (chars_encode p F).
    assert (No : same l (Lexer c (lx_toks l)) (p ++ q) /\ at_hand (Lexer c (lx_toks l)) p q) by (split; [split; [assumption|]; now split | exists c; now split]).
    assert (Yes : forall s t, p = s ++ t -> exists l', sch_token HNumber l (lx_advance src (Lexer c (lx_toks l)) (length (encode s))) = Some (true, l') /\ stepped l l' (Some HNumber) (t ++ q)).
    { intros s t ->. rewrite <- app_assoc in V. destruct (view_jump s (t ++ q) _ V) as (V1 & T1). now apply token_view. }
    destruct p as [| x t]; [eexists; split; [reflexivity | exact No]|]. unfold number_of. destruct (signed_case x t) as [(g & Eg & _ & Sg) | [Eg Ng]]; rewrite Eg.
    - assert (((x =? 45) || (x =? 43))%Z = true) as -> by (unfold ssign in Sg; lia). rewrite andb_false_r. rewrite figures_run. pose proof (figures_app t) as Ap. destruct (figures t) as [[s u] h]. cbn [orb]. destruct h; [|eexists; split; [reflexivity | exact No]].
      destruct (Yes (x :: s) u) as (l' & El & Sl); [cbn; now rewrite Ap|]. exists l'. split; [|exact Sl]. cbn [encode] in El. rewrite app_length, encode_char_length in El. exact El.
    - assert (((x =? 45) || (x =? 43))%Z = false) as -> by (unfold ssign in Ng; lia). destruct (ascii_digit_c x) eqn:D; cbn [negb andb]; [|eexists; split; [reflexivity | exact No]].
      rewrite figures_run. pose proof (figures_app (x :: t)) as Ap. assert (Hh : let '(_, _, h) := figures (x :: t) in h = true).
      { unfold figures. cbn [char_run]. rewrite D. destruct (drop_run ascii_digit_c (x :: t)) as [| d v]; [reflexivity|]. destruct (d =? 46)%Z; reflexivity. }
      destruct (figures (x :: t)) as [[s u] h]. subst h. cbn [orb Nat.add]. apply Yes. now symmetry.
  Qed.

  Lemma word_run cs : forall len, sch_run alpha cs len = len + length (encode (char_run (sch_continue alpha) cs)).
  Proof.
    induction cs as [| c r IH]; intros len; cbn [sch_run char_run]; [cbn; lia|]. destruct (sch_continue alpha c); [|cbn; lia]. rewrite IH. cbn [encode]. rewrite app_length, encode_char_length. lia.
  Qed.
  Lemma word_kind c s : Forall is_scalar (c :: s) -> sstart alpha c -> letters alpha -> sch_word_kind (encode (c :: s)) = HKeyword /\ In (c :: s) keywords \/ sch_word_kind (encode (c :: s)) = HIdentifier /\ ~ In (c :: s) keywords.
  Proof.
    intros F St Al. assert (E : existsb (str_eqb (encode (c :: s))) sch_words = true <-> In (c :: s) keywords).
    { rewrite existsb_exists. split.
      - intros (w & I & E). apply XmlSerdeProofs.str_eqb_iff in E. assert (Ew : encode w = w /\ Forall is_scalar w).
        { apply JsonLexProofs.ascii_encode. revert I. clear. intros I. cbn in I. repeat destruct I as [<- | I]; try contradiction; repeat constructor; lia. }
        destruct Ew as [Ew Fw]. rewrite <- Ew in E. apply encode_inj in E; [|assumption | assumption]. subst w.
        assert (N35 : c <> 35%Z). { intros ->. destruct St as [A | A]; [apply Al in A; destruct A as [_ A]; specialize (A ltac:(lia)); lia | cbn in A; lia]. }
        assert (Sp : forall w, In w sch_words -> hd_error w = Some 35%Z \/ In w keywords). { clear. intros w I. cbn in I. repeat (destruct I as [<- | I]; [solve [left; reflexivity | right; cbn; tauto]|]). contradiction. }
        destruct (Sp _ I) as [Hh | Hk]; [injection Hh as Hh; contradiction | exact Hk].
      - intros I. exists (c :: s). split.
        + revert I. generalize (c :: s). clear. intros w I. cbn in I. repeat (destruct I as [<- | I]; [cbn; tauto|]). contradiction.
        + apply XmlSerdeProofs.str_eqb_iff. apply JsonLexProofs.ascii_encode. revert I. generalize (c :: s). clear. intros w I. cbn in I. repeat destruct I as [<- | I]; try contradiction; repeat constructor; lia. }
    unfold sch_word_kind. destruct (existsb (str_eqb (encode (c :: s))) sch_words); [left; split; [reflexivity | now apply E] | right; split; [reflexivity|]]. intros I. apply E in I. discriminate.
  Qed.
  Lemma identifier_view l p q : letters alpha -> at_hand l p q -> match p with
    | c :: r => if sch_start alpha c then exists k l', sch_identifier alpha src slice l = Some (true, l') /\ stepped l l' (Some k) (drop_run (sch_continue alpha) r ++ q) /\
                  (k = HKeyword /\ In (c :: char_run (sch_continue alpha) r) keywords \/ k = HIdentifier /\ ~ In (c :: char_run (sch_continue alpha) r) keywords)
                else exists l', sch_identifier alpha src slice l = Some (false, l') /\ same l l' (p ++ q)
    | [] => True
    end.
  Proof.
    intros Al H. pose proof (hand_scalars _ _ _ H) as F. destruct H as (c0 & E & V & O & _). destruct p as [| c r]; [exact I|]. unfold sch_identifier. rewrite E, (chars_encode _ F). destruct (sch_start alpha c) eqn:St.
    - rewrite word_run. set (s := char_run (sch_continue alpha) r). set (t := drop_run (sch_continue alpha) r). assert (Er : r = s ++ t) by (symmetry; apply run_drop).
      assert (L : char_len c + length (encode s) = length (encode (c :: s))) by (cbn [encode]; now rewrite app_length, encode_char_length). rewrite L.
      assert (V0 : view (Lexer c0 (lx_toks l)) ((c :: s) ++ t ++ q)) by (cbn [app]; rewrite app_assoc, <- Er; exact V). destruct (view_jump (c :: s) (t ++ q) _ V0) as (V1 & T1).
      assert (Rd : reads text (lx_pos l) (lx_pos l + length (encode (c :: s))) (c :: s)).
      { destruct V0 as [[_ B] (F0 & L0 & R0)]. change (lx_pos (Lexer c0 (lx_toks l))) with (cu_off c0) in *. rewrite O in *. apply Forall_app in F0. destruct F0 as [F1 _]. rewrite encode_app in R0.
        assert (LL : length (encode (c :: s)) + length (encode (t ++ q)) = length text - lx_pos l) by (rewrite <- app_length, <- R0; now apply substr_length).
        split; [assumption|]. split; [lia|]. unfold substr in *. replace (lx_pos l + length (encode (c :: s)) - lx_pos l) with (length (encode (c :: s))) by lia.
        assert (Sk : skipn (lx_pos l) text = encode (c :: s) ++ encode (t ++ q)) by (rewrite <- R0; symmetry; apply firstn_all2; rewrite skipn_length; lia). rewrite Sk, firstn_app, firstn_all, Nat.sub_diag. cbn [firstn]. now rewrite app_nil_r. }
      assert (Bd : is_boundary text (lx_pos l) = true). { destruct V0 as [[_ B] _]. cbn [lx_cur] in B. now rewrite O in B. }
      rewrite (Hslice _ _ _ Bd Rd). exists (sch_word_kind (encode (c :: s))). destruct (token_view (sch_word_kind (encode (c :: s))) l l _ (t ++ q) T1 eq_refl V1) as (x & Ex & Sx). exists x. split; [exact Ex|]. split; [exact Sx|].
      apply word_kind; [|now apply startb | assumption]. rewrite Er in F. change (c :: s ++ t) with ((c :: s) ++ t) in F. now apply Forall_app in F.
    - eexists. split; [reflexivity|]. split; [exact V|]. split; [exact O | reflexivity].
  Qed.

  Lemma mark_spec c k : sch_mark c = Some k <-> In (c, k) marks \/ c = 46%Z /\ k = HDot.
  Proof.
    split.
    - unfold sch_mark. repeat match goal with |- context [(c =? ?n)%Z] => destruct (Z.eqb_spec c n) as [-> | ?]; [intros E; apply (f_equal (fun o => match o with Some x => x | None => k end)) in E; cbv iota in E; subst k; solve [left; cbn; tauto | right; now split]|] end. discriminate.
    - intros [H | [-> ->]]; [|reflexivity]. unfold marks in H. cbn [In] in H. repeat (destruct H as [H | H]; [apply (f_equal fst) in H as Hc; apply (f_equal snd) in H; cbn [fst snd] in Hc, H; subst; reflexivity|]). contradiction.
  Qed.
  Lemma mark_ascii c k : sch_mark c = Some k -> char_len c = 1.
  Proof. intros H. apply mark_spec in H. unfold char_len. destruct (Z.ltb_spec c 128); [reflexivity|]. unfold marks in H. cbn [In] in H. destruct H as [H | [-> _]]; [|lia]. repeat (destruct H as [H | H]; [apply (f_equal fst) in H; cbn [fst] in H; lia|]). contradiction. Qed.
  Lemma single_view c r l : view l (c :: r) -> match sch_mark c with
    | Some k => exists l', sch_single src l = Some (true, l') /\ stepped l l' (Some k) r
    | None => exists l', sch_single src l = Some (false, l') /\ same l l' (c :: r)
    end.
  Proof.
    intros V. unfold sch_single. destruct (view_current src text Hs l _ V) as (l1 & -> & V1 & O1 & T1). cbn [hd_error]. destruct (sch_mark c) as [k|].
    - destruct (view_advance src text Hs l1 c r V1) as (V2 & _ & T2). now apply token_view; [congruence | | ].
    - exists l1. split; [reflexivity|]. now split.
  Qed.

  (** ** A round *)
  Variable window : list Z -> list Z -> Prop.
  Hypothesis Hwindow : forall l cs, view l cs -> exists p q, cs = p ++ q /\ (p = [] -> cs = []) /\ at_hand l p q /\ forall s t, s ++ t = p -> window (s ++ t ++ q) (s ++ t).
  Lemma try_first (r1 : lexer -> option (bool * lexer)) rs cs o l : reading r1 cs o -> view l cs ->
    match o with
    | Some (k, t) => exists l', try_rules (r1 :: rs) l = Some (true, l') /\ stepped l l' (Some k) t
    | None => exists l', try_rules (r1 :: rs) l = try_rules rs l' /\ same l l' cs
    end.
  Proof. intros R V. destruct (R l V) as (l' & E & C). destruct o as [[k t]|]; exists l'; cbn [try_rules]; rewrite E; now split. Qed.
  Lemma stepped_same l l1 l' cs k t : same l l1 cs -> stepped l1 l' k t -> stepped l l' k t.
  Proof. intros (_ & O & T) (V & T'). split; [assumption|]. now rewrite T', T, O. Qed.

  Lemma comment_none c r : r_comment (c :: r) = None -> c <> 59%Z /\ ~ (c = 35%Z /\ hd_error r = Some 124%Z).
  Proof. intros E. split; [intros ->; discriminate|]. intros [-> H]. destruct r as [| d r]; [discriminate|]. injection H as ->. discriminate. Qed.
  Lemma comment_some cs k t : r_comment cs = Some (k, t) -> exists s, cs = s ++ t /\ s <> [] /\ sch_piece alpha window (Some k) s t.
  Proof.
    intros E. assert (C : (exists r, cs = 59%Z :: r /\ k = HLineComment /\ t = drop_run not_lf r) \/ exists r, cs = (35 :: 124 :: r)%Z /\ k = HComment /\ t = nest 1 r).
    { unfold r_comment in E. destruct cs as [| c r]; [discriminate|]. destruct (Z.eq_dec c 59) as [-> | N]; [left; exists r; injection E; intros; subst; now split|]. destruct (Z.eq_dec c 35) as [-> | N35].
      - destruct r as [| d r]; [discriminate|]. destruct (Z.eq_dec d 124) as [-> | N124]; [right; exists r; injection E; intros; subst; now split|]. exfalso. revert E. clear - N124. destruct d as [| p | p]; try discriminate. do 7 (destruct p as [p | p |]; try discriminate). now destruct N124.
      - exfalso. revert E. clear - N N35. destruct c as [| p | p]; try discriminate. do 6 (destruct p as [p | p |]; try discriminate); contradiction. }
    destruct C as [(r & -> & -> & ->) | (r & -> & -> & ->)].
    - exists (59%Z :: char_run not_lf r). split; [cbn; now rewrite run_drop|]. split; [discriminate|]. constructor. apply run_full. intros c. unfold not_lf. destruct (Z.eqb_spec c 10); cbn; split; (discriminate || congruence || easy).
    - destruct (nest_spec _ r 1 (le_n _)) as [(b & Eb & C) | [E0 C]].
      + exists (35 :: 124 :: b)%Z. split; [cbn; now rewrite <- Eb|]. split; [discriminate | now constructor].
      + exists (35 :: 124 :: r)%Z. rewrite E0. split; [now rewrite app_nil_r|]. split; [discriminate | now constructor].
  Qed.
  Lemma literal_split : forall n r, length r <= n -> let t := literal_rest r in exists b, literal_body 34 (Some 92%Z) b /\ (r = (b ++ [34%Z]) ++ t \/ t = [] /\ (r = b \/ r = b ++ [92%Z])).
  Proof.
    induction n as [| n IH]; intros r L; cbv zeta.
    - destruct r; [|cbn in L; lia]. exists []. split; [constructor|]. right. split; [reflexivity | now left].
    - destruct r as [| c r]; [exists []; split; [constructor|]; right; split; [reflexivity | now left]|]. cbn [literal_rest length] in *. destruct (Z.eqb_spec c 34) as [-> | N]; [exists []; split; [constructor | now left]|]. destruct (Z.eqb_spec c 92) as [-> | N'].
      + destruct r as [| d r]; [exists []; split; [constructor|]; right; split; [reflexivity | now right]|]. destruct (IH r ltac:(cbn in L; lia)) as (b & B & C). exists (92%Z :: d :: b). split; [now apply LBEscaped|]. cbn [app].
        destruct C as [C | (C & [D | D])]; [left; now rewrite C at 1 | right; split; [assumption | left; now rewrite D at 1] | right; split; [assumption | right; now rewrite D at 1]].
      + destruct (IH r ltac:(lia)) as (b & B & C). exists (c :: b). split; [apply LBPlain; [assumption | congruence | assumption]|]. cbn [app].
        destruct C as [C | (C & [D | D])]; [left; now rewrite C at 1 | right; split; [assumption | left; now rewrite D at 1] | right; split; [assumption | right; now rewrite D at 1]].
  Qed.
  Lemma string_some cs k t : r_string cs = Some (k, t) -> exists s, cs = s ++ t /\ s <> [] /\ sch_piece alpha window (Some k) s t.
  Proof.
    destruct cs as [| c r]; cbn [r_string]; [discriminate|]. destruct (Z.eqb_spec c 34) as [-> | N]; [|discriminate]. intros E. injection E as <- <-.
    destruct (literal_split _ r (le_n _)) as (b & B & C). cbv zeta in C. destruct C as [C | (C & [D | D])].
    - exists (34%Z :: b ++ [34%Z]). split; [cbn; now rewrite C at 1|]. split; [discriminate | now constructor].
    - exists (34%Z :: r). rewrite C, app_nil_r. split; [reflexivity|]. split; [discriminate|]. subst r. now apply PStringOpen.
    - exists (34%Z :: r). rewrite C, app_nil_r. split; [reflexivity|]. split; [discriminate|]. rewrite D. now apply PStringEscape.
  Qed.

  Lemma round_view l c r : letters alpha -> view l (c :: r) -> exists l' k s t, sch_round alpha src slice l = Some l' /\ c :: r = s ++ t /\ s <> [] /\ sch_piece alpha window k s t /\ stepped l l' k t.
  Proof.
    intros Al V. unfold sch_round, sch_rules.
    match goal with |- context [try_rules (?r1 :: ?rs) l] => pose proof (try_first r1 rs _ _ l (space_view (c :: r)) V) as H1 end. unfold r_space in H1. pose proof (run_full sspace char_is_whitespace (c :: r) ltac:(reflexivity)) as Rn. pose proof (run_drop char_is_whitespace (c :: r)) as Dn. destruct (char_run char_is_whitespace (c :: r)) as [| c' s] eqn:Ew.
    2:{ destruct H1 as (l' & -> & S1). eexists l', _, (c' :: s), _. split; [reflexivity|]. split; [symmetry; exact Dn|]. split; [discriminate|]. split; [constructor; exact Rn | exact S1]. }
    assert (W : char_is_whitespace c = false) by (cbn [char_run] in Ew; destruct (char_is_whitespace c); [discriminate | reflexivity]). clear Ew Rn Dn. destruct H1 as (l1 & -> & S1).
    match goal with |- context [try_rules (?r1 :: ?rs) l1] => pose proof (try_first r1 rs _ _ l1 (newline_view c r W) (proj1 S1)) as H1 end. destruct H1 as (l2 & -> & S2). apply (XmlLexProofs.same_trans _ _ _ _ _ _ S1) in S2. clear l1 S1.
    match goal with |- context [try_rules (?r1 :: ?rs) l2] => pose proof (try_first r1 rs _ _ l2 (comment_view (c :: r)) (proj1 S2)) as H1 end. destruct (r_comment (c :: r)) as [[k t]|] eqn:Ec.
    { destruct H1 as (l' & -> & S3). destruct (comment_some _ _ _ Ec) as (s & E & N & P). exists l', (Some k), s, t. split; [reflexivity|]. split; [assumption|]. split; [assumption|]. split; [assumption | exact (stepped_same _ _ _ _ _ _ S2 S3)]. }
    apply comment_none in Ec. destruct Ec as [N59 N35]. destruct H1 as (l3 & -> & S3). apply (XmlLexProofs.same_trans _ _ _ _ _ _ S2) in S3. clear l2 S2.
    match goal with |- context [try_rules (?r1 :: ?rs) l3] => pose proof (try_first r1 rs _ _ l3 (string_view (c :: r)) (proj1 S3)) as H1 end. destruct (r_string (c :: r)) as [[k t]|] eqn:Ec.
    { destruct H1 as (l' & -> & S4). destruct (string_some _ _ _ Ec) as (s & E & N & P). exists l', (Some k), s, t. split; [reflexivity|]. split; [assumption|]. split; [assumption|]. split; [assumption | exact (stepped_same _ _ _ _ _ _ S3 S4)]. }
    assert (N34 : c <> 34%Z) by (intros ->; discriminate). clear Ec. destruct H1 as (l4 & -> & S4). apply (XmlLexProofs.same_trans _ _ _ _ _ _ S3) in S4. clear l3 S3.
    destruct (Hwindow l4 _ (proj1 S4)) as (p & q & Ep & Np & Hh & Wi). destruct p as [| c' p]; [now specialize (Np eq_refl)|]. injection Ep as <- ->.
    cbn [try_rules]. pose proof (number_view l4 (c :: p) q Hh) as Nv. destruct (number_of (c :: p)) as [[s t]|] eqn:En.
    { destruct Nv as (l' & -> & S5). apply number_of_some in En. destruct En as (E & N & Nt & Ns). exists l', (Some HNumber), s, (t ++ q). split; [reflexivity|]. split; [rewrite app_assoc, <- E; reflexivity|]. split; [assumption|]. split; [|exact (stepped_same _ _ _ _ _ _ S4 S5)].
      apply (PNumber _ _ s t); [apply Wi; now symmetry | assumption | assumption]. }
    destruct Nv as (l5 & -> & S5 & Hh5). apply (XmlLexProofs.same_trans _ _ _ _ _ _ S4) in S5. clear l4 S4 Hh.
    pose proof (identifier_view l5 (c :: p) q Al Hh5) as Iv. cbv iota in Iv. destruct (sch_start alpha c) eqn:St.
    { destruct Iv as (k & l' & -> & S6 & K). exists l', (Some k), (c :: char_run (sch_continue alpha) p), (drop_run (sch_continue alpha) p ++ q). split; [reflexivity|]. split; [cbn; rewrite app_assoc, run_drop; reflexivity|]. split; [discriminate|]. split; [|exact (stepped_same _ _ _ _ _ _ S5 S6)].
      apply (PWord _ _ c _ (drop_run (sch_continue alpha) p)); [apply (Wi (c :: char_run (sch_continue alpha) p)); cbn; now rewrite run_drop | now apply startb | apply run_full, continueb | | exact K]. rewrite run_drop. now apply number_none. }
    destruct Iv as (l6 & -> & S6). apply (XmlLexProofs.same_trans _ _ _ _ _ _ S5) in S6. clear l5 S5 Hh5. cbn [app] in S6.
    assert (Nst : ~ sstart alpha c) by (rewrite <- startb, St; discriminate). assert (N46 : c <> 46%Z) by (intros ->; apply Nst; right; cbn; tauto).
    pose proof (single_view c (p ++ q) l6 (proj1 S6)) as Sv. destruct (sch_mark c) as [k|] eqn:M.
    { destruct Sv as (l' & -> & S7). exists l', (Some k), [c], (p ++ q). split; [reflexivity|]. split; [reflexivity|]. split; [discriminate|]. split; [|exact (stepped_same _ _ _ _ _ _ S6 S7)]. apply mark_spec in M. destruct M as [M | [-> _]]; [|contradiction]. now constructor. }
    destruct Sv as (l7 & -> & S7). apply (XmlLexProofs.same_trans _ _ _ _ _ _ S6) in S7. clear l6 S6. unfold sch_other. destruct (view_current src text Hs l7 _ (proj1 S7)) as (l8 & -> & V8 & O8 & T8). cbn [hd_error].
    destruct (view_advance src text Hs l8 c (p ++ q) V8) as (V9 & O9 & T9). unfold sch_token. exists (advance_if_dead_lock src (lx_pos l) (add_token (lx_advance src l8 (char_len c)) HError (lx_pos l7) (lx_pos (lx_advance src l8 (char_len c))))), (Some HError), [c], (p ++ q).
    split; [reflexivity|]. split; [reflexivity|]. split; [discriminate|]. split.
    - constructor; [unfold sspace; rewrite W; discriminate | | assumption | assumption | assumption|].
      + intros D. apply digitb in D. unfold number_of in En. destruct (signed_case c p) as [(_ & _ & _ & Sg) | [Eg _]]; [apply sign_no_digit in Sg; now apply digitb in D|]. rewrite Eg, D in En. destruct (figures (c :: p)) as [[? ?] ?]. discriminate.
      + intros k I. assert (sch_mark c = Some k) by (apply mark_spec; now left). congruence.
    - destruct S7 as (_ & O7 & T7). assert (Dl : forall x, lx_pos x <> lx_pos l -> advance_if_dead_lock src (lx_pos l) x = x). { intros x Nx. unfold advance_if_dead_lock. destruct (Nat.eqb_spec (lx_pos x) (lx_pos l)); [contradiction | reflexivity]. }
      rewrite Dl.
      + split; [exact V9|]. cbn [add_token lx_toks]. rewrite T9, T8, T7, O7. reflexivity.
      + change (lx_pos (lx_advance src l8 (char_len c)) <> lx_pos l). rewrite O9, O8, O7. cbn [encode]. rewrite app_nil_r, encode_char_length. pose proof (char_len_pos c). lia.
  Qed.
End Rules.

(** ** The pieces of a text that is in one chunk are determined *)
Definition sch1 (alpha : Z -> bool) (cs : list Z) : option (nat * list Z) :=
  match cs with
  | [] => None
  | c :: r =>
      if char_is_whitespace c then Some (HWhitespace, drop_run char_is_whitespace cs) else
      match r_comment cs with Some x => Some x | None =>
      match r_string cs with Some x => Some x | None =>
      match number_of cs with Some (_, t) => Some (HNumber, t) | None =>
      if sch_start alpha c then Some (if existsb (str_eqb (c :: char_run (sch_continue alpha) r)) keywords then HKeyword else HIdentifier, drop_run (sch_continue alpha) r) else
      match sch_mark c with Some k => Some (k, r) | None => Some (HError, r) end end end end
  end.
Lemma comment_other c r : c <> 59%Z -> (c = 35%Z -> hd_error r <> Some 124%Z) -> r_comment (c :: r) = None.
Proof.
  intros N59 N35. unfold r_comment. destruct (Z.eq_dec c 35) as [-> | N].
  - destruct r as [| d r]; [reflexivity|]. specialize (N35 eq_refl). assert (N124 : d <> 124%Z) by (intros ->; now apply N35). clear - N124. destruct d as [| p | p]; try reflexivity. do 7 (destruct p as [p | p |]; try reflexivity). now destruct N124.
  - clear - N N59. destruct c as [| p | p]; try reflexivity. do 6 (destruct p as [p | p |]; try reflexivity); contradiction.
Qed.
Lemma string_other c r : c <> 34%Z -> r_string (c :: r) = None.
Proof. intros N. unfold r_string. destruct (Z.eqb_spec c 34); [contradiction | reflexivity]. Qed.
Lemma number_other c r : ~ sdigit c -> ~ ssign c -> number_of (c :: r) = None.
Proof. intros D Sg. unfold number_of. destruct (signed_case c r) as [(_ & _ & _ & H) | [-> _]]; [contradiction|]. destruct (ascii_digit_c c) eqn:E; [apply digitb in E; contradiction | reflexivity]. Qed.
Lemma number_first s : number_text s -> exists c t, s = c :: t /\ (sdigit c \/ ssign c).
Proof.
  intros [g a G A N | g a b G A B N]; (destruct G as [-> | (c & -> & Sg)]; [|eexists _, _; split; [reflexivity | now right]]).
  - destruct a as [| c a]; [contradiction|]. apply Forall_inv in A. exists c, a. split; [reflexivity | now left].
  - destruct N as [N | [_ N]]; [|contradiction]. destruct a as [| c a]; [contradiction|]. apply Forall_inv in A. eexists c, _. split; [reflexivity | now left].
Qed.
Lemma not_white c : (33 <= c <= 126)%Z -> char_is_whitespace c = false.
Proof.
  intros H. unfold char_is_whitespace. repeat match goal with |- context [(?a <=? ?b)%Z] => destruct (Z.leb_spec a b) | |- context [(?a =? ?b)%Z] => destruct (Z.eqb_spec a b) end; try reflexivity; lia.
Qed.
Lemma start_facts alpha c : letters alpha -> sstart alpha c -> char_is_whitespace c = false /\ c <> 59%Z /\ c <> 34%Z /\ c <> 35%Z.
Proof.
  intros Al [A | A].
  - apply Al in A. destruct A as [Sp A]. unfold sspace in Sp. split; [now destruct (char_is_whitespace c)|]. destruct (Z_lt_dec c 128) as [L | L]; [specialize (A L)|]; lia.
  - assert ((33 <= c <= 126)%Z /\ c <> 59%Z /\ c <> 34%Z /\ c <> 35%Z) as (R & H) by (cbn [In] in A; lia). split; [now apply not_white | exact H].
Qed.
Lemma marks_facts alpha c k : letters alpha -> In (c, k) marks -> (33 <= c <= 126)%Z /\ c <> 59%Z /\ c <> 34%Z /\ ~ sdigit c /\ ~ ssign c /\ ~ sstart alpha c.
Proof.
  intros Al H. assert (Hc : (c = 40 \/ c = 41 \/ c = 91 \/ c = 93 \/ c = 123 \/ c = 125 \/ c = 39 \/ c = 96 \/ c = 44 \/ c = 35)%Z).
  { unfold marks in H. cbn [In] in H. repeat (destruct H as [H | H]; [apply (f_equal fst) in H; cbn [fst] in H; lia|]). contradiction. }
  split; [lia|]. split; [lia|]. split; [lia|]. split; [unfold sdigit; lia|]. split; [unfold ssign; lia|]. intros [A | A].
  - apply Al in A. destruct A as [_ A]. specialize (A ltac:(lia)). lia.
  - cbn [In] in A. lia.
Qed.
Lemma piece_sch1 alpha k s r : letters alpha -> sch_piece alpha whole k s r -> s <> [] -> exists k0, k = Some k0 /\ sch1 alpha (s ++ r) = Some (k0, r).
Proof.
  intros Al P N. destruct P as [s r Rn | s r Rn | b r C | b C | b r B | b B | b B | s q r W Nt Ns | c s q r k W St Rn Nn K | c k r M Nc | c r N1 N2 N3 N4 N5 N6]; eexists; (split; [reflexivity|]); cbn [app].
  - destruct (full_run_is sspace char_is_whitespace s r ltac:(reflexivity) Rn) as [_ E]. destruct s as [| c s]; [contradiction|]. destruct Rn as [F _]. apply Forall_inv in F. cbn [app sch1] in *. unfold sspace in F. now rewrite F, E.
  - destruct (full_run_is (fun c => c <> 10%Z) not_lf s r ltac:(intros c; unfold not_lf; destruct (Z.eqb_spec c 10); cbn; split; (discriminate || congruence || easy)) Rn) as [_ E]. cbn [sch1]. change (char_is_whitespace 59) with false. cbv iota. cbn [r_comment]. now rewrite E.
  - cbn [sch1]. change (char_is_whitespace 35) with false. cbv iota. cbn [r_comment]. now rewrite (nest_closes 1 b r C).
  - cbn [sch1]. change (char_is_whitespace 35) with false. cbv iota. cbn [r_comment]. now rewrite app_nil_r, (nest_open 1 b C).
  - cbn [sch1]. change (char_is_whitespace 34) with false. cbv iota. cbn [r_comment r_string Z.eqb Pos.eqb]. rewrite <- app_assoc, (body_rest b _ B). reflexivity.
  - cbn [sch1]. change (char_is_whitespace 34) with false. cbv iota. cbn [r_comment r_string Z.eqb Pos.eqb]. now rewrite (body_rest b _ B).
  - cbn [sch1]. change (char_is_whitespace 34) with false. cbv iota. cbn [r_comment r_string Z.eqb Pos.eqb]. rewrite <- app_assoc, (body_rest b _ B). reflexivity.
  - unfold whole in W. apply app_inv_head in W. subst q. pose proof (number_of_text s r Nt Ns) as E. destruct (number_first s Nt) as (c & t & -> & F). cbn [app] in *. unfold sch1. assert (Fc : (43 <= c <= 57)%Z) by (unfold sdigit, ssign in F; lia).
    rewrite (not_white c ltac:(lia)), (comment_other c _) by lia. rewrite (string_other c _) by lia. now rewrite E.
  - unfold whole in W. injection W as W. apply app_inv_head in W. subst q. destruct (start_facts alpha c Al St) as (Wc & H1 & H2 & H3). destruct (full_run_is _ _ s r (continueb alpha) Rn) as [E1 E2].
    unfold sch1. rewrite Wc, (comment_other c _ H1) by contradiction. rewrite (string_other c _ H2), (proj2 (number_none _) Nn), (proj2 (startb alpha c) St), E1, E2. f_equal. f_equal.
    destruct (existsb (str_eqb (c :: s)) keywords) eqn:Ex.
    + destruct K as [[-> _] | [_ K]]; [reflexivity|]. destruct K. apply existsb_exists in Ex. destruct Ex as (w & I & E). apply XmlSerdeProofs.str_eqb_iff in E. now subst w.
    + destruct K as [[_ K] | [-> _]]; [|reflexivity]. assert (existsb (str_eqb (c :: s)) keywords = true); [|congruence]. apply existsb_exists. exists (c :: s). split; [assumption | now apply XmlSerdeProofs.str_eqb_iff].
  - destruct (marks_facts alpha c k Al M) as (R & H1 & H2 & H3 & H4 & H5). unfold sch1. rewrite (not_white c R), (comment_other c r H1) by (intros -> E; apply Nc; now split). rewrite (string_other c _ H2), (number_other c r H3 H4).
    destruct (sch_start alpha c) eqn:E; [apply startb in E; contradiction|]. now rewrite (proj2 (mark_spec c k) (or_introl M)).
  - unfold sch1. unfold sspace in N1. destruct (char_is_whitespace c); [now destruct N1|]. rewrite (comment_other c r N4) by (intros ->; destruct (N6 HHash); cbn; tauto). rewrite (string_other c _ N5). rewrite (number_other c r N2) by (intros Sg; apply N3; right; unfold ssign in Sg; cbn; lia).
    destruct (sch_start alpha c) eqn:E; [apply startb in E; contradiction|]. destruct (sch_mark c) as [k|] eqn:M; [|reflexivity]. apply mark_spec in M. destruct M as [M | [-> _]]; [now destruct (N6 k)|]. destruct N3. right. cbn. tauto.
Qed.
Lemma sch_pieces_unique alpha k s r k' s' r' : letters alpha -> s ++ r = s' ++ r' -> s <> [] -> s' <> [] -> sch_piece alpha whole k s r -> sch_piece alpha whole k' s' r' -> k = k' /\ s = s'.
Proof.
  intros Al E N N' P P'. destruct (piece_sch1 _ _ _ _ Al P N) as (x & -> & X). destruct (piece_sch1 _ _ _ _ Al P' N') as (x' & -> & X'). rewrite E in X. rewrite X in X'. injection X' as -> ->. apply app_inv_tail in E. now split.
Qed.

(** ** All of a text *)
Lemma sch_lex_any alpha src text slice cs : letters alpha -> serves src text -> (forall a b s, is_boundary text a = true -> reads text a b s -> slice a b = encode s) -> reads text 0 (length text) cs ->
  exists ps, cut (sch_piece alpha some_part) cs ps /\ sch_lex alpha src slice = Some (spans 0 ps ++ [Token HEof (length text) (length text)]).
Proof.
  intros Al Hs Hsl R. apply (lex_all_view src text _ (sch_piece alpha some_part) Hs); [|assumption]. intros l c r V. apply (round_view alpha src text slice Hs Hsl some_part); [|assumption | assumption].
  intros l0 cs0 V0. destruct (hand_view alpha src text Hs l0 cs0 V0) as (p & q & -> & Np & H & _). exists p, q. split; [reflexivity|]. split; [assumption|]. split; [assumption|]. intros s t <-. split; [exists q; now rewrite app_assoc|]. intros E. rewrite app_assoc. now apply Np.
Qed.
Lemma flat_end text l cs : serves (flat_source text) text -> view (flat_source text) text l cs -> cs <> [] -> cu_end (ensure_chunk (flat_source text) (lx_cur l)) = length text.
Proof.
  intros Hs V N. destruct (ensure_placed (flat_source text) text (lx_cur l) Hs (proj1 V)) as (P & O & R & Lt). cbv zeta in *. set (c' := ensure_chunk (flat_source text) (lx_cur l)) in *. destruct P as [(_ & _ & off & B & E) _]. unfold flat_source in E. cbn [src_chunk_at] in E. unfold flat_chunk_at in E.
  assert (cu_off (lx_cur l) < length text). { pose proof (view_pos _ _ l _ V) as L. destruct cs as [| x q]; [contradiction|]. cbn [encode] in L. rewrite app_length, encode_char_length in L. pose proof (char_len_pos x). unfold lx_pos in L. lia. }
  specialize (Lt H). unfold cu_end in *. generalize dependent (cu_start c'). generalize (cu_text c'). intros t st E R Lt. revert E. destruct (Nat.leb_spec (length text) off) as [Lo | Lo]; intros E; apply (f_equal fst) in E as E1; apply (f_equal snd) in E; cbn [fst snd] in E, E1; subst st t; [cbn [length] in *; lia|].
  unfold str_get_from. rewrite B. destruct (Nat.leb_spec off (length text)); [|lia]. cbn [andb]. rewrite skipn_length. lia.
Qed.
Lemma sch_lex_flat alpha cs : letters alpha -> Forall is_scalar cs -> exists ps, cut (sch_piece alpha whole) cs ps /\
  sch_lex alpha (flat_source (encode cs)) (flat_text_in (encode cs)) = Some (spans 0 ps ++ [Token HEof (length (encode cs)) (length (encode cs))]).
Proof.
  intros Al F. set (text := encode cs). assert (Hs : serves (flat_source text) text) by (apply flat_serves; now exists cs).
  apply (lex_all_view (flat_source text) text _ (sch_piece alpha whole) Hs); [|now apply all_reads]. intros l c r V. apply (round_view alpha (flat_source text) text (flat_text_in text) Hs); [| |assumption | assumption].
  - intros a b s Ba Rd. assert (Bb : is_boundary text b = true) by (apply (reads_boundary text a b s); [apply Hs | assumption | assumption]). destruct Rd as (_ & L & <-). apply RopeProofs.flat_text_in_spec; [lia | now apply is_boundary_le | assumption | assumption].
  - intros l0 cs0 V0. destruct (hand_view alpha (flat_source text) text Hs l0 cs0 V0) as (p & q & -> & Np & H & E). exists p, q. split; [reflexivity|]. split; [assumption|]. split; [assumption|]. intros s t <-. unfold whole. destruct q as [| x q]; [now rewrite app_nil_r|].
    rewrite E; [now rewrite app_nil_r|]. apply (flat_end text l0 _ Hs V0). now destruct (s ++ t).
Qed.
