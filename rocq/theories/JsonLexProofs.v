(** The JSON lexer cuts a text into pieces. *)
From Verif Require Import Base Utf8 Utf8Facts ScanSpec SimdModel SimdProofs.
From Verif Require Import CursorModel CursorSpec CursorProofs LexModel LexSpec LexProofs LexLoopProofs.
From Verif Require Import JsonSpec JsonModel JsonLangSpec.

Definition drop_run (p : Z -> bool) (cs : list Z) : list Z := skipn (length (char_run p cs)) cs.
Lemma run_drop p cs : char_run p cs ++ drop_run p cs = cs.
Proof.
  unfold drop_run. induction cs as [| c r IH]; [reflexivity|]. cbn [char_run]. destruct (p c); [|reflexivity]. cbn [length skipn app]. now rewrite IH.
Qed.
Lemma drop_head p cs : match drop_run p cs with [] => True | c :: _ => p c = false end.
Proof.
  unfold drop_run. induction cs as [| c r IH]; [exact I|]. cbn [char_run]. destruct (p c) eqn:E; [exact IH | exact E].
Qed.

Section View.
  Variable (src : source) (text : str).
  Hypothesis Hs : serves src text.

  (** What is left to read. *)
  Definition view (l : lexer) (cs : list Z) : Prop := lx_placed src text l /\ reads text (lx_pos l) (length text) cs.

  Lemma Hv : valid text.
  Proof. apply Hs. Qed.
  Lemma Hlen : src_len src = length text.
  Proof. apply Hs. Qed.

  Lemma view_pos l cs : view l cs -> lx_pos l + length (encode cs) = length text.
  Proof. intros [_ R]. apply reads_end in R. lia. Qed.
  Lemma view_head l c r : view l (c :: r) -> exists m, reads text (lx_pos l) m [c] /\ reads text m (length text) r.
  Proof. intros [_ R]. apply reads_cons in R. destruct R as (m & A & B). now exists m. Qed.
  Lemma view_fuel l cs : view l cs -> length text - lx_pos l < scan_fuel src.
  Proof. intros V. unfold scan_fuel. rewrite Hlen. lia. Qed.

  Lemma view_current l cs : view l cs -> exists l', lx_current src l = (hd_error cs, l') /\ view l' cs /\ lx_pos l' = lx_pos l /\ lx_toks l' = lx_toks l.
  Proof.
    intros V. destruct (lx_current_spec src text l Hs (proj1 V)) as (r & l' & E & C & P & O & T). exists l'. rewrite E.
    assert (r = hd_error cs). { destruct cs as [| c cs]; [destruct r as [ch|]; [|reflexivity]; destruct C as [b C]; apply reads_nonempty in C; apply view_pos in V; cbn in V; lia|].
      destruct (view_head _ _ _ V) as (m & M & _). cbn [hd_error]. apply (char_at_unique text (lx_pos l)); [assumption | now exists m]. }
    subst r. split; [reflexivity|]. split; [|now split]. split; [assumption|]. rewrite O. apply V.
  Qed.

  Lemma view_advance l c r : view l (c :: r) -> let l' := lx_advance src l (char_len c) in view l' r /\ lx_pos l' = lx_pos l + length (encode [c]) /\ lx_toks l' = lx_toks l.
  Proof.
    intros V. destruct (view_head _ _ _ V) as (m & M & R). destruct (lx_step_char src text l m c Hs (proj1 V) M) as (P & O & T & _). cbv zeta. split; [split; [assumption|]; now rewrite O|]. split; [|assumption].
    rewrite O. now apply reads_end in M.
  Qed.

  Lemma view_split l cs m s : view l cs -> is_boundary text m = true -> reads text (lx_pos l) m s -> exists r, cs = s ++ r /\ reads text m (length text) r.
  Proof.
    intros V B R. destruct (reads_of_boundaries text m (length text) Hv) as (r & Rr); [now apply is_boundary_le in B | assumption | apply is_boundary_length|]. exists r. split; [|assumption].
    pose proof (reads_app _ _ _ _ _ _ R Rr) as Ra. destruct V as [_ Rc]. destruct Rc as (F1 & _ & E1). destruct Ra as (F2 & _ & E2). rewrite E1 in E2. now apply encode_inj in E2.
  Qed.

  Lemma run_unique p s r cs : cs = s ++ r -> Forall (fun c => p c = true) s -> match r with [] => True | c :: _ => p c = false end -> s = char_run p cs /\ r = drop_run p cs.
  Proof.
    intros -> F H. assert (E : char_run p (s ++ r) = s).
    { induction F as [| c s Hc _ IH]; cbn [app char_run]; [destruct r as [| c r]; [reflexivity|]; cbn; now rewrite H | now rewrite Hc, IH]. }
    unfold drop_run. rewrite E. split; [reflexivity|]. now rewrite skipn_app, skipn_all, Nat.sub_diag.
  Qed.

  Lemma view_take l cs p : view l cs -> exists l', lx_take_while src (scan_fuel src) p l = Some l' /\ view l' (drop_run p cs) /\ lx_pos l' = lx_pos l + length (encode (char_run p cs)) /\ lx_toks l' = lx_toks l.
  Proof.
    intros V. destruct (lx_take_while_spec src text p Hs (scan_fuel src) l (proj1 V) (view_fuel _ _ V)) as (l' & s & E & P & T & R & F & N). exists l'. split; [assumption|].
    destruct (view_split l cs (lx_pos l') s V (proj2 P) R) as (r & Er & Rr). destruct (run_unique p s r cs Er F) as (<- & <-).
    { destruct r as [| c r]; [exact I|]. apply reads_cons in Rr. destruct Rr as (m & M & _). now apply (N m). }
    split; [now split|]. split; [|assumption]. now apply reads_end in R.
  Qed.

  (** Literals of ASCII characters. *)
  Definition ascii_lit (p : str) : Prop := Forall (fun c => (0 <= c < 128)%Z) p.
  Lemma ascii_encode p : ascii_lit p -> encode p = p /\ Forall is_scalar p.
  Proof.
    intros F. induction F as [| c r Hc _ [IH1 IH2]]; [split; [reflexivity | constructor]|]. split.
    - cbn [encode]. rewrite IH1. unfold encode_char. destruct (Z.ltb_spec c 128); [reflexivity | lia].
    - constructor; [unfold is_scalar; lia | assumption].
  Qed.

  Lemma occurs_prefix l cs p : ascii_lit p -> view l cs -> (occurs p text (lx_pos l) <-> exists r, cs = p ++ r).
  Proof.
    intros A V. destruct (ascii_encode p A) as [Ee Es]. split.
    - intros O. destruct (occurs_reads p text (lx_pos l)) as (s & Es' & Rs); [now exists p; rewrite Ee | assumption|].
      assert (s = p) by (apply encode_inj; [apply Rs | assumption | congruence]). subst s.
      destruct (view_split l cs (lx_pos l + length p) p V) as (r & -> & _); [|assumption | now exists r].
      apply (reads_boundary text (lx_pos l) _ p Hv (proj2 (proj1 V)) Rs).
    - intros (r & ->). destruct V as [P R]. exists (encode r). destruct R as (_ & L & R). split; [|lia]. unfold substr in R. rewrite encode_app, Ee in R. rewrite <- R. symmetry. apply firstn_all2. rewrite skipn_length. lia.
  Qed.

  Lemma view_consume l cs p : ascii_lit p -> view l cs -> exists b l', lx_consume src l p = Some (b, l') /\ lx_toks l' = lx_toks l /\
    if b then exists r, cs = p ++ r /\ view l' r /\ lx_pos l' = lx_pos l + length p else (forall r, cs <> p ++ r) /\ view l' cs /\ lx_pos l' = lx_pos l.
  Proof.
    intros A V. destruct (ascii_encode p A) as [Ee Es]. destruct (lx_consume_spec src text l p Hs (proj1 V)) as (b & l' & E & P & T & C); [now exists p; rewrite Ee|]. exists b, l'. split; [assumption|]. split; [assumption|].
    pose proof (occurs_prefix l cs p A V) as O. destruct b.
    - destruct C as [C1 C2]. apply O in C1. destruct C1 as (r & ->). exists r. split; [reflexivity|]. split; [|assumption]. split; [assumption|]. rewrite C2.
      assert (Rp : reads text (lx_pos l) (lx_pos l + length p) p). { split; [assumption|]. pose proof (view_pos _ _ V) as Vp. rewrite encode_app, app_length, Ee in Vp. split; [lia|]. destruct V as [_ (_ & L & R)]. unfold substr in *. replace (lx_pos l + length p - lx_pos l) with (length p) by lia.
        rewrite firstn_all2 in R by (rewrite skipn_length; lia). rewrite R, encode_app, Ee. rewrite firstn_app, firstn_all, Nat.sub_diag. now rewrite app_nil_r. }
      destruct (view_split l (p ++ r) (lx_pos l + length p) p V) as (r' & Er & Rr); [|exact Rp|].
      + rewrite <- C2. apply P.
      + apply app_inv_head in Er. now subst r'.
    - destruct C as [C1 C2]. split; [intros r ->; apply C1, O; now exists r|]. split; [|assumption]. split; [assumption|]. rewrite C2. apply V.
  Qed.

  Lemma view_starts l cs p : ascii_lit p -> view l cs -> exists b l', lx_starts_with src l p = Some (b, l') /\ view l' cs /\ lx_pos l' = lx_pos l /\ lx_toks l' = lx_toks l /\ (b = true <-> exists r, cs = p ++ r).
  Proof.
    intros A V. destruct (lx_starts_spec src text l p Hs (proj1 V)) as (b & l' & E & P & T & O & C). exists b, l'. split; [assumption|]. split; [split; [assumption|]; rewrite O; apply V|]. split; [assumption|]. split; [assumption|].
    rewrite C. now apply occurs_prefix.
  Qed.

  Lemma view_peek1 l c r : (0 <= c < 128)%Z -> view l (c :: r) -> peek_next_n src (lx_cur l) 1 = hd_error r.
  Proof.
    intros A V. destruct (view_advance l c r V) as (V1 & O1 & _). set (l1 := lx_advance src l (char_len c)) in *. assert (E1 : encode [c] = [c]) by (apply ascii_encode; constructor; [assumption | constructor]). rewrite E1 in O1. cbn [length] in O1.
    assert (B : is_boundary text (cu_off (lx_cur l) + 1) = true) by (change (cu_off (lx_cur l)) with (lx_pos l); rewrite <- O1; apply V1).
    pose proof (peek_next_n_spec src text (lx_cur l) 1 Hs (proj1 V) B) as C. change (cu_off (lx_cur l)) with (lx_pos l) in C. rewrite <- O1 in C.
    destruct (view_current l1 r V1) as (l2 & E & _). destruct (lx_current_spec src text l1 Hs (proj1 V1)) as (x & l3 & E3 & C3 & _). rewrite E in E3. assert (x = hd_error r) by congruence. subst x. now apply (char_at_unique text (lx_pos l1)).
  Qed.

  Lemma view_advance1 l c r : (0 <= c < 128)%Z -> view l (c :: r) -> view (lx_advance src l 1) r /\ lx_toks (lx_advance src l 1) = lx_toks l.
  Proof.
    intros A V. assert (E : char_len c = 1) by (unfold char_len; destruct (Z.ltb_spec c 128); [reflexivity | lia]). destruct (view_advance l c r V) as (V1 & _ & T1). rewrite E in *. now split.
  Qed.
End View.

(** ** Reference: one step of the lexer on characters *)

(** The inside of a string after the opening quote, up to the closing quote if there is one. *)
Fixpoint str_run (escaped : bool) (cs : list Z) : bool * list Z * list Z :=
  match cs with
  | [] => (false, [], [])
  | c :: r =>
      if negb escaped && (c =? 34)%Z then (true, [c], r)
      else let '(ok, b, t) := str_run (negb escaped && (c =? 92)%Z) r in (ok, c :: b, t)
  end.
Lemma str_run_app cs : forall e, let '(_, b, t) := str_run e cs in cs = b ++ t.
Proof.
  induction cs as [| c r IH]; intros e; [reflexivity|]. cbn [str_run]. destruct (negb e && (c =? 34)%Z); [reflexivity|].
  specialize (IH (negb e && (c =? 92)%Z)). destruct (str_run (negb e && (c =? 92)%Z) r) as [[ok b] t]. now rewrite IH.
Qed.

(** The first character if it satisfies [p], and what is left then. *)
Definition opt (p : Z -> bool) (cs : list Z) : list Z := match cs with c :: _ => if p c then [c] else [] | [] => [] end.
Definition after_opt (p : Z -> bool) (cs : list Z) : list Z := match cs with c :: r => if p c then r else cs | [] => [] end.
Lemma opt_app p cs : opt p cs ++ after_opt p cs = cs.
Proof. destruct cs as [| c r]; [reflexivity|]. cbn. now destruct (p c). Qed.
Definition nonempty {A} (s : list A) : bool := match s with [] => false | _ => true end.

Definition is_exp (c : Z) : bool := ((c =? 101) || (c =? 69))%Z.
Definition is_sign (c : Z) : bool := ((c =? 43) || (c =? 45))%Z.
Definition exp_run (cs : list Z) : list Z * list Z :=
  if nonempty (opt is_exp cs) then
    let r1 := after_opt is_exp cs in
    let r2 := after_opt is_sign r1 in
    (opt is_exp cs ++ opt is_sign r1 ++ char_run ascii_digit r2, drop_run ascii_digit r2)
  else ([], cs).
Lemma exp_run_app cs : fst (exp_run cs) ++ snd (exp_run cs) = cs.
Proof. unfold exp_run. destruct (nonempty (opt is_exp cs)) eqn:E; [|reflexivity]. cbn [fst snd]. now rewrite <- !app_assoc, run_drop, !opt_app. Qed.

Definition frac_run (cs : list Z) : list Z * list Z :=
  if nonempty (opt (Z.eqb 46) cs) then
    let r1 := after_opt (Z.eqb 46) cs in (char_run ascii_digit r1, drop_run ascii_digit r1)
  else ([], cs).
Lemma frac_run_app cs : opt (Z.eqb 46) cs ++ fst (frac_run cs) ++ snd (frac_run cs) = cs.
Proof. unfold frac_run. destruct (opt (Z.eqb 46) cs) eqn:E; [reflexivity|]. cbn [fst snd nonempty]. now rewrite run_drop, <- E, opt_app. Qed.

Definition decimal_run (cs : list Z) : bool * list Z * list Z :=
  let d1 := char_run ascii_digit cs in
  let r1 := drop_run ascii_digit cs in
  let '(d2, r2) := frac_run r1 in
  let '(e, r3) := exp_run r2 in
  (nonempty d1 || nonempty d2, d1 ++ opt (Z.eqb 46) r1 ++ d2 ++ e, r3).
Lemma decimal_run_app cs : let '(_, s, r) := decimal_run cs in s ++ r = cs.
Proof.
  unfold decimal_run. pose proof (frac_run_app (drop_run ascii_digit cs)) as F. destruct (frac_run (drop_run ascii_digit cs)) as [d2 r2]. pose proof (exp_run_app r2) as G. destruct (exp_run r2) as [e r3]. cbn [fst snd] in *.
  rewrite <- !app_assoc, G, F. apply run_drop.
Qed.

Definition is_x (c : Z) : bool := ((c =? 120) || (c =? 88))%Z.
Definition hex_rest (c : Z) : bool := ascii_hexdigit c || (c =? 95)%Z.
Definition number_run (hex : bool) (cs : list Z) : bool * list Z * list Z :=
  let sign := opt (Z.eqb 45) cs in
  let r1 := after_opt (Z.eqb 45) cs in
  let z := opt (Z.eqb 48) r1 in
  let r2 := after_opt (Z.eqb 48) r1 in
  if hex && nonempty z && nonempty (opt is_x r2) then
    let r3 := after_opt is_x r2 in
    let h := char_run hex_rest r3 in
    if nonempty h then (true, sign ++ z ++ opt is_x r2 ++ h, drop_run hex_rest r3)
    else let '(ok, s, r) := decimal_run r3 in (ok, sign ++ z ++ opt is_x r2 ++ s, r)
  else let '(ok, s, r) := decimal_run r1 in (ok, sign ++ s, r).
Lemma number_run_app hex cs : let '(_, s, r) := number_run hex cs in s ++ r = cs.
Proof.
  unfold number_run. set (r1 := after_opt (Z.eqb 45) cs). destruct (hex && _ && _).
  - set (r2 := after_opt (Z.eqb 48) r1). set (r3 := after_opt is_x r2). destruct (nonempty _).
    + rewrite <- !app_assoc, run_drop. unfold r3, r2, r1. now rewrite !opt_app.
    + pose proof (decimal_run_app r3) as D. destruct (decimal_run r3) as [[ok s] r]. rewrite <- !app_assoc, D. unfold r3, r2, r1. now rewrite !opt_app.
  - pose proof (decimal_run_app r1) as D. destruct (decimal_run r1) as [[ok s] r]. rewrite <- !app_assoc, D. unfold r1. now rewrite !opt_app.
Qed.

Definition keyword (cs : list Z) : option (nat * list Z) :=
  if prefixb (lit "true") cs then Some (KBooleanLit, lit "true")
  else if prefixb (lit "false") cs then Some (KBooleanLit, lit "false")
  else if prefixb (lit "null") cs then Some (KNullLit, lit "null") else None.

Definition bare_run (alnum : Z -> bool) (c : Z) (r : list Z) : option nat * list Z * list Z :=
  (Some KBareKey, c :: char_run (key_rest alnum) r, drop_run (key_rest alnum) r).

(** One piece, but for comments and strings in single quotes. *)
Definition lex1 (alpha alnum : Z -> bool) (cfg : json_config) (c : Z) (r : list Z) : option nat * list Z * list Z :=
  if ((c =? 32) || (c =? 9) || (c =? 10) || (c =? 13))%Z then
    (Some KWhitespace, char_run char_is_whitespace (c :: r), drop_run char_is_whitespace (c :: r))
  else if (c =? 34)%Z then let '(ok, b, t) := str_run false r in (Some (if ok then KStringLit else KError), 34%Z :: b, t)
  else if (c =? 45)%Z || ascii_digit c then
    let '(ok, s, t) := number_run (jc_hex cfg) (c :: r) in (if ok then Some KNumberLit else None, s, t)
  else match punctuation c with
  | Some k => (Some k, [c], r)
  | None =>
      if ((c =? 116) || (c =? 102) || (c =? 110))%Z then
        match keyword (c :: r) with
        | Some (k, s) => (Some k, s, skipn (length s) (c :: r))
        | None => if jc_bare cfg && key_start alpha c then bare_run alnum c r else (None, [c], r)
        end
      else if jc_bare cfg && key_start alpha c then bare_run alnum c r
      else (Some KError, [c], r)
  end.

(** Comments, from behind their first slash. *)
Fixpoint block_run (cs : list Z) : list Z :=
  match cs with [] => [] | c :: r => if prefixb (lit "*/") cs then lit "*/" else c :: block_run r end.
Definition not_feed (c : Z) : bool := negb (c =? 10)%Z.
Definition comment_run (r : list Z) : option (list Z) :=
  match r with
  | c :: t => if (c =? 47)%Z then Some (47%Z :: 47%Z :: char_run not_feed t)
              else if (c =? 42)%Z then Some (47%Z :: 42%Z :: block_run t) else None
  | [] => None
  end.
(** Strings in single quotes, from behind the first. *)
Fixpoint quote_run (esc : bool) (cs : list Z) : list Z :=
  match cs with
  | [] => []
  | c :: r => if negb esc && (c =? 39)%Z then [c] else c :: quote_run (negb esc && (c =? 92)%Z) r
  end.
Lemma quote_run_body b : literal_body 39 (Some 92%Z) b -> forall t, quote_run false (b ++ t) = b ++ quote_run false t.
Proof.
  induction 1 as [| c b N1 N2 _ IH | x c b E _ IH]; intros t; [reflexivity | |].
  - cbn [app quote_run negb andb]. destruct (Z.eqb_spec c 39); [contradiction|]. destruct (Z.eqb_spec c 92); [congruence|]. now rewrite IH.
  - injection E as <-. cbn [app quote_run negb andb]. change (92 =? 39)%Z with false. change (92 =? 92)%Z with true. cbn [quote_run negb andb]. now rewrite IH.
Qed.

Lemma in_encode c cs : (0 <= c < 128)%Z -> In c cs -> In c (encode cs).
Proof.
  intros R. induction cs as [| a cs IH]; intros I; [destruct I|]. cbn [encode]. apply in_app_iff. destruct I as [-> | I]; [left | right; auto].
  unfold encode_char. destruct (Z.ltb_spec c 128); [now left | lia].
Qed.
Lemma encode_first c b r : is_scalar c -> encode_char c = b :: r -> (0 <= b < 128)%Z -> c = b.
Proof.
  intros Sc E R. assert (H0 : (0 <= c < 0x110000)%Z) by (destruct Sc as [Sc|Sc]; lia). unfold encode_char in E. destruct (Z.ltb_spec c 128); [now injection E|]. exfalso.
  destruct (c <? 0x800)%Z; [|destruct (c <? 0x10000)%Z]; apply (f_equal (hd 0%Z)) in E; cbn [hd] in E; [pose proof (Z.div_pos c 64) | pose proof (Z.div_pos c 4096) | pose proof (Z.div_pos c 262144)]; lia.
Qed.

Section Steps.
  Variable (alpha alnum : Z -> bool) (src : source) (text : str) (cfg : json_config).
  Hypothesis Hs : serves src text.
  Notation view := (view src text).

  (** [l'] is [l] after reading [s] as a token of kind [k], or as nothing. *)
  Definition stepped (l l' : lexer) (k : option nat) (r : list Z) : Prop :=
    view l' r /\ lx_toks l' = lx_toks l ++ match k with Some kind => [Token kind (lx_pos l) (lx_pos l')] | None => [] end.

  Lemma moved_run l l' s r : view l (s ++ r) -> view l' r -> moved l l' = match s with [] => false | _ => true end.
  Proof.
    intros V V'. apply (view_pos src text) in V. apply (view_pos src text) in V'. rewrite encode_app, app_length in V. unfold moved. destruct s as [| c s]; cbn [encode length] in V.
    - apply Nat.ltb_ge. lia.
    - rewrite app_length, encode_char_length in V. pose proof (char_len_pos c). apply Nat.ltb_lt. lia.
  Qed.

  Lemma string_loop_view : forall fuel cs l e, view l cs -> length cs < fuel -> exists l', string_loop src fuel e l = Some (fst (fst (str_run e cs)), l') /\ view l' (snd (str_run e cs)) /\ lx_toks l' = lx_toks l.
  Proof.
    induction fuel as [| f IH]; intros cs l e V L; [lia|]. cbn [string_loop]. destruct (view_current src text Hs l cs V) as (l1 & -> & V1 & O1 & T1). destruct cs as [| c r]; cbn [hd_error].
    - exists l1. now split.
    - destruct (view_advance src text Hs l1 c r V1) as (V2 & O2 & T2). cbv zeta. set (l2 := lx_advance src l1 (char_len c)) in *. cbn [length] in L.
      assert (G : forall e', exists l', string_loop src f e' l2 = Some (fst (fst (str_run e' r)), l') /\ view l' (snd (str_run e' r)) /\ lx_toks l' = lx_toks l).
      { intros e'. destruct (IH r l2 e' V2) as (l' & E & V' & T'); [lia|]. exists l'. split; [assumption|]. split; [assumption | congruence]. }
      cbn [str_run]. destruct e; cbn [negb andb].
      + destruct (G false) as (l' & E & V' & T'). exists l'. destruct (str_run false r) as [[ok b] t]. now split.
      + destruct (Z.eqb_spec c 34) as [-> | N]; [cbn; exists l2; split; [reflexivity|]; split; [assumption | congruence]|].
        destruct (Z.eqb_spec c 92) as [-> | N']; [destruct (G true) as (l' & E & V' & T') | destruct (G false) as (l' & E & V' & T')]; exists l'; destruct (str_run _ r) as [[ok b] t]; now split.
  Qed.

  Lemma length_encode cs : length cs <= length (encode cs).
  Proof. induction cs as [| c r IH]; [reflexivity|]. cbn [encode length]. rewrite app_length, encode_char_length. pose proof (char_len_pos c). lia. Qed.
  Lemma view_length l cs : view l cs -> length cs < scan_fuel src.
  Proof. intros V. apply (view_pos src text) in V. pose proof (length_encode cs). unfold scan_fuel. rewrite (Hlen src text Hs). lia. Qed.

  Lemma space_step l c r : view l (c :: r) -> char_is_whitespace c = true -> exists l', skip_whitespace_fast src l = Some l' /\ stepped l l' (Some KWhitespace) (drop_run char_is_whitespace (c :: r)).
  Proof.
    intros V E. unfold skip_whitespace_fast. destruct (view_take src text Hs l _ char_is_whitespace V) as (l1 & -> & V1 & O1 & T1).
    rewrite <- (run_drop char_is_whitespace (c :: r)) in V. rewrite (moved_run _ _ _ _ V V1). cbn [char_run]. rewrite E. eexists. split; [reflexivity|]. split; [exact V1|]. cbn [add_token lx_toks]. now rewrite T1.
  Qed.

  Lemma string_step l r : view l (34%Z :: r) -> let '(ok, b, t) := str_run false r in exists l', lex_string_fast src l = Some l' /\ stepped l l' (Some (if ok then KStringLit else KError)) t.
  Proof.
    intros V. unfold lex_string_fast. destruct (view_consume src text Hs l _ (lit """") ltac:(repeat constructor; lia) V) as (b & l1 & -> & T1 & C). destruct b; [|destruct C as [C _]; now destruct (C r)].
    destruct C as (r' & Er & V1 & O1). injection Er as <-. destruct (string_loop_view (scan_fuel src) r l1 false V1 (view_length _ _ V1)) as (l2 & E & V2 & T2). rewrite E. destruct (str_run false r) as [[ok bb] t]. cbn [fst snd] in *.
    destruct ok; eexists; (split; [reflexivity|]; split; [exact V2|]; cbn [add_token lx_toks]; rewrite T2, T1; reflexivity).
  Qed.

  Lemma view_consume1 l cs x : (0 <= x < 128)%Z -> view l cs -> exists l', lx_consume src l [x] = Some (nonempty (opt (Z.eqb x) cs), l') /\ lx_toks l' = lx_toks l /\ view l' (after_opt (Z.eqb x) cs).
  Proof.
    intros A V. destruct (view_consume src text Hs l cs [x] ltac:(constructor; [assumption | constructor]) V) as (b & l' & E & T & C). exists l'. rewrite E. destruct b.
    - destruct C as (r & -> & V' & _). cbn [opt app after_opt]. rewrite Z.eqb_refl. now split.
    - destruct C as (N & V' & _). destruct cs as [| c r]; [now split|]. cbn [opt after_opt]. destruct (Z.eqb_spec x c) as [-> | Hne]; [now destruct (N r) | now split].
  Qed.

  Lemma exp_step l cs : view l cs -> exists l', (let '(c, l4) := lx_current src l in
      if match c with Some ch => is_exp ch | None => false end then
        let l5 := lx_advance src l4 1 in
        let '(s, l6) := lx_current src l5 in
        lx_take_while src (scan_fuel src) ascii_digit (if match s with Some ch => is_sign ch | None => false end then lx_advance src l6 1 else l6)
      else Some l4) = Some l' /\ view l' (snd (exp_run cs)) /\ lx_toks l' = lx_toks l.
  Proof.
    intros V. destruct (view_current src text Hs l cs V) as (l4 & -> & V4 & _ & T4). unfold exp_run. destruct cs as [| c r]; cbn [hd_error opt nonempty]; [exists l4; now split|].
    destruct (is_exp c) eqn:Ec; [|exists l4; now split]. cbv zeta.
    destruct (view_advance1 src text Hs l4 c r) as (V5 & T5); [unfold is_exp in Ec; lia | assumption|].
    destruct (view_current src text Hs _ r V5) as (l6 & -> & V6 & _ & T6). cbn [nonempty after_opt snd]. rewrite Ec.
    destruct r as [| s r]; cbn [hd_error after_opt].
    - destruct (view_take src text Hs l6 [] ascii_digit V6) as (l7 & -> & V7 & _ & T7). exists l7. split; [reflexivity|]. split; [assumption | congruence].
    - destruct (is_sign s) eqn:Es.
      + destruct (view_advance1 src text Hs l6 s r) as (V7 & T7); [unfold is_sign in Es; lia | assumption|]. destruct (view_take src text Hs _ r ascii_digit V7) as (l8 & -> & V8 & _ & T8). exists l8. split; [reflexivity|]. split; [assumption | congruence].
      + destruct (view_take src text Hs l6 _ ascii_digit V6) as (l7 & -> & V7 & _ & T7). exists l7. split; [reflexivity|]. split; [assumption | congruence].
  Qed.

  Lemma decimal_step l start cs : view l cs -> let '(ok, s, r) := decimal_run cs in exists l', lex_decimal src start l = Some l' /\ view l' r /\ lx_toks l' = lx_toks l ++ if ok then [Token KNumberLit start (lx_pos l')] else [].
  Proof.
    intros V. unfold decimal_run, lex_decimal. destruct (view_take src text Hs l cs ascii_digit V) as (l1 & -> & V1 & _ & T1). set (r1 := drop_run ascii_digit cs) in *.
    assert (M1 : moved l l1 = nonempty (char_run ascii_digit cs)). { rewrite <- (run_drop ascii_digit cs) in V. now rewrite (moved_run _ _ _ _ V V1). }
    rewrite M1. destruct (view_consume1 l1 r1 46 ltac:(lia) V1) as (l2 & E2 & T2 & V2). change (lit ".") with [46%Z]. rewrite E2.
    destruct (frac_run r1) as [d2 r2] eqn:Ef. assert (F : exists l3, (if nonempty (opt (Z.eqb 46) r1) then lx_take_while src (scan_fuel src) ascii_digit l2 else Some l2) = Some l3 /\ view l3 r2 /\ lx_toks l3 = lx_toks l2 /\ nonempty (opt (Z.eqb 46) r1) && moved l2 l3 = nonempty d2).
    { unfold frac_run in Ef. destruct (nonempty (opt (Z.eqb 46) r1)) eqn:En; injection Ef as <- <-.
      - destruct (view_take src text Hs l2 _ ascii_digit V2) as (l3 & -> & V3 & _ & T3). exists l3. split; [reflexivity|]. split; [assumption|]. split; [assumption|]. rewrite <- (run_drop ascii_digit (after_opt (Z.eqb 46) r1)) in V2. now rewrite (moved_run _ _ _ _ V2 V3).
      - exists l2. split; [reflexivity|]. split; [|now split]. replace r1 with (after_opt (Z.eqb 46) r1); [assumption|]. rewrite <- (opt_app (Z.eqb 46) r1) at 2. now destruct (opt (Z.eqb 46) r1). }
    destruct F as (l3 & -> & V3 & T3 & M3). rewrite M3. destruct (exp_step l3 r2 V3) as (l7 & E7 & V7 & T7). destruct (exp_run r2) as [e r3]. cbn [snd] in V7.
    destruct (lx_current src l3) as [c l4]. cbv zeta. change (match c with Some ch => ((ch =? 101) || (ch =? 69))%Z | None => false end) with (match c with Some ch => is_exp ch | None => false end).
    change (fun ch => ((ch =? 43) || (ch =? 45))%Z) with is_sign. cbv zeta in E7. unfold is_sign in E7. rewrite E7.
    destruct (nonempty (char_run ascii_digit cs) || nonempty d2); eexists; (split; [reflexivity|]).
    - split; [exact V7|]. cbn [add_token lx_toks]. now rewrite T7, T3, T2, T1.
    - split; [exact V7|]. rewrite app_nil_r. congruence.
  Qed.

  Lemma number_step l cs : view l cs -> let '(ok, s, r) := number_run (jc_hex cfg) cs in exists l', lex_number src cfg l = Some l' /\ stepped l l' (if ok then Some KNumberLit else None) r.
  Proof.
    intros V. unfold number_run, lex_number. cbv zeta. destruct (view_consume1 l cs 45 ltac:(lia) V) as (l1 & E1 & T1 & V1). change (lit "-") with [45%Z]. rewrite E1. set (r1 := after_opt (Z.eqb 45) cs) in *.
    assert (Z : exists l2, (if jc_hex cfg then lx_starts_with src l1 (lit "0") else Some (false, l1)) = Some (jc_hex cfg && nonempty (opt (Z.eqb 48) r1), l2) /\ view l2 r1 /\ lx_toks l2 = lx_toks l1).
    { destruct (jc_hex cfg); [|exists l1; now split]. destruct (view_starts src text Hs l1 r1 (lit "0") ltac:(repeat constructor; lia) V1) as (b & l2 & -> & V2 & _ & T2 & C). exists l2. cbn [andb]. replace b with (nonempty (opt (Z.eqb 48) r1)); [now split|].
      destruct r1 as [| c r]; cbn [opt nonempty].
      - destruct b; [|reflexivity]. destruct (proj1 C eq_refl) as (r & Er). discriminate.
      - destruct (Z.eqb_spec 48 c) as [<- | N]; cbn [nonempty]; [symmetry; apply C; now exists r|]. destruct b; [|reflexivity]. destruct (proj1 C eq_refl) as (r' & Er). injection Er as -> _. contradiction. }
    destruct Z as (l2 & -> & V2 & T2).
    assert (G : forall lx c2 r2, view lx c2 -> lx_toks lx = lx_toks l -> (let '(ok, s, r) := decimal_run c2 in (ok, r)) = r2 -> exists l', lex_decimal src (lx_pos l) lx = Some l' /\ stepped l l' (if fst r2 then Some KNumberLit else None) (snd r2)).
    { intros lx c2 r2 Vx Tx Ex. pose proof (decimal_step lx (lx_pos l) c2 Vx) as D. destruct (decimal_run c2) as [[ok s] r]. subst r2. destruct D as (l' & E & V' & T'). exists l'. split; [assumption|]. split; [assumption|]. rewrite T', Tx. cbn [fst]. now destruct ok. }
    assert (P : (jc_hex cfg && nonempty (opt (Z.eqb 48) r1)) && match peek_next_n src (lx_cur l2) 1 with Some c => ((c =? 120) || (c =? 88))%Z | None => false end = jc_hex cfg && nonempty (opt (Z.eqb 48) r1) && nonempty (opt is_x (after_opt (Z.eqb 48) r1))).
    { destruct (jc_hex cfg && nonempty (opt (Z.eqb 48) r1)) eqn:Eh; [|reflexivity]. cbn [andb]. destruct r1 as [| c r]; [now rewrite andb_false_r in Eh|]. cbn [opt] in Eh. destruct (Z.eqb_spec 48 c) as [<- | N]; [|now rewrite andb_false_r in Eh].
      rewrite (view_peek1 src text Hs l2 48 r ltac:(lia) V2). cbn [after_opt]. rewrite Z.eqb_refl. destruct r as [| x r]; [reflexivity|]. cbn [hd_error opt]. unfold is_x. now destruct ((x =? 120)%Z || (x =? 88)%Z). }
    rewrite P. destruct (jc_hex cfg && nonempty (opt (Z.eqb 48) r1) && nonempty (opt is_x (after_opt (Z.eqb 48) r1))) eqn:Eh.
    - apply andb_prop in Eh. destruct Eh as [Eh Ex]. apply andb_prop in Eh. destruct Eh as [_ Ez]. destruct r1 as [| c r]; [discriminate|]. cbn [opt after_opt] in *. destruct (Z.eqb_spec 48 c) as [<- | N]; [|discriminate]. destruct r as [| x r]; [discriminate|]. cbn [opt after_opt] in *. destruct (is_x x) eqn:Hx; [|discriminate].
      destruct (view_advance1 src text Hs l2 48 (x :: r) ltac:(lia) V2) as (V3 & T3). destruct (view_advance1 src text Hs _ x r ltac:(unfold is_x in Hx; lia) V3) as (V4 & T4).
      assert (E2 : lx_advance src (lx_advance src l2 1) 1 = lx_advance src l2 2). { unfold lx_advance, advance_bytes. cbn [lx_cur cu_off cu_start cu_text lx_toks]. do 2 f_equal. lia. }
      rewrite E2 in *. fold hex_rest. destruct (view_take src text Hs _ r hex_rest V4) as (l5 & -> & V5 & _ & T5). rewrite <- (run_drop hex_rest r) in V4. rewrite (moved_run _ _ _ _ V4 V5).
      fold (nonempty (char_run hex_rest r)). destruct (nonempty (char_run hex_rest r)) eqn:Eh.
      + eexists. split; [reflexivity|]. split; [exact V5|]. cbn [add_token lx_toks]. rewrite T5, T4, T3, T2, T1. reflexivity.
      + assert (Ed : drop_run hex_rest r = r) by (rewrite <- (run_drop hex_rest r) at 2; now destruct (char_run hex_rest r)). rewrite Ed in V5.
        destruct (G l5 r _ V5 ltac:(congruence) eq_refl) as (l' & E & S'). destruct (decimal_run r) as [[ok s] rr]. exists l'. now split.
    - destruct (G l2 r1 _ V2 ltac:(congruence) eq_refl) as (l' & E & S'). destruct (decimal_run r1) as [[ok s] rr]. exists l'. now split.
  Qed.

  Lemma keyword_step l cs : view l cs -> exists l', lex_keyword src l = Some (match keyword cs with Some _ => true | None => false end, l') /\
    match keyword cs with Some (k, s) => cs = s ++ skipn (length s) cs /\ stepped l l' (Some k) (skipn (length s) cs) | None => view l' cs /\ lx_pos l' = lx_pos l /\ lx_toks l' = lx_toks l end.
  Proof.
    intros V. unfold lex_keyword, keyword.
    assert (P : forall p cs', prefixb p cs' = true <-> exists r, cs' = p ++ r).
    { induction p as [| x p IH]; intros cs'; cbn [prefixb app]; [split; [now exists cs' | reflexivity]|]. destruct cs' as [| y cs']; [split; [discriminate | intros (r & E); discriminate]|]. rewrite andb_true_iff, IH, Z.eqb_eq. split; [intros (-> & r & ->); now exists r | intros (r & E); injection E as <- ->; split; [reflexivity | now exists r]]. }
    assert (C : forall p lx, ascii_lit p -> view lx cs -> exists lx', lx_consume src lx p = Some (prefixb p cs, lx') /\ lx_toks lx' = lx_toks lx /\ (if prefixb p cs then cs = p ++ skipn (length p) cs /\ view lx' (skipn (length p) cs) else view lx' cs /\ lx_pos lx' = lx_pos lx)).
    { intros p lx A Vx. destruct (view_consume src text Hs lx cs p A Vx) as (b & lx' & E & T & D). exists lx'. rewrite E. assert (Eb : prefixb p cs = b). { destruct b; [apply P; destruct D as (r & -> & _); now exists r|]. destruct (prefixb p cs) eqn:Ep; [|reflexivity]. apply P in Ep. destruct Ep as (r & Er). destruct D as [D _]. now destruct (D r). }
      rewrite Eb. split; [reflexivity|]. split; [assumption|]. destruct b; [|apply D]. destruct D as (r & -> & V' & _). rewrite skipn_app, skipn_all, Nat.sub_diag. now split. }
    destruct (C (lit "true") l ltac:(repeat constructor; lia) V) as (l1 & -> & T1 & D1). destruct (prefixb (lit "true") cs).
    { eexists. split; [reflexivity|]. split; [apply D1|]. split; [exact (proj2 D1)|]. cbn [add_token lx_toks]. now rewrite T1. }
    destruct (C (lit "false") l1 ltac:(repeat constructor; lia) (proj1 D1)) as (l2 & -> & T2 & D2). destruct (prefixb (lit "false") cs).
    { eexists. split; [reflexivity|]. split; [apply D2|]. split; [exact (proj2 D2)|]. cbn [add_token lx_toks]. now rewrite T2, T1. }
    destruct (C (lit "null") l2 ltac:(repeat constructor; lia) (proj1 D2)) as (l3 & -> & T3 & D3). destruct (prefixb (lit "null") cs).
    { eexists. split; [reflexivity|]. split; [apply D3|]. split; [exact (proj2 D3)|]. cbn [add_token lx_toks]. now rewrite T3, T2, T1. }
    exists l3. split; [reflexivity|]. split; [apply D3|]. split; [destruct D1, D2, D3; congruence | congruence].
  Qed.

  Lemma bare_step l0 l c r : view l (c :: r) -> lx_pos l = lx_pos l0 -> lx_toks l = lx_toks l0 -> key_start alpha c = true -> exists l', lex_bare_key alpha alnum src l = Some (true, l') /\ stepped l0 l' (Some KBareKey) (drop_run (key_rest alnum) r).
  Proof.
    intros V O T E. unfold lex_bare_key. destruct (view_current src text Hs l _ V) as (l1 & -> & V1 & O1 & T1). cbn [hd_error]. rewrite E.
    destruct (view_advance src text Hs l1 c r V1) as (V2 & O2 & T2). destruct (view_take src text Hs _ r (key_rest alnum) V2) as (l3 & -> & V3 & _ & T3). eexists. split; [reflexivity|]. split; [exact V3|]. cbn [add_token lx_toks]. now rewrite T3, T2, T1, T, O.
  Qed.

  Lemma not_bare_step l c r : view l (c :: r) -> key_start alpha c = false -> exists l', lex_bare_key alpha alnum src l = Some (false, l') /\ view l' (c :: r) /\ lx_pos l' = lx_pos l /\ lx_toks l' = lx_toks l.
  Proof.
    intros V E. unfold lex_bare_key. destruct (view_current src text Hs l _ V) as (l1 & -> & V1 & O1 & T1). cbn [hd_error]. rewrite E. now exists l1.
  Qed.

  Lemma view_reach l cs l' : view l cs -> lx_placed src text l' -> lx_pos l <= lx_pos l' -> exists s r, cs = s ++ r /\ view l' r /\ lx_pos l' = lx_pos l + length (encode s).
  Proof.
    intros V P L. destruct (reads_of_boundaries text (lx_pos l) (lx_pos l') (Hv src text Hs) L (proj2 (proj1 V)) (proj2 P)) as (s & R). destruct (view_split src text Hs l cs (lx_pos l') s V (proj2 P) R) as (r & -> & Rr).
    exists s, r. split; [reflexivity|]. split; [now split|]. now apply reads_end in R.
  Qed.

  Lemma items_at_le conf a its b : items_at conf text a its b -> a <= b.
  Proof.
    induction 1 as [| a it m its b H _ IH]; [lia|]. enough (a <= m) by lia. destruct it; cbn in H; [lia | lia|]. destruct H as (_ & _ & R). apply reads_end in R. lia.
  Qed.

  Lemma reads_split a cs m s : reads text a (length text) cs -> is_boundary text m = true -> reads text a m s -> exists r, cs = s ++ r /\ reads text m (length text) r.
  Proof.
    intros V B R. destruct (reads_of_boundaries text m (length text) (Hv src text Hs)) as (r & Rr); [now apply is_boundary_le in B | assumption | apply is_boundary_length|]. exists r. split; [|assumption].
    pose proof (reads_app _ _ _ _ _ _ R Rr) as Ra. destruct V as (F1 & _ & E1). destruct Ra as (F2 & _ & E2). rewrite E1 in E2. now apply encode_inj in E2.
  Qed.
  Lemma reads_rest a cs : reads text a (length text) cs -> skipn a text = encode cs.
  Proof. intros (_ & L & E). unfold substr in E. rewrite <- E. symmetry. apply firstn_all2. rewrite skipn_length. lia. Qed.
  Lemma occurs_at a cs p : ascii_lit p -> is_boundary text a = true -> reads text a (length text) cs -> (occurs p text a <-> exists r, cs = p ++ r).
  Proof.
    intros A B V. destruct (ascii_encode p A) as [Ee Es]. split.
    - intros O. destruct (occurs_reads p text a) as (s & Es' & Rs); [now exists p; rewrite Ee | assumption|].
      assert (s = p) by (apply encode_inj; [apply Rs | assumption | congruence]). subst s.
      destruct (reads_split a cs (a + length p) p V) as (r & -> & _); [|assumption | now exists r].
      apply (reads_boundary text a _ p (Hv src text Hs) B Rs).
    - intros (r & ->). exists (encode r). split; [|destruct V; lia]. rewrite (reads_rest _ _ V), encode_app, Ee. reflexivity.
  Qed.

  Lemma prefix_same s r s' r' : s ++ r = s' ++ r' -> length (encode s) = length (encode s') -> s = s'.
  Proof.
    revert s'. induction s as [| c s IH]; intros [| c' s'] E L; cbn [encode length] in L; rewrite ?app_length, ?encode_char_length in L.
    - reflexivity.
    - pose proof (char_len_pos c'). lia.
    - pose proof (char_len_pos c). lia.
    - injection E as <- E. f_equal. apply IH; [exact E | lia].
  Qed.

  Lemma block_items its : forall a cs b, reads text a (length text) cs -> is_boundary text a = true -> items_at json_comment text a its b ->
    (forall p r, its = p ++ r -> r <> [] -> (0 < level p)%Z) -> (level its = 0%Z \/ ((0 < level its)%Z /\ b = length text)) ->
    exists r, cs = block_run cs ++ r /\ b = a + length (encode (block_run cs)).
  Proof.
    assert (A : ascii_lit (lit "*/")) by (repeat constructor; lia).
    induction its as [| it its IH]; intros a cs b R B H P D; inversion H as [| ? ? m ? ? Hi Hr]; subst.
    - destruct D as [D | [_ D]]; [discriminate|]. subst b. apply reads_end in R as Re. destruct cs as [| c cs]; [exists []; split; [reflexivity | cbn; lia]|].
      cbn [encode] in Re. rewrite app_length, encode_char_length in Re. pose proof (char_len_pos c). lia.
    - destruct it as [| | c].
      + destruct Hi as [(O & _) _]. discriminate.
      + destruct Hi as (_ & (_ & O) & ->). apply (occurs_at a cs _ A B R) in O. destruct O as (r & ->).
        destruct its as [| it its]; [|specialize (P [Close] (it :: its) eq_refl ltac:(discriminate)); cbn in P; lia]. inversion Hr; subst.
        exists r. split; reflexivity.
      + destruct Hi as (_ & N & Rc). assert (Bm : is_boundary text m = true) by (apply (reads_boundary text a m [c] (Hv src text Hs) B Rc)).
        destruct (reads_split a cs m [c] R Bm Rc) as (r & -> & Rr). cbn [app].
        destruct (IH m r b Rr Bm Hr) as (r' & E & Eb); [intros p q -> Hq; exact (P (Other c :: p) q eq_refl Hq) | exact D|].
        assert (Np : prefixb (lit "*/") (c :: r) = false).
        { destruct (prefixb (lit "*/") (c :: r)) eqn:Q; [|reflexivity]. exfalso. apply N. split; [discriminate|]. apply (occurs_at a _ _ A B R). now apply prefixb_iff in Q. }
        exists r'. cbn [block_run]. rewrite Np. split; [cbn [app]; now rewrite <- E|]. apply reads_end in Rc. cbn [encode] in *. rewrite app_nil_r in Rc. rewrite app_length. lia.
  Qed.

  (** A comment, or the slash alone. *)
  Lemma comment_step l r : view l (47%Z :: r) -> exists b l', scan_comment src json_comment KComment KComment l = Some (b, l') /\
    if b then exists s r', 47%Z :: r = s ++ r' /\ stepped l l' (Some KComment) r' /\ (starts (lit "//") s \/ starts (lit "/*") s) /\ comment_run r = Some s
    else (view l' (47%Z :: r) /\ lx_pos l' = lx_pos l /\ lx_toks l' = lx_toks l) /\ comment_run r = None.
  Proof.
    intros V. assert (Vl : forall p, ascii_lit p -> valid p) by (intros p A; destruct (ascii_encode p A) as [E F]; exists p; now rewrite E).
    assert (A1 : ascii_lit (lit "//")) by (repeat constructor; lia). assert (A2 : ascii_lit (lit "/*")) by (repeat constructor; lia).
    destruct (scan_comment_spec src text json_comment KComment KComment l Hs (proj1 V)) as (b & l' & E & P & C); [apply Vl; exact A1 | apply Vl; exact A2 | apply Vl; repeat constructor; lia|].
    exists b, l'. split; [assumption|].
    assert (Two : forall x t, r = x :: t -> (x < 128)%Z -> reads text (lx_pos l + 2) (length text) t /\ is_boundary text (lx_pos l + 2) = true).
    { intros x t -> Hx. assert (Sx : is_scalar x). { destruct V as [_ (F & _)]. apply Forall_inv_tail, Forall_inv in F. exact F. }
      assert (R2 : reads text (lx_pos l) (lx_pos l + 2) [47%Z; x]).
      { destruct V as [Pl (F & L & Q)]. split; [constructor; [unfold is_scalar; lia | constructor; [exact Sx | constructor]]|].
        pose proof (reads_end _ _ _ _ (conj F (conj L Q))) as Le. cbn [encode] in Le. rewrite !app_length, !encode_char_length in Le. pose proof (char_len_pos x). assert (C1 : char_len 47 = 1) by reflexivity. assert (C2 : char_len x = 1) by (unfold char_len; destruct (Z.ltb_spec x 128); [reflexivity | lia]).
        split; [lia|]. unfold substr. rewrite (reads_rest (lx_pos l) (47%Z :: x :: t) (conj F (conj L Q))). replace (lx_pos l + 2 - lx_pos l) with 2 by lia. cbn [encode]. unfold encode_char. destruct (Z.ltb_spec x 128); [|lia]. reflexivity. }
      assert (B2 : is_boundary text (lx_pos l + 2) = true) by (apply (reads_boundary text (lx_pos l) _ _ (Hv src text Hs) (proj2 (proj1 V)) R2)). split; [|exact B2].
      destruct (reads_split _ _ _ _ (proj2 V) B2 R2) as (t' & Et & Rt). injection Et as ->. exact Rt. }
    destruct b.
    - destruct C as [L C]. destruct (view_reach l _ l' V P L) as (s & r' & Es & V' & O). exists s, r'. split; [assumption|].
      assert (K : forall x t q, r = x :: t -> (x < 128)%Z -> (exists r0, t = q ++ r0) -> lx_pos l' = lx_pos l + 2 + length (encode q) -> s = 47%Z :: x :: q).
      { intros x t q -> Hx (r0 & ->) Hp. apply (prefix_same s r' _ r0); [rewrite <- Es; reflexivity|]. cbn [encode]. rewrite !app_length, !encode_char_length. assert (char_len 47 = 1) by reflexivity. assert (char_len x = 1) by (unfold char_len; destruct (Z.ltb_spec x 128); [reflexivity | lia]). lia. }
      destruct C as [((_ & Oc) & Em & n & Eb & Ru) | (_ & (_ & Oc) & Em & its & It & Lv & Dn)].
      + split; [split; assumption|]. apply (occurs_prefix src text Hs l _ _ A1 V) in Oc. destruct Oc as (t & Et). change (lit "//" ++ t) with (47%Z :: 47%Z :: t) in Et. injection Et as Et.
        destruct (Two 47%Z t Et ltac:(lia)) as [Rt Bt]. change (length (cc_line json_comment)) with 2 in *. rewrite (reads_rest _ _ Rt) in Ru.
        destruct (reads_of_boundaries text (lx_pos l + 2) (lx_pos l') (Hv src text Hs)) as (q & Rq); [lia | exact Bt | apply P|].
        destruct (reads_split _ _ _ _ Rt (proj2 P) Rq) as (r0 & Eq & Rr). apply reads_end in Rq as Lq.
        assert (Es2 : s = 47%Z :: 47%Z :: q) by (apply (K 47%Z t q); [exact Et | lia | now exists r0 | lia]).
        split; [left; rewrite Es2; now exists q|]. rewrite Et. cbn [comment_run]. change (47 =? 47)%Z with true. cbv iota. rewrite Es2. do 3 f_equal. symmetry.
        apply (run_unique not_feed q r0 t Eq).
        * apply Forall_forall. intros c Hc. unfold not_feed. destruct (Z.eqb_spec c 10) as [-> | N]; [|reflexivity]. exfalso. apply in_encode in Hc; [|lia]. destruct Ru as (_ & Ru & _).
          apply In_nth_error in Hc. destruct Hc as (k & Hk). assert (k < length (encode q)) by (apply nth_error_Some; congruence). apply (Ru k 10%Z); [lia | rewrite Eq, encode_app, nth_error_app1 by lia; exact Hk | reflexivity].
        * destruct r0 as [| c r0]; [exact Logic.I|]. destruct Ru as (_ & _ & Ru). assert (Sc : is_scalar c) by (destruct Rr as (F & _); now apply Forall_inv in F).
          destruct (encode_char c) as [| b0 bs] eqn:Ec; [pose proof (encode_char_length c) as Q; rewrite Ec in Q; pose proof (char_len_pos c); cbn in Q; lia|].
          specialize (Ru b0). rewrite Eq, encode_app, nth_error_app2 in Ru by lia. replace (n - length (encode q)) with 0 in Ru by lia. cbn [encode] in Ru. rewrite Ec in Ru. specialize (Ru eq_refl).
          assert (b0 = 10%Z) by lia. subst b0. apply encode_first in Ec; [|exact Sc | lia]. subst c. reflexivity.
      + split; [split; assumption|]. apply (occurs_prefix src text Hs l _ _ A2 V) in Oc. destruct Oc as (t & Et). change (lit "/*" ++ t) with (47%Z :: 42%Z :: t) in Et. injection Et as Et.
        destruct (Two 42%Z t Et ltac:(lia)) as [Rt Bt]. change (length (cc_start json_comment)) with 2 in *.
        destruct (block_items its _ _ _ Rt Bt It Lv Dn) as (r0 & Eq & Lq).
        assert (Es2 : s = 47%Z :: 42%Z :: block_run t) by (apply (K 42%Z t _); [exact Et | lia | now exists r0 | lia]).
        split; [right; rewrite Es2; now exists (block_run t)|]. rewrite Et. cbn [comment_run]. change (42 =? 47)%Z with false. change (42 =? 42)%Z with true. cbv iota. now rewrite Es2.
    - destruct C as ((T & O) & N1 & N2). split; [split; [split; [assumption|]; rewrite O; apply V|]; now split|].
      destruct r as [| c t]; [reflexivity|]. cbn [comment_run]. destruct (Z.eqb_spec c 47) as [-> | M1].
      + exfalso. apply N1. split; [discriminate|]. apply (occurs_prefix src text Hs l _ _ A1 V). now exists t.
      + destruct (Z.eqb_spec c 42) as [-> | M2]; [|reflexivity]. exfalso. apply N2. split; [discriminate|]. apply (occurs_prefix src text Hs l _ _ A2 V). now exists t.
  Qed.

  Lemma single_step l r : view l (39%Z :: r) -> exists l' s r', scan_string src [39%Z] (Some 92%Z) KStringLit l = Some (true, l') /\ 39%Z :: r = s ++ r' /\ stepped l l' (Some KStringLit) r' /\ starts (lit "'") s /\ s = 39%Z :: quote_run false r.
  Proof.
    intros V. destruct (scan_string_spec src text [39%Z] (Some 92%Z) KStringLit l Hs (proj1 V)) as (b & l' & E & P & C); [unfold is_scalar; lia|]. destruct (view_head src text l _ _ V) as (m & M & Mr). destruct b.
    - destruct C as (L & Em & q & m' & Iq & R & Le). destruct Iq as [<- | []]. destruct (view_reach l _ l' V P L) as (s & r' & Es & V' & O). exists l', s, r'. split; [assumption|]. split; [assumption|]. split; [now split|].
      assert (m' = m) by (apply reads_end in R; apply reads_end in M; congruence). subst m'. apply reads_end in M as Lm. cbn [encode] in Lm. rewrite app_nil_r, encode_char_length in Lm. assert (C1 : char_len 39 = 1) by reflexivity.
      assert (G : s = 39%Z :: quote_run false r).
      { assert (K : forall q0, (exists r0, r = q0 ++ r0) -> lx_pos l' = m + length (encode q0) -> s = 39%Z :: q0).
        { intros q0 (r0 & ->) Hp. apply (prefix_same s r' _ r0); [rewrite <- Es; reflexivity|]. cbn [encode]. rewrite app_length, encode_char_length. lia. }
        assert (Bm : is_boundary text m = true) by (apply (reads_boundary text (lx_pos l) m _ (Hv src text Hs) (proj2 (proj1 V)) M)).
        destruct Le as [(x & cs & R1 & Bo & R2) | (Bl & cs & R1 & Bo)].
        - assert (Bx : is_boundary text x = true) by (apply (reads_boundary text m x cs (Hv src text Hs) Bm R1)). destruct (reads_split _ _ _ _ Mr Bx R1) as (t & Et & Rt). destruct (reads_split _ _ _ _ Rt (proj2 P) R2) as (t' & Et' & _).
          rewrite Et, (quote_run_body _ Bo), Et'. change (quote_run false ([39%Z] ++ t')) with [39%Z]. apply K; [exists t'; rewrite Et, Et', <- app_assoc; reflexivity|].
          apply reads_end in R1. apply reads_end in R2. rewrite encode_app, app_length. lia.
        - rewrite Bl in R1. assert (r = cs). { destruct Mr as (F1 & _ & E1). destruct R1 as (F2 & _ & E2). apply encode_inj; [assumption | assumption | congruence]. } subst cs.
          assert (Q : quote_run false r = r). { destruct Bo as [Bo | (cs' & x & [= <-] & -> & Bo)]; [rewrite <- (app_nil_r r) at 1; rewrite (quote_run_body _ Bo); apply app_nil_r | rewrite (quote_run_body _ Bo); reflexivity]. }
          rewrite Q. apply K; [exists []; now rewrite app_nil_r|]. apply reads_end in R1. lia. }
      split; [rewrite G; now eexists | exact G].
    - destruct C as (_ & N). destruct (N 39%Z m M). now left.
  Qed.

  (** What a round does with a character. *)
  Definition piece_ok (c : Z) (r : list Z) (k : option nat) (s r' : list Z) : Prop :=
    ((c =? 47)%Z && jc_comments cfg = true /\ ((k = Some KComment /\ (starts (lit "//") s \/ starts (lit "/*") s) /\ comment_run r = Some s) \/ (k = None /\ s = [47%Z] /\ comment_run r = None))) \/
    ((c =? 39)%Z && jc_single cfg = true /\ k = Some KStringLit /\ starts (lit "'") s /\ s = 39%Z :: quote_run false r) \/
    ((c =? 47)%Z && jc_comments cfg = false /\ (c =? 39)%Z && jc_single cfg = false /\ (k, s, r') = lex1 alpha alnum cfg c r).

  Lemma guard_moved l l' s r k : view l (s ++ r) -> s <> [] -> stepped l l' k r -> advance_if_dead_lock src (lx_pos l) l' = l'.
  Proof.
    intros V N (V' & _). pose proof (moved_run _ _ _ _ V V') as M. unfold moved in M. unfold advance_if_dead_lock. destruct s; [contradiction|]. apply Nat.ltb_lt in M. destruct (Nat.eqb_spec (lx_pos l') (lx_pos l)); [lia | reflexivity].
  Qed.

  Lemma guard_stuck l l' c r : view l' (c :: r) -> lx_pos l' = lx_pos l -> lx_toks l' = lx_toks l -> stepped l (advance_if_dead_lock src (lx_pos l) l') None r.
  Proof.
    intros V O T. unfold advance_if_dead_lock. rewrite O, Nat.eqb_refl. destruct (view_current src text Hs l' _ V) as (l1 & -> & V1 & O1 & T1). cbn [hd_error]. destruct (view_advance src text Hs l1 c r V1) as (V2 & _ & T2). split; [assumption|]. rewrite app_nil_r. congruence.
  Qed.

  Lemma number_run_moves hex c r : (c =? 45)%Z || ascii_digit c = true -> let '(_, s, _) := number_run hex (c :: r) in s <> [].
  Proof.
    intros H. unfold number_run. cbn [opt]. rewrite (Z.eqb_sym 45 c). destruct (Z.eqb_spec c 45) as [-> | N]; cbn [nonempty orb] in *.
    - destruct (hex && _ && _); [destruct (nonempty _)|]; [discriminate| |]; destruct (decimal_run _) as [[ok s] t]; discriminate.
    - cbn [after_opt]. rewrite (Z.eqb_sym 45 c). destruct (Z.eqb_spec c 45); [contradiction|]. destruct (hex && nonempty (opt (Z.eqb 48) (c :: r)) && _) eqn:E.
      + assert (opt (Z.eqb 48) (c :: r) <> []) by (intros E'; rewrite E', andb_false_r in E; discriminate). destruct (nonempty (char_run _ _)); [|destruct (decimal_run _) as [[ok s] t]]; cbn [app]; intros E'; apply app_eq_nil in E' as [E' _]; contradiction.
      + unfold decimal_run. cbn [app char_run]. rewrite H. destruct (frac_run _) as [d2 r2]. destruct (exp_run r2). discriminate.
  Qed.

  Lemma lex1_app c r : let '(_, s, r') := lex1 alpha alnum cfg c r in c :: r = s ++ r' /\ s <> [].
  Proof.
    unfold lex1. destruct (_ || _ || _ || _)%bool eqn:E1.
    { split; [symmetry; apply run_drop|]. cbn [char_run]. replace (char_is_whitespace c) with true; [discriminate|]. symmetry. unfold char_is_whitespace. lia. }
    destruct (Z.eqb_spec c 34) as [-> | N]. { pose proof (str_run_app r false) as A. destruct (str_run false r) as [[ok b] t]. subst r. now split. }
    destruct ((c =? 45)%Z || ascii_digit c) eqn:E2. { pose proof (number_run_app (jc_hex cfg) (c :: r)) as A. pose proof (number_run_moves (jc_hex cfg) c r E2) as B. destruct (number_run _ _) as [[ok s] t]. now split. }
    destruct (punctuation c); [now split|].
    assert (B : let '(_, s, r') := bare_run alnum c r in c :: r = s ++ r' /\ s <> []) by (unfold bare_run; split; [cbn [app]; now rewrite run_drop | discriminate]).
    destruct ((c =? 116) || (c =? 102) || (c =? 110))%Z.
    - assert (P : forall p cs', prefixb p cs' = true -> cs' = p ++ skipn (length p) cs').
      { induction p as [| x p IH]; intros cs' H; [reflexivity|]. destruct cs' as [| y cs']; [discriminate|]. cbn [prefixb] in H. apply andb_prop in H as [Hx H]. apply Z.eqb_eq in Hx. subst y. cbn [length skipn app]. now rewrite <- IH. }
      unfold keyword. destruct (prefixb (lit "true") (c :: r)) eqn:P1; [split; [now apply P | discriminate]|]. destruct (prefixb (lit "false") (c :: r)) eqn:P2; [split; [now apply P | discriminate]|]. destruct (prefixb (lit "null") (c :: r)) eqn:P3; [split; [now apply P | discriminate]|].
      destruct (jc_bare cfg && key_start alpha c); [exact B | now split].
    - destruct (jc_bare cfg && key_start alpha c); [exact B | now split].
  Qed.

  Lemma round_step l c r : view l (c :: r) -> exists l2 k s r', json_rule alpha alnum src cfg c l = Some l2 /\ c :: r = s ++ r' /\ s <> [] /\
    stepped l (advance_if_dead_lock src (lx_pos l) l2) k r' /\ piece_ok c r k s r'.
  Proof.
    intros V.
    assert (Done : forall l2 k s r', json_rule alpha alnum src cfg c l = Some l2 -> c :: r = s ++ r' -> s <> [] -> stepped l l2 k r' -> piece_ok c r k s r' -> exists l2 k s r', json_rule alpha alnum src cfg c l = Some l2 /\ c :: r = s ++ r' /\ s <> [] /\ stepped l (advance_if_dead_lock src (lx_pos l) l2) k r' /\ piece_ok c r k s r').
    { intros l2 k s r' E Es N S' O. exists l2, k, s, r'. split; [assumption|]. split; [assumption|]. split; [assumption|]. split; [|assumption]. rewrite (guard_moved l l2 s r' k); [assumption | now rewrite <- Es | assumption | assumption]. }
    assert (Stuck : forall l2, json_rule alpha alnum src cfg c l = Some l2 -> view l2 (c :: r) -> lx_pos l2 = lx_pos l -> lx_toks l2 = lx_toks l -> piece_ok c r None [c] r -> exists l2 k s r', json_rule alpha alnum src cfg c l = Some l2 /\ c :: r = s ++ r' /\ s <> [] /\ stepped l (advance_if_dead_lock src (lx_pos l) l2) k r' /\ piece_ok c r k s r').
    { intros l2 E V2 O2 T2 O. exists l2, None, [c], r. split; [assumption|]. split; [reflexivity|]. split; [discriminate|]. split; [now apply (guard_stuck l l2 c) | assumption]. }
    destruct ((c =? 47)%Z && jc_comments cfg) eqn:E47.
    { apply andb_prop in E47 as [Ec Ej]. apply Z.eqb_eq in Ec. subst c.
      assert (Er : json_rule alpha alnum src cfg 47 l = option_map snd (scan_comment src json_comment KComment KComment l)) by (unfold json_rule; cbn; now rewrite Ej).
      destruct (comment_step l r V) as (b & l' & E & C). rewrite E in Er. cbn [option_map snd] in Er. destruct b.
      - destruct C as (s & r' & Es & S' & P & Cr). apply (Done l' (Some KComment) s r'); [assumption | assumption | intros ->; destruct P as [(x & P) | (x & P)]; discriminate | assumption|]. left. split; [now rewrite Ej|]. left. split; [reflexivity|]. now split.
      - destruct C as ((V' & O' & T') & Cr). apply (Stuck l'); try assumption. left. split; [now rewrite Ej|]. right. split; [reflexivity|]. now split. }
    destruct ((c =? 39)%Z && jc_single cfg) eqn:E39.
    { apply andb_prop in E39 as [Ec Ej]. apply Z.eqb_eq in Ec. subst c. destruct (single_step l r V) as (l' & s & r' & E & Es & S' & P & Cr).
      assert (Er : json_rule alpha alnum src cfg 39 l = option_map snd (scan_string src [39%Z] (Some 92%Z) KStringLit l)) by (unfold json_rule; cbn; now rewrite Ej). rewrite E in Er.
      apply (Done l' (Some KStringLit) s r'); [assumption | assumption | intros ->; destruct P as (x & P); discriminate | assumption|]. right. left. split; [now rewrite Ej|]. split; [reflexivity|]. now split. }
    pose proof (lex1_app c r) as A.
    assert (Done' : forall l2 k s r', lex1 alpha alnum cfg c r = (k, s, r') -> json_rule alpha alnum src cfg c l = Some l2 -> stepped l l2 k r' -> exists l2 k s r', json_rule alpha alnum src cfg c l = Some l2 /\ c :: r = s ++ r' /\ s <> [] /\ stepped l (advance_if_dead_lock src (lx_pos l) l2) k r' /\ piece_ok c r k s r').
    { intros l2 k s r' El E S'. rewrite El in A. destruct A as [A1 A2]. apply (Done l2 k s r'); try assumption. right. right. rewrite El. now split. }
    assert (Stuck' : forall l2, lex1 alpha alnum cfg c r = (None, [c], r) -> json_rule alpha alnum src cfg c l = Some l2 -> view l2 (c :: r) -> lx_pos l2 = lx_pos l -> lx_toks l2 = lx_toks l -> exists l2 k s r', json_rule alpha alnum src cfg c l = Some l2 /\ c :: r = s ++ r' /\ s <> [] /\ stepped l (advance_if_dead_lock src (lx_pos l) l2) k r' /\ piece_ok c r k s r').
    { intros l2 El E V2 O2 T2. apply (Stuck l2); try assumption. right. right. rewrite El. now split. }
    clear Done Stuck A. unfold lex1 in Done', Stuck'. unfold json_rule in *. rewrite E47, E39 in *.
    destruct ((c =? 32) || (c =? 9) || (c =? 10) || (c =? 13))%Z eqn:E1.
    { destruct (space_step l c r V) as (l' & E & S'); [unfold char_is_whitespace; lia|]. apply (Done' l' _ _ _ eq_refl E S'). }
    destruct (Z.eqb_spec c 34) as [-> | N34].
    { pose proof (string_step l r V) as S'. destruct (str_run false r) as [[ok b] t]. destruct S' as (l' & E & S'). apply (Done' l' _ _ _ eq_refl E S'). }
    destruct ((c =? 45)%Z || ascii_digit c) eqn:E2.
    { pose proof (number_step l _ V) as S'. destruct (number_run _ _) as [[ok s] t]. destruct S' as (l' & E & S'). apply (Done' l' _ _ _ eq_refl E S'). }
    destruct (punctuation c) as [k|] eqn:E3.
    { unfold lex_operator in *. destruct (view_current src text Hs l _ V) as (l1 & E & V1 & O1 & T1). rewrite E in *. cbn [hd_error] in *. rewrite E3 in *. destruct (view_advance src text Hs l1 c r V1) as (V2 & O2 & T2). eapply (Done' _ _ _ _ eq_refl eq_refl). split; [exact V2|]. cbn [add_token lx_toks]. now rewrite T2, T1. }
    destruct ((c =? 116) || (c =? 102) || (c =? 110))%Z eqn:E4.
    { destruct (keyword_step l _ V) as (l1 & E & C). rewrite E in *. destruct (keyword (c :: r)) as [[k s]|] eqn:Ek.
      - destruct C as (_ & S'). apply (Done' l1 _ _ _ eq_refl eq_refl S').
      - destruct C as (V1 & O1 & T1). destruct (jc_bare cfg) eqn:Eb; cbn [andb] in *.
        + destruct (key_start alpha c) eqn:Es.
          * destruct (bare_step l l1 c r V1 O1 T1 Es) as (l' & E' & S'). rewrite E' in *. apply (Done' l' _ _ _ eq_refl eq_refl S').
          * destruct (not_bare_step l1 c r V1 Es) as (l' & E' & V' & O' & T'). rewrite E' in *. apply (Stuck' l' eq_refl eq_refl V'); congruence.
        + apply (Stuck' l1 eq_refl eq_refl V1 O1 T1). }
    destruct (jc_bare cfg && key_start alpha c) eqn:E5.
    { apply andb_prop in E5 as [_ Es]. destruct (bare_step l l c r V eq_refl eq_refl Es) as (l' & E' & S'). rewrite E' in *. apply (Done' l' _ _ _ eq_refl eq_refl S'). }
    destruct (view_advance src text Hs l c r V) as (V2 & O2 & T2). eapply (Done' _ _ _ _ eq_refl eq_refl). split; [exact V2|]. cbn [add_token lx_toks]. now rewrite T2.
  Qed.

  Inductive pieces_of : list Z -> list piece -> Prop :=
  | PONil : pieces_of [] []
  | POCons c r k s r' ps : piece_ok c r k s r' -> c :: r = s ++ r' -> s <> [] -> pieces_of r' ps -> pieces_of (c :: r) ((k, s) :: ps).

  Lemma pieces_text cs ps : pieces_of cs ps -> text_of_pieces ps = cs.
  Proof. induction 1 as [| c r k s r' ps _ E _ _ IH]; [reflexivity|]. cbn. unfold text_of_pieces in IH. now rewrite IH, E. Qed.

  Lemma json_loop_view : forall fuel cs l, view l cs -> length cs < fuel -> exists l' ps, json_loop alpha alnum src cfg fuel l = Some l' /\ pieces_of cs ps /\ lx_toks l' = lx_toks l ++ spans (lx_pos l) ps /\ lx_pos l' = length text.
  Proof.
    induction fuel as [| f IH]; intros cs l V L; [lia|]. cbn [json_loop]. unfold not_at_end. rewrite (Hlen src text Hs). pose proof (view_pos src text l cs V) as P. destruct cs as [| c r].
    - cbn [encode length] in P. destruct (Nat.ltb_spec (lx_pos l) (length text)); [lia|]. exists l, []. split; [reflexivity|]. split; [constructor|]. cbn [spans]. split; [now rewrite app_nil_r | lia].
    - cbn [encode] in P. rewrite app_length, encode_char_length in P. pose proof (char_len_pos c). destruct (Nat.ltb_spec (lx_pos l) (length text)); [|lia].
      destruct (view_current src text Hs l _ V) as (l1 & -> & V1 & O1 & T1). cbn [hd_error]. destruct (round_step l1 c r V1) as (l2 & k & s & r' & -> & Es & Ns & S' & O). rewrite <- O1. set (l3 := advance_if_dead_lock src (lx_pos l1) l2) in *.
      destruct S' as [V3 T3]. destruct (IH r' l3 V3) as (l' & ps & E & Pp & T & O').
      { apply (f_equal (@length Z)) in Es. rewrite app_length in Es. cbn [length] in *. destruct s; [contradiction|]. cbn [length] in Es. lia. }
      exists l', ((k, s) :: ps). split; [assumption|]. split; [now apply (POCons c r k s r')|]. split; [|assumption].
      assert (O3 : lx_pos l3 = lx_pos l1 + length (encode s)). { pose proof (view_pos src text l3 r' V3). pose proof (view_pos src text l1 _ V1) as P1. rewrite Es, encode_app, app_length in P1. lia. }
      rewrite T, T3, T1. cbn [spans]. rewrite <- O3. now destruct k; rewrite <- app_assoc.
  Qed.

  Lemma json_lex_view : exists cs ps, reads text 0 (length text) cs /\ pieces_of cs ps /\ json_lex alpha alnum src cfg = Some (spans 0 ps ++ [Token KEof (length text) (length text)]).
  Proof.
    unfold json_lex. destruct (cursor_at_placed src text 0 Hs) as (P & O); [now rewrite Nat.min_0_l|]. rewrite Nat.min_0_l in O.
    set (l := Lexer (cursor_at src 0) []). assert (Ol : lx_pos l = 0) by exact O.
    destruct (reads_of_boundaries text 0 (length text) (Hv src text Hs)) as (cs & R); [lia | reflexivity | apply is_boundary_length|].
    assert (V : view l cs) by (split; [exact P | now rewrite Ol]). destruct (json_loop_view (scan_fuel src) cs l V (view_length l cs V)) as (l' & ps & E & Pp & T & O'). rewrite E. exists cs, ps. split; [assumption|]. split; [assumption|].
    unfold add_eof. cbn [add_token lx_toks]. now rewrite T, O', Ol.
  Qed.
End Steps.

(** ** What the pieces are *)
Definition open_body (b : list Z) : Prop := literal_body 34%Z (Some 92%Z) b \/ exists b', b = b' ++ [92%Z] /\ literal_body 34%Z (Some 92%Z) b'.

Lemma open_cons c b : c <> 34%Z -> c <> 92%Z -> open_body b -> open_body (c :: b).
Proof. intros N1 N2 [H | (b' & -> & H)]; [left; now constructor; [| congruence |] | right; exists (c :: b'); split; [reflexivity|]; now constructor; [| congruence |]]. Qed.
Lemma open_pair c b : open_body b -> open_body (92%Z :: c :: b).
Proof. intros [H | (b' & -> & H)]; [left; now constructor | right; exists (92%Z :: c :: b'); split; [reflexivity|]; now constructor]. Qed.

Lemma str_run_body : forall cs e, let '(ok, b, t) := str_run e cs in
  if e then (if ok then exists x body, b = x :: body ++ [34%Z] /\ literal_body 34%Z (Some 92%Z) body else b = [] \/ exists x b', b = x :: b' /\ open_body b')
  else (if ok then exists body, b = body ++ [34%Z] /\ literal_body 34%Z (Some 92%Z) body else open_body b).
Proof.
  induction cs as [| c r IH]; intros e; cbn [str_run]; [destruct e; [now left | left; constructor]|]. destruct e; cbn [negb andb].
  - specialize (IH false). destruct (str_run false r) as [[ok b] t]. destruct ok; [destruct IH as (body & -> & H); now exists c, body | right; now exists c, b].
  - destruct (Z.eqb_spec c 34) as [-> | N]; [exists []; split; [reflexivity | constructor]|]. destruct (Z.eqb_spec c 92) as [-> | N'].
    + specialize (IH true). destruct (str_run true r) as [[ok b] t]. destruct ok.
      * destruct IH as (x & body & -> & H). exists (92%Z :: x :: body). split; [reflexivity | now constructor].
      * destruct IH as [-> | (x & b' & -> & H)]; [right; exists []; split; [reflexivity | constructor] | now apply open_pair].
    + specialize (IH false). destruct (str_run false r) as [[ok b] t]. destruct ok; [|now apply open_cons]. destruct IH as (body & -> & H). exists (c :: body). split; [reflexivity|]. constructor; [assumption | congruence | assumption].
Qed.

Lemma char_run_all p cs : Forall (fun c => p c = true) (char_run p cs).
Proof. induction cs as [| c r IH]; [constructor|]. cbn [char_run]. destruct (p c) eqn:E; now constructor. Qed.
Lemma digits_run cs : digits (char_run ascii_digit cs).
Proof. refine (Forall_impl _ _ (char_run_all ascii_digit cs)). intros c H. unfold ascii_digit, is_digit in *. lia. Qed.
Lemma opt_cases p cs : opt p cs = [] \/ exists c, opt p cs = [c] /\ p c = true.
Proof. destruct cs as [| c r]; [now left|]. cbn [opt]. destruct (p c) eqn:E; [right; now exists c | now left]. Qed.

Lemma exp_run_part cs : exponent_part (fst (exp_run cs)).
Proof.
  unfold exp_run. destruct (opt_cases is_exp cs) as [E | (x & E & Hx)]; rewrite E; cbn [nonempty fst app]; [now left|]. right. exists x, (opt is_sign (after_opt is_exp cs)), (char_run ascii_digit (after_opt is_sign (after_opt is_exp cs))).
  split; [unfold is_exp in Hx; lia|]. split; [|split; [apply digits_run | reflexivity]].
  destruct (opt_cases is_sign (after_opt is_exp cs)) as [-> | (y & -> & Hy)]; [now left|]. right. assert (Hy' : y = 43%Z \/ y = 45%Z) by (unfold is_sign in Hy; lia). destruct Hy' as [Hy' | Hy']; rewrite Hy'; [now left | now right].
Qed.

Lemma decimal_run_parts cs : let '(ok, s, _) := decimal_run cs in exists d1 dot d2 e, s = d1 ++ dot ++ d2 ++ e /\ digits d1 /\ dot_part dot /\ digits d2 /\ (dot = [] -> d2 = []) /\ exponent_part e /\ (ok = true <-> d1 ++ d2 <> []) /\ d1 = char_run ascii_digit cs.
Proof.
  unfold decimal_run. set (r1 := drop_run ascii_digit cs). assert (F : digits (fst (frac_run r1)) /\ (opt (Z.eqb 46) r1 = [] -> fst (frac_run r1) = [])).
  { unfold frac_run. destruct (opt (Z.eqb 46) r1); cbn [nonempty fst]; [split; [constructor | reflexivity] | split; [apply digits_run | discriminate]]. }
  destruct (frac_run r1) as [d2 r2]. pose proof (exp_run_part r2) as X. destruct (exp_run r2) as [e r3]. cbn [fst] in *. exists (char_run ascii_digit cs), (opt (Z.eqb 46) r1), d2, e.
  split; [reflexivity|]. split; [apply digits_run|]. split; [destruct (opt_cases (Z.eqb 46) r1) as [-> | (x & -> & Hx)]; [now left | apply Z.eqb_eq in Hx; subst; now right]|]. split; [apply F|]. split; [apply F|]. split; [assumption|]. split; [|reflexivity].
  destruct (char_run ascii_digit cs), d2; cbn; split; congruence || discriminate.
Qed.

Lemma head_sign cfg cs : number_head cfg (opt (Z.eqb 45) cs).
Proof. exists (opt (Z.eqb 45) cs), []. split; [now rewrite app_nil_r|]. split; [|now left]. destruct (opt_cases (Z.eqb 45) cs) as [-> | (x & -> & Hx)]; [now left|]. apply Z.eqb_eq in Hx. subst. now right. Qed.

Lemma number_run_ok alpha alnum cfg c r : (c =? 45)%Z || ascii_digit c = true -> let '(ok, s, _) := number_run (jc_hex cfg) (c :: r) in if ok then lexeme alpha alnum cfg KNumberLit s else stray cfg s.
Proof.
  intros Hc. unfold number_run.
  assert (G : forall h cs, number_head cfg h -> (h = [] -> char_run ascii_digit cs <> []) -> let '(ok, s, _) := decimal_run cs in if ok then lexeme alpha alnum cfg KNumberLit (h ++ s) else stray cfg (h ++ s)).
  { intros h cs Hh Hn. pose proof (decimal_run_parts cs) as D. destruct (decimal_run cs) as [[ok s] t]. destruct D as (d1 & dot & d2 & e & -> & D1 & Dd & D2 & D3 & De & Do & D1'). destruct ok.
    - apply LexNumber; try assumption. now apply Do.
    - assert (E : d1 ++ d2 = []) by (destruct (d1 ++ d2); [reflexivity|]; assert (false = true) by (apply Do; discriminate); discriminate). apply app_eq_nil in E as [E1 E2]. subst d2. rewrite E1. cbn [app]. apply StrayNumber; try assumption. intros E. apply Hn; [assumption | congruence]. }
  set (r1 := after_opt (Z.eqb 45) (c :: r)) in *. destruct (jc_hex cfg && nonempty (opt (Z.eqb 48) r1) && nonempty (opt is_x (after_opt (Z.eqb 48) r1))) eqn:E.
  - apply andb_prop in E as [E Ex]. apply andb_prop in E as [Eh Ez]. set (r2 := after_opt (Z.eqb 48) r1) in *. destruct (opt_cases (Z.eqb 48) r1) as [E0 | (z & E0 & Hz)]; [now rewrite E0 in Ez|]. apply Z.eqb_eq in Hz. subst z. destruct (opt_cases is_x r2) as [E1 | (x & E1 & Hx)]; [now rewrite E1 in Ex|].
    rewrite E0, E1. assert (H : number_head cfg (opt (Z.eqb 45) (c :: r) ++ [48; x])%Z).
    { destruct (head_sign cfg (c :: r)) as (a & b & Ea & Ha & Hb). exists (opt (Z.eqb 45) (c :: r)), [48; x]%Z. split; [reflexivity|]. split; [destruct (opt_cases (Z.eqb 45) (c :: r)) as [-> | (y & -> & Hy)]; [now left | apply Z.eqb_eq in Hy; subst; now right]|].
      right. split; [assumption|]. assert (Hx' : x = 120%Z \/ x = 88%Z) by (unfold is_x in Hx; lia). destruct Hx' as [Hx' | Hx']; rewrite Hx'; [now left | now right]. }
    set (r3 := after_opt is_x r2) in *. destruct (nonempty (char_run hex_rest r3)) eqn:En.
    + replace (opt (Z.eqb 45) (c :: r) ++ [48%Z] ++ [x] ++ char_run hex_rest r3) with ((opt (Z.eqb 45) (c :: r) ++ [48; x]%Z) ++ char_run hex_rest r3) by now rewrite <- app_assoc.
      apply LexHex; [assumption | assumption | intros E'; now rewrite E' in En|]. refine (Forall_impl _ _ (char_run_all hex_rest r3)). intros y Hy. unfold hex_rest in Hy. apply orb_prop in Hy as [Hy | Hy]; [now left | right; now apply Z.eqb_eq].
    + pose proof (G _ r3 H ltac:(intros E'; apply app_eq_nil in E' as [_ E']; discriminate)) as G'. destruct (decimal_run r3) as [[ok s] t].
      replace (opt (Z.eqb 45) (c :: r) ++ [48%Z] ++ [x] ++ s) with ((opt (Z.eqb 45) (c :: r) ++ [48; x]%Z) ++ s) by now rewrite <- app_assoc. exact G'.
  - pose proof (G (opt (Z.eqb 45) (c :: r)) r1 (head_sign cfg (c :: r))) as G'. destruct (decimal_run r1) as [[ok s] t]. apply G'. intros En. unfold r1. cbn [opt after_opt] in *. rewrite Z.eqb_sym in Hc. destruct (Z.eqb 45 c); [discriminate|]. cbn [orb] in Hc. cbn [char_run]. rewrite Hc. discriminate.
Qed.

Lemma lex1_ok alpha alnum cfg c r : (c =? 39)%Z && jc_single cfg = false -> let '(k, s, _) := lex1 alpha alnum cfg c r in match k with Some kind => lexeme alpha alnum cfg kind s | None => stray cfg s end.
Proof.
  intros H39. unfold lex1. destruct ((c =? 32) || (c =? 9) || (c =? 10) || (c =? 13))%Z eqn:E1.
  { cbn [char_run]. replace (char_is_whitespace c) with true by (symmetry; unfold char_is_whitespace; lia). apply LexSpace; [unfold is_ws; lia | apply char_run_all]. }
  destruct (Z.eqb_spec c 34) as [-> | N34].
  { pose proof (str_run_body r false) as B. destruct (str_run false r) as [[ok b] t]. destruct ok; [destruct B as (body & -> & B); now apply LexString | apply LexOpen, B]. }
  destruct ((c =? 45)%Z || ascii_digit c) eqn:E2. { pose proof (number_run_ok alpha alnum cfg c r E2) as B. destruct (number_run _ _) as [[ok s] t]. now destruct ok. }
  destruct (punctuation c) as [k|] eqn:E3.
  { apply LexPunct. unfold punctuation in E3.
    destruct (Z.eqb_spec c 123) as [-> | ?]; [injection E3 as <-; cbn; tauto|]. destruct (Z.eqb_spec c 125) as [-> | ?]; [injection E3 as <-; cbn; tauto|]. destruct (Z.eqb_spec c 91) as [-> | ?]; [injection E3 as <-; cbn; tauto|].
    destruct (Z.eqb_spec c 93) as [-> | ?]; [injection E3 as <-; cbn; tauto|]. destruct (Z.eqb_spec c 44) as [-> | ?]; [injection E3 as <-; cbn; tauto|]. destruct (Z.eqb_spec c 58) as [-> | ?]; [injection E3 as <-; cbn; tauto | discriminate]. }
  assert (B : jc_bare cfg && key_start alpha c = true -> lexeme alpha alnum cfg KBareKey (c :: char_run (key_rest alnum) r)).
  { intros E. apply andb_prop in E as [Eb Ek]. apply LexBare; [assumption| |].
    - unfold key_start in Ek. apply orb_prop in Ek as [Ek | Ek]; [now left|]. right. lia.
    - refine (Forall_impl _ _ (char_run_all _ r)). intros x Hx. unfold key_rest in Hx. apply orb_prop in Hx as [Hx | Hx]; [now left|]. right. lia. }
  destruct ((c =? 116) || (c =? 102) || (c =? 110))%Z eqn:E4.
  { unfold keyword. destruct (prefixb (lit "true") (c :: r)); [apply LexWord; cbn; tauto|]. destruct (prefixb (lit "false") (c :: r)); [apply LexWord; cbn; tauto|]. destruct (prefixb (lit "null") (c :: r)); [apply LexWord; cbn; tauto|].
    destruct (jc_bare cfg && key_start alpha c); [now apply B|]. apply StrayLetter. change (lit "tfn") with [116; 102; 110]%Z. cbn [In]. lia. }
  destruct (jc_bare cfg && key_start alpha c); [now apply B|]. apply LexBad; [unfold is_ws; lia|].
  intros I. assert (A : existsb (Z.eqb c) (lit """-0123456789{}[],:tfn") = true) by (apply existsb_exists; exists c; split; [assumption | apply Z.eqb_refl]). cbn in A. unfold punctuation in E3. unfold ascii_digit in E2.
  destruct (Z.eqb_spec c 123); [discriminate|]. destruct (Z.eqb_spec c 125); [discriminate|]. destruct (Z.eqb_spec c 91); [discriminate|]. destruct (Z.eqb_spec c 93); [discriminate|]. destruct (Z.eqb_spec c 44); [discriminate|]. destruct (Z.eqb_spec c 58); [discriminate|]. lia.
Qed.

Definition piece_sound alpha alnum cfg (p : piece) : Prop := snd p <> [] /\ match fst p with Some k => lexeme alpha alnum cfg k (snd p) | None => stray cfg (snd p) end.

Lemma pieces_sound alpha alnum cfg cs ps : pieces_of alpha alnum cfg cs ps -> Forall (piece_sound alpha alnum cfg) ps.
Proof.
  induction 1 as [| c r k s r' ps O E N _ IH]; [constructor|]. constructor; [|assumption]. split; [exact N|]. cbn [fst snd].
  destruct O as [(H & [(-> & S' & _) | (-> & -> & _)]) | [(H & -> & S' & _) | (H1 & H2 & El)]].
  - apply andb_prop in H as [_ H]. now apply LexComment.
  - apply andb_prop in H as [_ H]. now apply StraySlash.
  - apply andb_prop in H as [_ H]. now apply LexSingle.
  - pose proof (lex1_ok alpha alnum cfg c r H2) as L. now rewrite <- El in L.
Qed.
