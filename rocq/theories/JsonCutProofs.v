(** The JSON lexer is local: what it makes of a stretch of text between two token borders depends on that stretch only. *)
From Verif Require Import Base Utf8 Utf8Facts EditModel LexModel LexSpec CursorModel CursorSpec CursorProofs TreeModel TreeSpec TreeProofs ParserModel ParserSpec ParserProofs.
From Verif Require Import JsonSpec JsonModel JsonLangSpec JsonLexProofs JsonDocProofs GramModel GramSpec.
From Verif Require JsonReparse JsonAstProofs.

(** ** Readings: a result and the characters it was read from *)
Definition reading (A : Type) := list Z -> A * list Z.
Definition local {A} (f : reading A) : Prop := forall x r r', length (snd (f (x ++ r))) <= length x -> length (snd (f (x ++ r'))) <= length x -> f (x ++ r) = f (x ++ r').
Definition initial {A} (f : reading A) : Prop := forall cs, exists rest, cs = snd (f cs) ++ rest.
Definition seq {A B} (f : reading A) (g : A -> reading B) : reading B := fun cs =>
  let '(a, s) := f cs in let '(b, t) := g a (skipn (length s) cs) in (b, s ++ t).
Definition ret {A} (a : A) : reading A := fun _ => (a, []).
Definition one (p : Z -> bool) : reading bool := fun cs => (nonempty (opt p cs), opt p cs).
Definition run (p : Z -> bool) : reading bool := fun cs => (nonempty (char_run p cs), char_run p cs).

Lemma skip_initial {A} (s r : list A) : skipn (length s) (s ++ r) = r.
Proof. induction s; [reflexivity | assumption]. Qed.

Lemma seq_initial {A B} (f : reading A) (g : A -> reading B) : initial f -> (forall a, initial (g a)) -> initial (seq f g).
Proof.
  intros Hf Hg cs. destruct (Hf cs) as [r E]. unfold seq. destruct (f cs) as [a s]. cbn [snd] in E. rewrite E, skip_initial. destruct (Hg a r) as [r2 E2]. destruct (g a r) as [b t]. cbn [snd] in *. exists r2. now rewrite E2, app_assoc.
Qed.
Lemma split_long {A} (s rest x r : list A) : s ++ rest = x ++ r -> length s <= length x -> exists x', x = s ++ x' /\ rest = x' ++ r.
Proof.
  revert x. induction s as [|c s IH]; intros x E L; [exists x; now split|]. destruct x as [|d x]; [cbn in L; lia|]. injection E as -> E. destruct (IH x E) as (x' & -> & ->); [cbn in L; lia|]. exists x'. now split.
Qed.
Lemma seq_local {A B} (f : reading A) (g : A -> reading B) : initial f -> local f -> (forall a, local (g a)) -> local (seq f g).
Proof.
  intros If Lf Lg x r r'. destruct (If (x ++ r)) as [q E]. destruct (If (x ++ r')) as [q' E']. specialize (Lf x r r'). unfold seq.
  destruct (f (x ++ r)) as [a s]. destruct (f (x ++ r')) as [a' s']. cbn [snd] in *.
  destruct (g a (skipn (length s) (x ++ r))) as [b t] eqn:G. destruct (g a' (skipn (length s') (x ++ r'))) as [b' t'] eqn:G'. cbn [snd]. rewrite !app_length. intros H H'.
  assert (Q : (a, s) = (a', s')) by (apply Lf; lia). injection Q as <- <-.
  destruct (split_long s q x r (eq_sym E) ltac:(lia)) as (x' & -> & ->). rewrite <- app_assoc, skip_initial in G, G'. rewrite app_length in H, H'.
  specialize (Lg a x' r r'). rewrite G, G' in Lg. cbn [snd] in Lg. assert (Q : (b, t) = (b', t')) by (apply Lg; lia). now injection Q as <- <-.
Qed.
Lemma ret_local {A} (a : A) : local (ret a).
Proof. intros x r r' _ _. reflexivity. Qed.
Lemma ret_initial {A} (a : A) : initial (ret a).
Proof. intros cs. now exists cs. Qed.
Lemma one_local p : local (one p).
Proof. intros [|c x] r r' H H'; [|reflexivity]. cbn [one snd app] in *. unfold one. destruct (opt p r); [|cbn in H; lia]. destruct (opt p r'); [reflexivity | cbn in H'; lia]. Qed.
Lemma one_initial p : initial (one p).
Proof. intros cs. exists (after_opt p cs). cbn. now rewrite opt_app. Qed.
Lemma run_local p : local (run p).
Proof.
  assert (Q : forall x r r', length (char_run p (x ++ r)) <= length x -> length (char_run p (x ++ r')) <= length x -> char_run p (x ++ r) = char_run p (x ++ r')).
  { induction x as [|c x IH]; intros r r' H H'; cbn [app] in *.
    - destruct (char_run p r); [|cbn in H; lia]. destruct (char_run p r'); [reflexivity | cbn in H'; lia].
    - cbn [char_run] in *. destruct (p c); [|reflexivity]. f_equal. apply IH; cbn in *; lia. }
  intros x r r' H H'. unfold run in *. cbn [snd] in *. now rewrite (Q x r r' H H').
Qed.
Lemma run_initial p : initial (run p).
Proof. intros cs. exists (drop_run p cs). cbn. now rewrite run_drop. Qed.
Lemma if_local {A} (b : bool) (f g : reading A) : local f -> local g -> local (if b then f else g).
Proof. now destruct b. Qed.
Lemma if_initial {A} (b : bool) (f g : reading A) : initial f -> initial g -> initial (if b then f else g).
Proof. now destruct b. Qed.
Ltac reading := repeat first [assumption | apply seq_local | apply seq_initial | apply ret_local | apply ret_initial | apply one_local | apply one_initial | apply run_local | apply run_initial | apply if_local | apply if_initial | progress intros].

(** Numbers as readings *)
Definition exp_reading {A} (a : A) : reading A := seq (one is_exp) (fun e => if e then seq (one is_sign) (fun _ => seq (run ascii_digit) (fun _ => ret a)) else ret a).
Definition decimal_reading : reading bool :=
  seq (run ascii_digit) (fun d1 => seq (one (Z.eqb 46)) (fun dot => if dot then seq (run ascii_digit) (fun d2 => exp_reading (d1 || d2)) else exp_reading d1)).
Definition hex_reading : reading bool :=
  seq (one (Z.eqb 48)) (fun _ => seq (one is_x) (fun _ => fun cs => if nonempty (char_run hex_rest cs) then (true, char_run hex_rest cs) else decimal_reading cs)).
Definition hex_ahead (cs : list Z) : bool := match cs with a :: b :: _ => (48 =? a)%Z && is_x b | _ => false end.
Definition number_reading (hex : bool) : reading bool :=
  seq (one (Z.eqb 45)) (fun _ => fun cs => if hex && hex_ahead cs then hex_reading cs else decimal_reading cs).

Lemma exp_local {A} (a : A) : local (exp_reading a) /\ initial (exp_reading a).
Proof. unfold exp_reading. split; reading. Qed.
Lemma decimal_local : local decimal_reading /\ initial decimal_reading.
Proof.
  unfold decimal_reading. assert (E := fun a => proj1 (@exp_local bool a)). assert (I := fun a => proj2 (@exp_local bool a)).
  split; reading; first [apply E | apply I].
Qed.

Lemma hex_tail_local : local (fun cs => if nonempty (char_run hex_rest cs) then (true, char_run hex_rest cs) else decimal_reading cs).
Proof.
  intros x r r' H H'. destruct decimal_local as [D _]. cbv beta in *.
  assert (N : forall r, length (snd (if nonempty (char_run hex_rest (x ++ r)) then (true, char_run hex_rest (x ++ r)) else decimal_reading (x ++ r))) <= length x -> length (char_run hex_rest (x ++ r)) <= length x).
  { intros q Hq. destruct (char_run hex_rest (x ++ q)); [cbn; lia | exact Hq]. }
  pose proof (run_local hex_rest x r r' (N r H) (N r' H')) as E. unfold run in E. apply (f_equal snd) in E. cbn [snd] in E. rewrite E in *.
  destruct (nonempty (char_run hex_rest (x ++ r'))); [reflexivity|]. now apply D.
Qed.
Lemma hex_local : local hex_reading.
Proof. unfold hex_reading. reading. exact hex_tail_local. Qed.
Lemma hex_two cs : hex_ahead cs = true -> 2 <= length (snd (hex_reading cs)).
Proof.
  destruct cs as [|a [|b cs]]; try discriminate. cbn [hex_ahead]. intros H. apply andb_true_iff in H as [Ha Hb].
  unfold hex_reading, seq, one. cbn [opt]. rewrite Ha. cbn [length skipn opt]. rewrite Hb. cbn [length skipn]. destruct (nonempty _); [|destruct (decimal_reading cs)]; cbn; lia.
Qed.
Lemma number_local hex : local (number_reading hex).
Proof.
  apply seq_local; [apply one_initial | apply one_local|]. intros _ x r r' H H'. cbv beta in *. destruct hex; cbn [andb] in *; [|now apply decimal_local].
  assert (S : forall r, hex_ahead (x ++ r) = true -> length (snd (if hex_ahead (x ++ r) then hex_reading (x ++ r) else decimal_reading (x ++ r))) <= length x -> 2 <= length x).
  { intros q E Hq. rewrite E in Hq. pose proof (hex_two _ E). lia. }
  assert (Q : hex_ahead (x ++ r) = hex_ahead (x ++ r')).
  { destruct x as [|a [|b x]]; [| |reflexivity].
    - destruct (hex_ahead ([] ++ r)) eqn:E; [specialize (S r E); rewrite E in S; specialize (S H); cbn in S; lia|]. destruct (hex_ahead ([] ++ r')) eqn:E'; [specialize (S r' E'); rewrite E' in S; specialize (S H'); cbn in S; lia | reflexivity].
    - destruct (hex_ahead ([a] ++ r)) eqn:E; [specialize (S r E); rewrite E in S; specialize (S H); cbn in S; lia|]. destruct (hex_ahead ([a] ++ r')) eqn:E'; [specialize (S r' E'); rewrite E' in S; specialize (S H'); cbn in S; lia | reflexivity]. }
  rewrite <- Q in *. destruct (hex_ahead (x ++ r)); [now apply hex_local | now apply decimal_local].
Qed.

Lemma after_skip p cs : after_opt p cs = skipn (length (opt p cs)) cs.
Proof. destruct cs as [|c r]; [reflexivity|]. cbn. now destruct (p c). Qed.
Lemma decimal_same cs : fst (decimal_run cs) = decimal_reading cs.
Proof.
  unfold decimal_run, decimal_reading, frac_run, exp_reading, exp_run, seq, run, one, ret, drop_run. rewrite !after_skip.
  set (d1 := char_run ascii_digit cs). set (r1 := skipn (length d1) cs). destruct (opt (Z.eqb 46) r1) as [|c o] eqn:E; cbn [nonempty].
  - cbn [app length skipn]. rewrite orb_false_r. destruct (nonempty (opt is_exp r1)) eqn:X.
    + cbn [fst]. rewrite !after_skip. cbn. now rewrite app_nil_r.
    + destruct (opt is_exp r1); [|discriminate]. cbn. now rewrite !app_nil_r.
  - assert (o = []) as ->. { destruct r1 as [|a r2]; [discriminate|]. cbn [opt] in E. destruct (Z.eqb 46 a); [now injection E | discriminate]. }
    rewrite ?after_skip, ?E. cbn [length]. set (r2 := skipn 1 r1). set (d2 := char_run ascii_digit r2). set (r3 := skipn (length d2) r2).
    destruct (nonempty (opt is_exp r3)) eqn:X; cbn [fst].
    + rewrite ?after_skip. cbn. now rewrite app_nil_r.
    + destruct (opt is_exp r3); [|discriminate]. cbn. now rewrite !app_nil_r.
Qed.
Lemma number_same hex cs : fst (number_run hex cs) = number_reading hex cs.
Proof.
  unfold number_run, number_reading. unfold seq at 1, one. rewrite !after_skip. set (r1 := skipn (length (opt (Z.eqb 45) cs)) cs).
  assert (Q : hex && nonempty (opt (Z.eqb 48) r1) && nonempty (opt is_x (skipn (length (opt (Z.eqb 48) r1)) r1)) = hex && hex_ahead r1).
  { destruct hex; [cbn [andb] | reflexivity]. destruct r1 as [|a [|b r]]; [reflexivity | cbn [opt hex_ahead]; destruct (48 =? a)%Z; reflexivity|]. cbn [opt hex_ahead]. destruct (48 =? a)%Z; [|reflexivity]. cbn [length skipn opt nonempty andb]. now destruct (is_x b). }
  rewrite Q. destruct (hex && hex_ahead r1).
  - unfold hex_reading, seq, one. rewrite ?after_skip. set (r2 := skipn (length (opt (Z.eqb 48) r1)) r1). set (r3 := skipn (length (opt is_x r2)) r2). destruct (nonempty (char_run hex_rest r3)); [reflexivity|].
    rewrite <- decimal_same. destruct (decimal_run r3) as [[k s] t]. reflexivity.
  - rewrite <- decimal_same. destruct (decimal_run r1) as [[k s] t]. reflexivity.
Qed.

Lemma str_local : forall x e r r', length (snd (fst (str_run e (x ++ r)))) <= length x -> length (snd (fst (str_run e (x ++ r')))) <= length x -> fst (str_run e (x ++ r)) = fst (str_run e (x ++ r')).
Proof.
  induction x as [|c x IH]; intros e r r' H H'; cbn [app] in *.
  - assert (N : forall r, length (snd (fst (str_run e r))) <= @length Z [] -> r = []).
    { intros [|c q] L; [reflexivity|]. cbn [str_run] in L. destruct (negb e && (c =? 34)%Z); [cbn in L; lia|]. destruct (str_run (negb e && (c =? 92)%Z) q) as [[? ?] ?]. cbn in L. lia. }
    now rewrite (N r H), (N r' H').
  - cbn [str_run] in *. destruct (negb e && (c =? 34)%Z); [reflexivity|]. specialize (IH (negb e && (c =? 92)%Z) r r').
    destruct (str_run (negb e && (c =? 92)%Z) (x ++ r)) as [[k b] t]. destruct (str_run (negb e && (c =? 92)%Z) (x ++ r')) as [[k' b'] t']. cbn in *.
    assert (Q : (k, b) = (k', b')) by (apply IH; lia). now injection Q as <- <-.
Qed.

Lemma quote_local : forall x e r r', length (quote_run e (x ++ r)) <= length x -> length (quote_run e (x ++ r')) <= length x -> quote_run e (x ++ r) = quote_run e (x ++ r').
Proof.
  induction x as [|c x IH]; intros e r r' H H'; cbn [app] in *.
  - assert (N : forall r, length (quote_run e r) <= @length Z [] -> r = []) by (intros [|c q] L; [reflexivity|]; cbn [quote_run] in L; destruct (negb e && (c =? 39)%Z); cbn in L; lia).
    now rewrite (N r H), (N r' H').
  - cbn [quote_run] in *. destruct (negb e && (c =? 39)%Z); [reflexivity|]. cbn [length] in *. f_equal. apply IH; lia.
Qed.

Lemma prefixb_local w : forall x r r', length w <= length x -> prefixb w (x ++ r) = prefixb w (x ++ r').
Proof. induction w as [|a w IH]; intros x r r' L; [reflexivity|]. destruct x as [|b x]; [cbn in L; lia|]. cbn. f_equal. apply IH. cbn in L. lia. Qed.
Lemma block_local : forall x r r', length (block_run (x ++ r)) <= length x -> length (block_run (x ++ r')) <= length x -> block_run (x ++ r) = block_run (x ++ r').
Proof.
  induction x as [|c x IH]; intros r r' H H'.
  - cbn [app] in *. assert (N : forall r, length (block_run r) <= @length Z [] -> r = []) by (intros [|c q] L; [reflexivity|]; cbn [block_run] in L; destruct (prefixb (lit "*/") (c :: q)); cbn in L; lia).
    now rewrite (N r H), (N r' H').
  - cbn [app block_run] in *. assert (Q : prefixb (lit "*/") (c :: x ++ r) = prefixb (lit "*/") (c :: x ++ r')).
    { destruct x as [|a x].
      - destruct (prefixb (lit "*/") (c :: [] ++ r)); [cbn in H; lia|]. destruct (prefixb (lit "*/") (c :: [] ++ r')); [cbn in H'; lia | reflexivity].
      - apply (prefixb_local (lit "*/") (c :: a :: x) r r'). cbn. lia. }
    rewrite <- Q in *. destruct (prefixb (lit "*/") (c :: x ++ r)); [reflexivity|]. cbn [length] in *. f_equal. apply IH; lia.
Qed.

Lemma keyword_local x r r' k s : keyword (x ++ r) = Some (k, s) -> length s <= length x -> keyword (x ++ r') = Some (k, s).
Proof.
  unfold keyword. intros H L.
  assert (P : forall w, length w <= length x -> prefixb w (x ++ r') = prefixb w (x ++ r)) by (intros; now apply prefixb_local).
  destruct (prefixb (lit "true") (x ++ r)) eqn:T; [injection H as <- <-; rewrite (P (lit "true") L), T; reflexivity|].
  destruct (prefixb (lit "false") (x ++ r)) eqn:F.
  - injection H as <- <-. rewrite (P (lit "true")), T, (P (lit "false") L), F; [reflexivity|]. cbn in *. lia.
  - destruct (prefixb (lit "null") (x ++ r)) eqn:N; [|discriminate]. injection H as <- <-. change (length (lit "null")) with 4 in L.
    rewrite (P (lit "true")), T, (P (lit "null")), N by exact L. assert (prefixb (lit "false") (x ++ r') = false) as ->; [|reflexivity].
    destruct x as [|a x]; [cbn in L; lia|]. change (lit "null") with (110 :: lit "ull")%Z in N. change (lit "false") with (102 :: lit "alse")%Z. cbn [app prefixb] in *. destruct (Z.eqb_spec 110 a); [subst a; reflexivity | discriminate].
Qed.

Section Json.
  Variables (alpha alnum : Z -> bool) (cfg : json_config).

  Lemma lex1_local c x r r' : length (snd (fst (lex1 alpha alnum cfg c (x ++ r)))) <= S (length x) -> length (snd (fst (lex1 alpha alnum cfg c (x ++ r')))) <= S (length x) ->
    fst (lex1 alpha alnum cfg c (x ++ r)) = fst (lex1 alpha alnum cfg c (x ++ r')).
  Proof.
    unfold lex1. destruct ((c =? 32) || (c =? 9) || (c =? 10) || (c =? 13))%Z.
    { cbn [fst snd]. intros H H'. pose proof (run_local char_is_whitespace (c :: x) r r' H H') as Q. unfold run in Q. apply (f_equal snd) in Q. cbn [snd] in Q. f_equal. exact Q. }
    destruct (c =? 34)%Z.
    { pose proof (str_local x false r r') as Q. destruct (str_run false (x ++ r)) as [[k b] t]. destruct (str_run false (x ++ r')) as [[k' b'] t']. cbn [fst snd length] in *. intros H H'. assert (E : (k, b) = (k', b')) by (apply Q; lia). now injection E as <- <-. }
    destruct ((c =? 45)%Z || ascii_digit c).
    { pose proof (number_local (jc_hex cfg) (c :: x) r r') as Q. change ((c :: x) ++ r) with (c :: x ++ r) in Q. change ((c :: x) ++ r') with (c :: x ++ r') in Q. rewrite <- !number_same in Q.
      destruct (number_run (jc_hex cfg) (c :: x ++ r)) as [[k s] t]. destruct (number_run (jc_hex cfg) (c :: x ++ r')) as [[k' s'] t']. cbn [fst snd length] in *. intros H H'. assert (E : (k, s) = (k', s')) by (apply Q; lia). now injection E as <- <-. }
    destruct (punctuation c) as [k|]; [reflexivity|].
    assert (B : length (snd (fst (bare_run alnum c (x ++ r)))) <= S (length x) -> length (snd (fst (bare_run alnum c (x ++ r')))) <= S (length x) -> fst (bare_run alnum c (x ++ r)) = fst (bare_run alnum c (x ++ r'))).
    { unfold bare_run. cbn [fst snd length]. intros H H'. pose proof (run_local (key_rest alnum) x r r') as Q. unfold run in Q. cbn [snd] in Q. assert (E := Q ltac:(lia) ltac:(lia)). apply (f_equal snd) in E. cbn [snd] in E. now rewrite E. }
    destruct ((c =? 116) || (c =? 102) || (c =? 110))%Z.
    - destruct (keyword (c :: x ++ r)) as [[k s]|] eqn:K.
      + cbn [fst snd]. intros H H'. pose proof (keyword_local (c :: x) r r' k s K H) as Q. cbn [app] in Q. rewrite Q. reflexivity.
      + destruct (keyword (c :: x ++ r')) as [[k s]|] eqn:K'.
        * cbn [fst snd]. intros H H'. pose proof (keyword_local (c :: x) r' r k s K' H') as Q. cbn [app] in Q. rewrite Q in K. discriminate.
        * destruct (jc_bare cfg && key_start alpha c); [exact B | reflexivity].
    - destruct (jc_bare cfg && key_start alpha c); [exact B | reflexivity].
  Qed.

  (** One piece, with comments and strings in single quotes. *)
  Definition lex2 (c : Z) (r : list Z) : option nat * list Z :=
    if (c =? 47)%Z && jc_comments cfg then match comment_run r with Some s => (Some KComment, s) | None => (None, [47%Z]) end
    else if (c =? 39)%Z && jc_single cfg then (Some KStringLit, 39%Z :: quote_run false r) else fst (lex1 alpha alnum cfg c r).

  Lemma lex2_local c x r r' : length (snd (lex2 c (x ++ r))) <= S (length x) -> length (snd (lex2 c (x ++ r'))) <= S (length x) -> lex2 c (x ++ r) = lex2 c (x ++ r').
  Proof.
    unfold lex2. destruct ((c =? 47)%Z && jc_comments cfg).
    - destruct x as [|a x]; cbn [app].
      + assert (N : forall q, length (snd (match comment_run q with Some s => (Some KComment, s) | None => (None, [47%Z]) end)) <= 1 -> comment_run q = None).
        { intros [|b q]; [reflexivity|]. unfold comment_run. destruct (b =? 47)%Z; [cbn; lia|]. destruct (b =? 42)%Z; [cbn; lia | reflexivity]. }
        intros H H'. now rewrite (N r H), (N r' H').
      + cbn [comment_run]. destruct (a =? 47)%Z.
        * cbn [snd length]. intros H H'. pose proof (run_local not_feed x r r') as Q. unfold run in Q. cbn [snd] in Q. assert (E := Q ltac:(lia) ltac:(lia)). apply (f_equal snd) in E. cbn [snd] in E. now rewrite E.
        * destruct (a =? 42)%Z; [|reflexivity]. cbn [snd length]. intros H H'. rewrite (block_local x r r') by lia. reflexivity.
    - destruct ((c =? 39)%Z && jc_single cfg); [|apply lex1_local]. cbn [snd length]. intros H H'. rewrite (quote_local x false r r') by lia. reflexivity.
  Qed.

  Lemma piece_lex2 c r k s r' : piece_ok alpha alnum cfg c r k s r' -> (k, s) = lex2 c r.
  Proof.
    unfold lex2. intros [[-> [(-> & _ & ->) | (-> & -> & ->)]] | [(H & -> & _ & ->) | (-> & -> & H)]]; [reflexivity | reflexivity | | now rewrite <- H].
    rewrite H. apply andb_prop in H as [H _]. apply Z.eqb_eq in H. subst c. reflexivity.
  Qed.

  Lemma text_cons k s ps : text_of_pieces ((k, s) :: ps) = s ++ text_of_pieces ps.
  Proof. reflexivity. Qed.
  Lemma text_app p q : text_of_pieces (p ++ q) = text_of_pieces p ++ text_of_pieces q.
  Proof. apply flat_map_app. Qed.

  (** Two divisions of the same stretch are the same. *)
  Lemma pieces_cut : forall pm pm' pr pr' r r', pieces_of alpha alnum cfg (text_of_pieces pm ++ r) (pm ++ pr) -> pieces_of alpha alnum cfg (text_of_pieces pm ++ r') (pm' ++ pr') ->
    text_of_pieces pm' = text_of_pieces pm -> pm = pm'.
  Proof.
    induction pm as [|[k s] pm IH]; intros pm' pr pr' r r' H H' E.
    - destruct pm' as [|[k' s'] pm']; [reflexivity|]. exfalso. inversion H' as [|c0 r0 k0 s0 r1 ps0 P0 E0 N0 T0]; subst. rewrite text_cons in E. apply app_eq_nil in E as [-> _]. contradiction.
    - cbn [app] in H. inversion H as [|c q k0 s0 q1 ps0 P0 E0 N0 T0 Hc]; subst k0 s0 ps0.
      destruct pm' as [|[k' s'] pm']. { exfalso. rewrite text_cons in E. symmetry in E. apply app_eq_nil in E as [-> _]. contradiction. }
      cbn [app] in H'. inversion H' as [|c' q' k0 s0 q1' ps0 P0' E0' N0' T0' Hc']; subst k0 s0 ps0.
      rewrite text_cons in *. destruct s as [|d s]; [contradiction|]. cbn [app] in *. injection Hc as -> Hq. injection Hc' as -> Hq'.
      apply piece_lex2 in P0. apply piece_lex2 in P0'. rewrite Hq in P0. rewrite Hq' in P0'.
      assert (E1 : s' ++ text_of_pieces pm' = d :: s ++ text_of_pieces pm) by exact E.
      pose proof (lex2_local d (s ++ text_of_pieces pm) r r') as Q. rewrite <- P0, <- P0' in Q. cbn [fst snd] in Q.
      assert (E2 : (k, d :: s) = (k', s')). { apply Q; [cbn; rewrite app_length; lia|]. apply (f_equal (@length Z)) in E1. rewrite app_length in E1. cbn [length] in E1. lia. }
      injection E2 as <- <-. f_equal. cbn [app] in E1. injection E1 as E1. apply app_inv_head in E1.
      assert (q1 = text_of_pieces pm ++ r) as ->. { cbn [app] in E0. injection E0 as E0. rewrite Hq, <- app_assoc in E0. now apply app_inv_head in E0. }
      assert (q1' = text_of_pieces pm ++ r') as ->. { cbn [app] in E0'. injection E0' as E0'. rewrite Hq', <- app_assoc in E0'. now apply app_inv_head in E0'. }
      eapply IH; eassumption.
  Qed.

  Lemma pieces_tail p q cs : pieces_of alpha alnum cfg cs (p ++ q) -> pieces_of alpha alnum cfg (text_of_pieces q) q.
  Proof.
    revert cs. induction p as [|[k s] p IH]; intros cs H; [cbn [app] in H; now rewrite (pieces_text _ _ _ _ _ H)|]. inversion H; subst. eapply IH; eassumption.
  Qed.

  (** ** The tokens of a text without strays *)
  Definition whole (ps : list piece) : Prop := Forall (fun p => fst p <> None) ps.

  Lemma spans_first ps : forall off L, off + length (encode (text_of_pieces ps)) <= L -> match spans off ps ++ [eof_at L] with [] => False | t :: _ => off <= tk_start t end.
  Proof.
    induction ps as [|[k s] ps IH]; intros off L H; cbn [spans app]; [cbn in *; lia|]. rewrite text_cons, encode_app, app_length in H. destruct k; cbn [app]; [cbn; lia|].
    specialize (IH (off + length (encode s)) L ltac:(lia)). destruct (spans (off + length (encode s)) ps ++ [eof_at L]); [exact IH | lia].
  Qed.
  Lemma encode_nonempty s : s <> [] -> 0 < length (encode s).
  Proof. destruct s as [|c s]; [contradiction|]. intros _. cbn. rewrite app_length, encode_char_length. pose proof (char_len_pos c). lia. Qed.
  Lemma tiles_whole ps : forall off L, Forall (fun p => snd p <> []) ps -> off + length (encode (text_of_pieces ps)) <= L -> tiles tok_span off (spans off ps ++ [eof_at L]) L -> whole ps.
  Proof.
    induction ps as [|[k s] ps IH]; intros off L N H T; [constructor|]. inversion N as [|? ? Ns Nr]; subst. cbn [snd] in Ns. rewrite text_cons, encode_app, app_length in H. cbn [spans] in T. destruct k as [k|]; cbn [app] in T.
    - inversion T as [|? ? ? ? A B C]; subst. constructor; [discriminate|]. apply (IH _ L Nr) in C; [exact C|]. cbn. lia.
    - exfalso. pose proof (spans_first ps (off + length (encode s)) L ltac:(lia)) as F. pose proof (encode_nonempty s Ns). destruct (spans (off + length (encode s)) ps ++ [eof_at L]); [exact F|]. inversion T as [|? ? ? ? A B C]; subst. cbn in *. lia.
  Qed.

  Lemma spans_split ps : whole ps -> forall off u v, spans off ps = u ++ v -> exists p q, ps = p ++ q /\ u = spans off p /\ v = spans (off + length (encode (text_of_pieces p))) q.
  Proof.
    induction 1 as [|[k s] ps W _ IH]; intros off u v E.
    - cbn in E. symmetry in E. apply app_eq_nil in E as [-> ->]. now exists [], [].
    - destruct u as [|t u].
      + exists [], ((k, s) :: ps). cbn [app] in E. subst v. split; [reflexivity|]. split; [reflexivity|]. cbn [text_of_pieces flat_map encode length]. now rewrite Nat.add_0_r.
      + destruct k as [k|]; [|now destruct W]. cbn [spans app] in E. injection E as <- E. destruct (IH _ _ _ E) as (p & q & -> & -> & ->). exists ((Some k, s) :: p), q. split; [reflexivity|]. split; [reflexivity|]. rewrite text_cons, encode_app, app_length. f_equal. lia.
  Qed.
  Lemma spans_yield ps : forall off off', map tok_yield (spans off ps) = map tok_yield (spans off' ps).
  Proof.
    induction ps as [|[k s] ps IH]; intros off off'; [reflexivity|]. cbn [spans]. rewrite !map_app, (IH _ (off' + length (encode s))). f_equal. destruct k; [|reflexivity]. cbn. unfold tok_yield. cbn. do 2 f_equal. lia.
  Qed.
  Lemma spans_tiles ps : whole ps -> forall off, tiles tok_span off (spans off ps) (off + length (encode (text_of_pieces ps))).
  Proof.
    induction 1 as [|[k s] ps W _ IH]; intros off; [cbn; rewrite Nat.add_0_r; constructor|]. destruct k as [k|]; [|now destruct W]. cbn [spans app]. rewrite text_cons, encode_app, app_length. constructor; [reflexivity | cbn; lia|]. cbn [tok_span snd tk_end]. replace (off + (length (encode s) + length (encode (text_of_pieces ps)))) with (off + length (encode s) + length (encode (text_of_pieces ps))) by lia. apply IH.
  Qed.

  Definition json_tokens (text : str) : list token := match json_lex alpha alnum (flat_source text) cfg with Some ts => ts | None => [] end.
  (** A text in UTF-8, of less than 4 GiB, whose tokens tile it. *)
  Definition tiled (text : str) : Prop := valid text /\ (Z.of_nat (length text) < 2 ^ 32)%Z /\ tiles tok_span 0 (json_tokens text) (length text).

  Lemma tiled_pieces text : tiled text -> exists ps, text = encode (text_of_pieces ps) /\ Forall is_scalar (text_of_pieces ps) /\ pieces_of alpha alnum cfg (text_of_pieces ps) ps /\
    json_tokens text = spans 0 ps ++ [eof_at (length text)] /\ whole ps /\ Forall (fun p => snd p <> []) ps.
  Proof.
    intros ((cs & F & E) & L & T). destruct (json_lex_pieces alpha alnum (flat_source text) text cfg cs) as (ps & P & Tx & El); [apply flat_serves; now exists cs | exact E | exact F|].
    unfold json_tokens in *. rewrite El in *. subst cs. exists ps. split; [exact E|]. split; [exact F|]. split; [exact P|]. split; [reflexivity|].
    assert (N : Forall (fun p => snd p <> []) ps) by (eapply Forall_impl; [|exact (pieces_sound _ _ _ _ _ P)]; intros p Hp; apply Hp).
    split; [|exact N]. apply (tiles_whole ps 0 (length text)); [exact N | rewrite E; lia | exact T].
  Qed.

  Lemma spans_pos ps : Forall (fun p => snd p <> []) ps -> forall off, Forall (fun t => tk_start t < tk_end t) (spans off ps).
  Proof.
    induction 1 as [|[k s] ps N _ IH]; intros off; [constructor|]. cbn [spans]. apply Forall_app. split; [|apply IH]. cbn [snd] in N. pose proof (encode_nonempty s N). destruct k; constructor; [cbn; lia | constructor].
  Qed.

  Definition space_byte (z : Z) : bool := ((z =? 32) || (z =? 9) || (z =? 10) || (z =? 13))%Z || (z =? 47)%Z && jc_comments cfg.
  Lemma first_byte c : is_scalar c -> exists z r, encode_char c = z :: r /\ space_byte z = space_byte c.
  Proof.
    intros Sc. assert (H0 : (0 <= c < 0x110000)%Z) by (destruct Sc as [Sc|Sc]; lia). unfold encode_char. destruct (Z.ltb_spec c 128); [now exists c, []|].
    assert (S : forall z, (128 <= z)%Z -> space_byte z = false). { intros z Hz. unfold space_byte. destruct (Z.eqb_spec z 32), (Z.eqb_spec z 9), (Z.eqb_spec z 10), (Z.eqb_spec z 13), (Z.eqb_spec z 47); try lia; reflexivity. }
    rewrite (S c) by lia. destruct (c <? 0x800)%Z; [|destruct (c <? 0x10000)%Z]; do 2 eexists; (split; [reflexivity|]); apply S; [pose proof (Z.div_pos c 64) | pose proof (Z.div_pos c 4096) | pose proof (Z.div_pos c 262144)]; lia.
  Qed.

  Lemma lex1_kind c r k : fst (fst (lex1 alpha alnum cfg c r)) = Some k -> ignored k = ((c =? 32) || (c =? 9) || (c =? 10) || (c =? 13))%Z /\ k <> KEof.
  Proof.
    unfold lex1. destruct ((c =? 32) || (c =? 9) || (c =? 10) || (c =? 13))%Z; [intros H; injection H as <-; split; [reflexivity | discriminate]|].
    destruct (c =? 34)%Z. { destruct (str_run false r) as [[[] ?] ?]; intros H; injection H as <-; (split; [reflexivity | discriminate]). }
    destruct ((c =? 45)%Z || ascii_digit c). { destruct (number_run (jc_hex cfg) (c :: r)) as [[[] ?] ?]; intros H; [injection H as <-; split; [reflexivity | discriminate] | discriminate]. }
    destruct (punctuation c) as [q|] eqn:P.
    { intros H. injection H as <-. unfold punctuation in P. repeat match type of P with (if ?b then _ else _) = _ => destruct b; [injection P as <-; split; [reflexivity | discriminate]|] end. discriminate. }
    assert (B : fst (fst (bare_run alnum c r)) = Some k -> ignored k = false /\ k <> KEof) by (intros H; injection H as <-; split; [reflexivity | discriminate]).
    destruct ((c =? 116) || (c =? 102) || (c =? 110))%Z.
    - unfold keyword. destruct (prefixb (lit "true") (c :: r)); [intros H; injection H as <-; split; [reflexivity | discriminate]|]. destruct (prefixb (lit "false") (c :: r)); [intros H; injection H as <-; split; [reflexivity | discriminate]|].
      destruct (prefixb (lit "null") (c :: r)); [intros H; injection H as <-; split; [reflexivity | discriminate]|]. destruct (jc_bare cfg && key_start alpha c); [exact B | discriminate].
    - destruct (jc_bare cfg && key_start alpha c); [exact B|]. intros H; injection H as <-; split; [reflexivity | discriminate].
  Qed.

  Lemma lex2_kind c r k : fst (lex2 c r) = Some k -> ignored k = space_byte c /\ k <> KEof.
  Proof.
    unfold lex2, space_byte. destruct ((c =? 47)%Z && jc_comments cfg) eqn:E.
    - rewrite orb_true_r. destruct (comment_run r); intros H; [injection H as <-; split; [reflexivity | discriminate] | discriminate].
    - rewrite orb_false_r. destruct ((c =? 39)%Z && jc_single cfg) eqn:E2; [|apply lex1_kind]. intros H. injection H as <-. apply andb_prop in E2 as [E2 _]. apply Z.eqb_eq in E2. subst c. split; [reflexivity | discriminate].
  Qed.

  Lemma in_spans ps : forall off t, In t (spans off ps) -> exists p k s q, ps = p ++ (Some k, s) :: q /\ t = Token k (off + length (encode (text_of_pieces p))) (off + length (encode (text_of_pieces p)) + length (encode s)).
  Proof.
    induction ps as [|[k s] ps IH]; intros off t H; [destruct H|]. cbn [spans] in H. apply in_app_iff in H as [H|H].
    - destruct k as [k|]; [|destruct H]. destruct H as [<-|[]]. exists [], k, s, ps. split; [reflexivity|]. cbn. now rewrite Nat.add_0_r.
    - destruct (IH _ _ H) as (p & k' & s' & q & -> & ->). exists ((k, s) :: p), k', s', q. split; [reflexivity|]. rewrite text_cons, encode_app, app_length. f_equal; lia.
  Qed.

  Lemma span_fact ps off t : pieces_of alpha alnum cfg (text_of_pieces ps) ps -> Forall is_scalar (text_of_pieces ps) -> In t (spans off ps) ->
    ignored (tk_kind t) = space_byte (nth (tk_start t - off) (encode (text_of_pieces ps)) 0%Z) /\ tk_kind t <> KEof.
  Proof.
    intros P F H. destruct (in_spans _ _ _ H) as (p & k & s & q & -> & ->). cbn [tk_kind tk_start]. replace (off + length (encode (text_of_pieces p)) - off) with (length (encode (text_of_pieces p))) by lia.
    rewrite text_app, encode_app, app_nth2, Nat.sub_diag by lia. rewrite text_app in F. apply Forall_app in F as [_ F]. pose proof (pieces_tail _ _ _ P) as T. inversion T as [|c r k0 s0 r0 ps0 P0 E0 N0 T0 E1]; subst k0 s0 ps0.
    rewrite text_cons in F |- *. destruct s as [|d s]; [contradiction|]. cbn [app] in E1. injection E1 as -> E1. apply piece_lex2 in P0. pose proof (lex2_kind d r k) as K. rewrite <- P0 in K. destruct (K eq_refl) as [K1 K2].
    split; [|exact K2]. rewrite K1. cbn [app encode] in *. inversion F as [|? ? F1 _]; subst. destruct (first_byte d F1) as (z & zs & -> & Ez). cbn [app nth]. now rewrite Ez.
  Qed.

  Lemma app_last {A} (l : list A) x a m b : l ++ [x] = a ++ m ++ b -> (exists b0, b = b0 ++ [x] /\ l = a ++ m ++ b0) \/ (b = [] /\ (m = [] \/ exists m0, m = m0 ++ [x])).
  Proof.
    intros E. destruct b as [|y b]; [right; split; [reflexivity|]|left].
    - destruct m as [|z m]; [now left|right]. rewrite app_nil_r in E. destruct (@exists_last _ (z :: m)) as (m0 & w & Em); [discriminate|]. rewrite Em in *. rewrite app_assoc in E. apply app_inj_tail in E as [_ ->]. now exists m0.
    - destruct (@exists_last _ (y :: b)) as (b0 & w & Eb); [discriminate|]. rewrite Eb in *. rewrite !app_assoc in E. apply app_inj_tail in E as [-> ->]. exists b0. split; [reflexivity | now rewrite app_assoc].
  Qed.

  (** Where a stretch of tokens lies. *)
  Lemma stretch text a m b s n : tiled text -> json_tokens text = a ++ m ++ b -> tiles tok_span s m (s + n) -> Forall (fun t => tk_start t < tk_end t) m -> m <> [] ->
    exists pm pr off, m = spans off pm /\ pieces_of alpha alnum cfg (text_of_pieces pm ++ text_of_pieces pr) (pm ++ pr) /\ text_at text s n = encode (text_of_pieces pm) /\ Forall is_scalar (text_of_pieces pm).
  Proof.
    intros G E T P N. destruct (tiled_pieces text G) as (ps & Et & F & Pp & El & W & Ne). rewrite El in E.
    apply app_last in E as [(b0 & -> & E)|[-> [->|(m0 & ->)]]]; [|contradiction|].
    2:{ exfalso. apply Forall_app in P as [_ P]. inversion P as [|? ? P1 _]; subst. cbn in P1. lia. }
    destruct (spans_split ps W 0 _ _ E) as (p & q & -> & Ea & E2). cbn [Nat.add] in E2. apply Forall_app in W as [_ W]. symmetry in E2. destruct (spans_split q W _ _ _ E2) as (pm & pr & -> & Em & _).
    set (off := length (encode (text_of_pieces p))) in *. apply Forall_app in W as [W _]. exists pm, pr, off. split; [exact Em|]. pose proof (pieces_tail _ _ _ Pp) as Pt. rewrite text_app in Pt. split; [exact Pt|].
    pose proof (spans_tiles pm W off) as T2. rewrite <- Em in T2.
    assert (s = off). { destruct m as [|t m]; [contradiction|]. inversion T; inversion T2; subst. congruence. } subst s.
    destruct (tiles_sum _ _ _ T) as [U1 _]. destruct (tiles_sum _ _ _ T2) as [U2 _]. assert (n = length (encode (text_of_pieces pm))) as -> by lia.
    rewrite !text_app in F. apply Forall_app in F as [_ F]. apply Forall_app in F as [F _]. split; [|exact F].
    rewrite Et, !text_app, !encode_app. unfold text_at, off. rewrite skip_initial. rewrite firstn_app, firstn_all, Nat.sub_diag. cbn. apply app_nil_r.
  Qed.

  Lemma json_local : local_on tiled ignored KEof json_tokens.
  Proof.
    split.
    - intros text G. apply G.
    - intros text (_ & L & T). apply Forall_forall. intros t I. apply in_split in I. destruct I as (u & v & E). rewrite E in T. destruct (tiles_sum _ _ _ T) as [U _]. rewrite map_app, list_sum_app in U. cbn [map] in U. rewrite list_sum_cons in U. unfold tok_yield at 2 in U. cbn [snd] in U. lia.
    - intros text a t b G E Z. destruct (tiled_pieces text G) as (ps & Et & F & Pp & El & W & Ne). rewrite El in E. change (t :: b) with ([t] ++ b) in E. apply app_last in E as [(b0 & -> & E)|[-> [E|([|] & E)]]]; [|discriminate| |].
      + exfalso. pose proof (spans_pos ps Ne 0) as Q. rewrite E in Q. apply Forall_app in Q as [_ Q]. inversion Q; subst. lia.
      + injection E as ->. now split.
      + injection E as _ E. destruct l; discriminate.
    - reflexivity.
    - intros text t G I K. destruct (tiled_pieces text G) as (ps & Et & F & Pp & El & W & Ne). rewrite El in I. apply in_app_iff in I as [I|[<-|[]]]; [|reflexivity]. destruct (span_fact ps 0 t Pp F I) as [_ Q]. contradiction.
    - exists space_byte. intros text t G I L. destruct (tiled_pieces text G) as (ps & Et & F & Pp & El & W & Ne). rewrite El in I. apply in_app_iff in I as [I|[<-|[]]]; [|cbn in L; lia]. destruct (span_fact ps 0 t Pp F I) as [Q _]. rewrite Nat.sub_0_r, <- Et in Q. exact Q.
    - intros text a m b text' a' m' b' s s' n G G' E E' T T' P P' Q.
      assert (Z : forall m s, n = 0 -> tiles tok_span s m (s + n) -> Forall (fun t => tk_start t < tk_end t) m -> m = []).
      { intros m0 s0 -> Hz Fz. destruct m0 as [|t m0]; [reflexivity|]. inversion Hz as [|? ? ? ? A C D]; subst. inversion Fz; subst. destruct (tiles_sum _ _ _ D) as [_ Le]. cbn in *. lia. }
      assert (Y : forall s, tiles tok_span s [] (s + n) -> n = 0) by (intros ? Hz; inversion Hz; lia).
      destruct m as [|t m]; [now rewrite (Z m' s' (Y _ T) T' P')|]. destruct m' as [|t' m']; [now rewrite (Z _ _ (Y _ T') T P)|].
      destruct (stretch text a _ b s n G E T P ltac:(discriminate)) as (pm & pr & off & -> & Pm & Em & Fm). destruct (stretch text' a' _ b' s' n G' E' T' P' ltac:(discriminate)) as (pm' & pr' & off' & -> & Pm' & Em' & Fm').
      rewrite Em, Em' in Q. apply encode_inj in Q; [|assumption..]. rewrite <- Q in Pm'. rewrite (pieces_cut pm pm' pr pr' _ _ Pm Pm' (eq_sym Q)). apply spans_yield.
  Qed.
End Json.
