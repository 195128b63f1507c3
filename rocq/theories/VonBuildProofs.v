(** The VON builder. *)
From Verif Require VfsProofs.
From Verif Require Import Base Utf8 Utf8Facts RopeModel RopeProofs VfsModel CursorModel CursorProofs LexModel TreeModel TreeSpec JsonLangSpec LangModel LangSpec VonModel VonSpec VonProofs VonGrammarProofs.
From Verif Require JsonAstBuildProofs.

(** ** Bytes and characters *)
Lemma no_byte a c : (0 <= a < 128)%Z -> is_scalar c -> c <> a -> Forall (fun x => x <> a) (encode_char c).
Proof.
  intros Ha H N. unfold is_scalar, encode_char in *. assert (0 <= c / 64 /\ 0 <= c mod 64 /\ 0 <= c / 4096 /\ 0 <= (c / 64) mod 64 /\ 0 <= c / 262144 /\ 0 <= (c / 4096) mod 64)%Z as (D1 & D2 & D3 & D4 & D5 & D6).
  { split; [apply Z.div_pos; lia|]. split; [apply Z.mod_pos_bound; lia|]. split; [apply Z.div_pos; lia|]. split; [apply Z.mod_pos_bound; lia|]. split; [apply Z.div_pos; lia|]. apply Z.mod_pos_bound; lia. }
  destruct (c <? 128)%Z; [|destruct (c <? 2048)%Z; [|destruct (c <? 65536)%Z]]; repeat (apply Forall_cons; [lia|]); apply Forall_nil.
Qed.
Lemma clean_encode s : Forall is_scalar s -> von_clean (encode s) = encode (without_underscores s).
Proof.
  unfold von_clean, without_underscores. induction 1 as [| c s Hc _ IH]; [reflexivity|]. cbn [encode filter]. rewrite filter_app, IH. destruct (c =? 95)%Z eqn:E; cbn [negb].
  - apply Z.eqb_eq in E. subst c. reflexivity.
  - cbn [encode]. f_equal. apply Z.eqb_neq in E. pose proof (no_byte 95 c ltac:(lia) Hc E) as N. induction N as [| x l Hx _ IHl]; [reflexivity|]. cbn. destruct (x =? 95)%Z eqn:X; [apply Z.eqb_eq in X; contradiction|]. cbn. now rewrite IHl.
Qed.
Lemma trim_quotes a s : Forall (eq 34%Z) a -> trim_start (a ++ s) = trim_start s.
Proof. induction 1 as [| c a <- _ IH]; [reflexivity | exact IH]. Qed.
Lemma trim_other s : hd_error s <> Some 34%Z -> trim_start s = s.
Proof. destruct s as [| c s]; [reflexivity|]. cbn. destruct (c =? 34)%Z eqn:E; [|reflexivity]. apply Z.eqb_eq in E. subst c. intros X. now destruct X. Qed.
Lemma encode_quotes a : Forall (eq 34%Z) a -> encode a = a.
Proof. intros H. apply encode_ascii. unfold ascii. eapply Forall_impl; [|exact H]. intros x <-. lia. Qed.
Lemma hd_last {A} (l : list A) x : hd_error (rev l) = Some x <-> exists l', l = l' ++ [x].
Proof.
  split.
  - intros H. destruct (rev l) as [| y r] eqn:E; [discriminate|]. injection H as ->. exists (rev r). rewrite <- (rev_involutive l), E. reflexivity.
  - intros (l' & ->). now rewrite rev_app_distr.
Qed.
Lemma trim_encode s n : Forall is_scalar s -> named s n -> von_trim (encode s) = encode n.
Proof.
  intros Sc (a & b & -> & Ha & Hb & H1 & H2). apply Forall_app in Sc. destruct Sc as [_ Sc]. apply Forall_app in Sc. destruct Sc as [Sn _]. rewrite !encode_app, (encode_quotes a Ha), (encode_quotes b Hb). unfold von_trim. rewrite (trim_quotes a _ Ha).
  assert (Hr : Forall (eq 34%Z) (rev b)) by (apply Forall_forall; intros x I; apply (proj1 (Forall_forall _ _) Hb), in_rev; exact I).
  destruct n as [| c n].
  { cbn [encode app]. rewrite <- (app_nil_r b). rewrite (trim_quotes b [] Hb). reflexivity. }
  assert (X1 : trim_start (encode (c :: n) ++ b) = encode (c :: n) ++ b).
  { apply trim_other. cbn [encode]. inversion Sn as [| ? ? Hc _]; subst. assert (Nc : c <> 34%Z) by (cbn in H1; congruence). pose proof (no_byte 34 c ltac:(lia) Hc Nc) as Fb. pose proof (encode_char_nonempty c) as Ne. destruct (encode_char c) as [| x l]; [easy|]. inversion Fb. cbn. congruence. }
  rewrite X1, rev_app_distr, (trim_quotes _ _ Hr). rewrite trim_other; [apply rev_involutive|]. intros X. apply hd_last in X. destruct X as (l & E).
  destruct (exists_last (l := c :: n) ltac:(discriminate)) as (q & y & Ey). rewrite Ey in *. apply Forall_app in Sn. destruct Sn as [_ Sy]. inversion Sy as [| ? ? Hy _]; subst. assert (Ny : y <> 34%Z) by (intros ->; now apply (H2 q)).
  rewrite encode_app in E. cbn [encode] in E. rewrite app_nil_r in E. pose proof (no_byte 34 y ltac:(lia) Hy Ny) as Fb. pose proof (encode_char_nonempty y) as Ne. destruct (exists_last Ne) as (l' & z & Ez). rewrite Ez in *. rewrite app_assoc in E. apply app_inj_tail in E. destruct E as [_ ->]. apply Forall_app in Fb. destruct Fb as [_ Fb]. inversion Fb. congruence.
Qed.

Lemma leading_repeat q n b : ends (eq q) b -> leading q (repeat q n ++ b) = n.
Proof.
  intros H. induction n as [| n IH]; cbn [repeat app].
  - destruct b as [| c b]; [reflexivity|]. cbn. destruct (c =? q)%Z eqn:E; [|reflexivity]. apply Z.eqb_eq in E. now destruct (H c eq_refl).
  - cbn [leading]. now rewrite Z.eqb_refl, IH.
Qed.
Lemma encode_repeat q n : quote q -> encode (repeat q n) = repeat q n.
Proof. intros Q. apply encode_ascii. apply Forall_forall. intros x I. apply repeat_spec in I. subst x. destruct Q as [-> | ->]; lia. Qed.
Lemma quote_scalar q n : quote q -> Forall is_scalar (repeat q n).
Proof. intros Q. apply Forall_forall. intros x I. apply repeat_spec in I. subst x. unfold is_scalar. destruct Q as [-> | ->]; lia. Qed.
Lemma von_quote_yes q : quote q -> von_quote q = true.
Proof. now intros [-> | ->]. Qed.
(** [raw] is taken away *)
Lemma unquote_raw p q s : raw p -> quote q -> Forall is_scalar (q :: s) -> von_unquote (encode (p ++ q :: s)) =
  let n := leading q (q :: s) in if 2 * n <=? length (encode (q :: s)) then str_get (encode (q :: s)) n (length (encode (q :: s)) - n) else Some [].
Proof.
  intros P Q Sc. unfold von_unquote. assert (Eq : encode (q :: s) = q :: encode s) by (cbn [encode]; destruct Q as [-> | ->]; reflexivity).
  assert (X : (if prefixb (lit "raw") (encode (p ++ q :: s)) && match skipn 3 (encode (p ++ q :: s)) with c :: _ => von_quote c | [] => false end then skipn 3 (encode (p ++ q :: s)) else encode (p ++ q :: s)) = encode (q :: s)).
  { rewrite encode_app, Eq. destruct P as [-> | ->].
    - cbn [encode app]. assert (prefixb (lit "raw") (q :: encode s) = false) as -> by (destruct Q as [-> | ->]; reflexivity). reflexivity.
    - change (encode (lit "raw")) with (lit "raw"). cbn [app lit]. cbn. now rewrite (von_quote_yes q Q). }
  rewrite X. rewrite (chars_encode _ Sc). reflexivity.
Qed.
Lemma unquote_content s b : Forall is_scalar s -> content s b -> von_unquote (encode s) = Some (encode b).
Proof.
  intros Sc C. destruct C as [p q P Q | p q n b P Q N0 N2 Nb He].
  - apply Forall_app in Sc. destruct Sc as [_ Sc]. rewrite (unquote_raw p q [q] P Q Sc). cbv zeta. change [q; q] with (repeat q 2). rewrite <- (app_nil_r (repeat q 2)), (leading_repeat q 2 []) by (intros c X; discriminate). rewrite app_nil_r, (encode_repeat q 2 Q). reflexivity.
  - apply Forall_app in Sc. destruct Sc as [_ Sc]. destruct n as [| n]; [easy|]. change (repeat q (S n) ++ b ++ repeat q (S n)) with (q :: repeat q n ++ b ++ repeat q (S n)) in *. rewrite (unquote_raw p q _ P Q Sc). cbv zeta. change (q :: repeat q n ++ b ++ repeat q (S n)) with (repeat q (S n) ++ b ++ repeat q (S n)) in *.
    assert (Hl : leading q (repeat q (S n) ++ b ++ repeat q (S n)) = S n). { apply leading_repeat. destruct b as [| c b]; [easy|]. intros x E. injection E as <-. now apply He. }
    rewrite Hl, !encode_app, !(encode_repeat q _ Q), !app_length, !repeat_length.
    assert (L : 2 * S n <=? S n + (length (encode b) + S n) = true) by (apply Nat.leb_le; lia). rewrite L. replace (S n + (length (encode b) + S n) - S n) with (S n + length (encode b)) by lia.
    pose proof (JsonAstBuildProofs.text_here (repeat q (S n)) b (repeat q (S n)) Sc) as [T1 T2]. rewrite !encode_app, !(encode_repeat q _ Q), !repeat_length in T1, T2.
    apply Forall_app in Sc. destruct Sc as [S1 S2]. apply Forall_app in S2. destruct S2 as [Sb _].
    unfold str_get. assert (B1 : is_boundary (repeat q (S n) ++ encode b ++ repeat q (S n)) (S n) = true). { pose proof (boundary_of_split (repeat q (S n)) (b ++ repeat q (S n)) ltac:(apply Forall_app; now split)) as B. now rewrite !encode_app, !(encode_repeat q _ Q), repeat_length in B. }
    assert (B2 : is_boundary (repeat q (S n) ++ encode b ++ repeat q (S n)) (S n + length (encode b)) = true). { pose proof (boundary_of_split (repeat q (S n) ++ b) (repeat q (S n)) S1) as B. rewrite !encode_app, !(encode_repeat q _ Q), app_length, repeat_length in B. now rewrite <- app_assoc in B. }
    rewrite B1, B2, T2. assert (S n <=? S n + length (encode b) = true) as -> by (apply Nat.leb_le; lia). assert (S n + length (encode b) <=? length (repeat q (S n) ++ encode b ++ repeat q (S n)) = true) as -> by (apply Nat.leb_le; rewrite !app_length, repeat_length; lia). reflexivity.
Qed.

(** ** The loops of the builder *)
Section Loops.
  Variable F : Type.
  Variable parse : str -> option F.
  Variable source : str.
  Notation bv := (build_value F parse source).

  Fixpoint b_field (span : nat * nat) (l : list green) (o : nat) (name : option str) (value : option (vvalue F)) : result (str * vvalue F * (nat * nat)) :=
    match l with
    | [] => match name, value with Some x, Some v => Some (Some (x, v, span)) | _, _ => Some None end
    | c :: r =>
        match c with
        | GNode k' n' _ => if von_field_kind k' then bind (bv c o) (fun v => b_field span r (o + n') name (Some v)) else b_field span r (o + n') name value
        | GLeaf k' n' _ => b_field span r (o + n') (if (k' =? NIdentifier) || (k' =? NString) then Some (von_trim (flat_text_in source o (o + n'))) else name) value
        end
    end.
  Fixpoint b_fields (l : list green) (off : nat) : result (list (str * vvalue F * (nat * nat))) :=
    match l with
    | [] => Some (Some [])
    | GNode k n sub :: r => if k =? NEntry then bind (b_field (off, off + n) sub off None None) (fun f => bind (b_fields r (off + n)) (fun fs => Some (Some (f :: fs)))) else b_fields r (off + n)
    | GLeaf _ n _ :: r => b_fields r (off + n)
    end.
  Fixpoint b_elements (l : list green) (off : nat) : result (list (vvalue F)) :=
    match l with
    | [] => Some (Some [])
    | c :: r =>
        match c with
        | GNode k n _ => if k =? NElement then bind (bv c off) (fun v => bind (b_elements r (off + n)) (fun vs => Some (Some (v :: vs)))) else b_elements r (off + n)
        | GLeaf _ n _ => b_elements r (off + n)
        end
    end.
  Fixpoint b_enum (span : nat * nat) (l : list green) (off : nat) (variant : option str) (payload : option (vvalue F)) : result (vvalue F) :=
    match l with
    | [] => match variant with Some x => Some (Some (VEnum x payload span)) | None => Some None end
    | c :: r =>
        match c with
        | GNode _ n _ => bind (bv c off) (fun v => b_enum span r (off + n) variant (Some v))
        | GLeaf k n _ => b_enum span r (off + n) (if k =? NIdentifier then Some (flat_text_in source off (off + n)) else variant) payload
        end
    end.
  Fixpoint b_first (l : list green) (off : nat) : result (vvalue F) :=
    match l with
    | [] => Some None
    | c :: r =>
        match c with
        | GNode _ _ _ => bv c off
        | GLeaf k n _ => match von_leaf F parse source k n off with None => None | Some (Some x) => x | Some None => b_first r (off + n) end
        end
    end.
  (** the same with the span fixed, as in the builder *)
  Definition m_field (span : nat * nat) := fix field (l : list green) (o : nat) (name : option str) (value : option (vvalue F)) : result (str * vvalue F * (nat * nat)) :=
    match l with
    | [] => match name, value with Some x, Some v => Some (Some (x, v, span)) | _, _ => Some None end
    | c :: r =>
        match c with
        | GNode k' n' _ => if von_field_kind k' then bind (bv c o) (fun v => field r (o + n') name (Some v)) else field r (o + n') name value
        | GLeaf k' n' _ => field r (o + n') (if (k' =? NIdentifier) || (k' =? NString) then Some (von_trim (flat_text_in source o (o + n'))) else name) value
        end
    end.
  Definition m_fields := fix go (l : list green) (off : nat) : result (list (str * vvalue F * (nat * nat))) :=
    match l with
    | [] => Some (Some [])
    | GNode k n sub :: r => if k =? NEntry then bind (m_field (off, off + n) sub off None None) (fun f => bind (go r (off + n)) (fun fs => Some (Some (f :: fs)))) else go r (off + n)
    | GLeaf _ n _ :: r => go r (off + n)
    end.
  Definition m_enum (span : nat * nat) := fix go (l : list green) (off : nat) (variant : option str) (payload : option (vvalue F)) : result (vvalue F) :=
    match l with
    | [] => match variant with Some x => Some (Some (VEnum x payload span)) | None => Some None end
    | c :: r =>
        match c with
        | GNode _ n _ => bind (bv c off) (fun v => go r (off + n) variant (Some v))
        | GLeaf k n _ => go r (off + n) (if k =? NIdentifier then Some (flat_text_in source off (off + n)) else variant) payload
        end
    end.
  Lemma bind_same {A B} (r : result A) (f g : A -> result B) : (forall a, f a = g a) -> bind r f = bind r g.
  Proof. intros H. destruct r as [[a|]|]; [apply H | reflexivity | reflexivity]. Qed.
  Lemma field_same span l : forall o x v, m_field span l o x v = b_field span l o x v.
  Proof. induction l as [| [k n m | k n ch] r IH]; intros o x v; [reflexivity | |]; cycle 1.
    - transitivity (if von_field_kind k then bind (bv (GNode k n ch) o) (fun v => m_field span r (o + n) x (Some v)) else m_field span r (o + n) x v); [reflexivity|]. cbn [b_field]. destruct (von_field_kind k); [now apply bind_same | apply IH].
    - exact (IH (o + n) (if (k =? NIdentifier) || (k =? NString) then Some (von_trim (flat_text_in source o (o + n))) else x) v).
  Qed.
  Lemma fields_same l : forall o, m_fields l o = b_fields l o.
  Proof.
    induction l as [| [k n m | k n ch] r IH]; intros o; [reflexivity | exact (IH (o + n)) |].
    transitivity (if k =? NEntry then bind (m_field (o, o + n) ch o None None) (fun f => bind (m_fields r (o + n)) (fun fs => Some (Some (f :: fs)))) else m_fields r (o + n)); [reflexivity|]. cbn [b_fields]. rewrite field_same, IH. reflexivity.
  Qed.
  Lemma enum_same span l : forall o x v, m_enum span l o x v = b_enum span l o x v.
  Proof. induction l as [| [k n m | k n ch] r IH]; intros o x v; [reflexivity | |]; cycle 1.
    - transitivity (bind (bv (GNode k n ch) o) (fun v => m_enum span r (o + n) x (Some v))); [reflexivity|]. cbn [b_enum]. now apply bind_same.
    - exact (IH (o + n) (if k =? NIdentifier then Some (flat_text_in source o (o + n)) else x) v).
  Qed.
  Lemma build_step kind len ch off : bv (GNode kind len ch) off =
    if kind =? NObject then bind (b_fields ch off) (fun fs => Some (Some (VObject fs (off, off + len))))
    else if kind =? NArray then bind (b_elements ch off) (fun vs => Some (Some (VArray vs (off, off + len))))
    else if kind =? NEnum then b_enum (off, off + len) ch off None None
    else if (kind =? NValue) || (kind =? NElement) || (kind =? NRoot) then b_first ch off
    else Some None.
  Proof. rewrite <- fields_same, <- enum_same. reflexivity. Qed.

  (** The pieces [e] stand at the offset [o] of the source. *)
  Definition here (o : nat) (e : list piece) : Prop := exists c1 c2, source = encode (c1 ++ text_of_pieces e ++ c2) /\ length (encode c1) = o /\ Forall is_scalar (c1 ++ text_of_pieces e ++ c2).
  Lemma text_app (a b : list piece) : text_of_pieces (a ++ b) = text_of_pieces a ++ text_of_pieces b.
  Proof. unfold text_of_pieces. apply flat_map_app. Qed.
  Lemma len_app a b : len (a ++ b) = len a + len b.
  Proof. unfold len. now rewrite text_app, encode_app, app_length. Qed.
  Lemma len_cons p e : len (p :: e) = length (encode (snd p)) + len e.
  Proof. unfold len, text_of_pieces. cbn. now rewrite encode_app, app_length. Qed.
  Lemma here_app o a b : here o (a ++ b) -> here o a /\ here (o + len a) b.
  Proof.
    intros (c1 & c2 & E & L & Sc). rewrite text_app in *. split.
    - exists c1, (text_of_pieces b ++ c2). rewrite <- app_assoc in E, Sc. now split.
    - exists (c1 ++ text_of_pieces a), c2. rewrite <- !app_assoc in *. split; [assumption|]. split; [|assumption]. rewrite encode_app, app_length, L. reflexivity.
  Qed.
  Lemma here_tok o p e : here o (p :: e) -> flat_text_in source o (o + length (encode (snd p))) = encode (snd p) /\ Forall is_scalar (snd p) /\ here (o + length (encode (snd p))) e.
  Proof.
    intros H. change (p :: e) with ([p] ++ e) in H. destruct (here_app o [p] e H) as [H1 H2]. rewrite len_cons in H2. unfold len in H2. cbn [text_of_pieces flat_map encode length] in H2. rewrite Nat.add_0_r in H2.
    destruct H1 as (c1 & c2 & -> & <- & Sc). unfold text_of_pieces in *. cbn [flat_map] in *. rewrite app_nil_r in *. split; [exact (proj1 (JsonAstBuildProofs.text_here c1 (snd p) c2 Sc))|]. split; [|assumption]. apply Forall_app in Sc. destruct Sc as [_ Sc]. now apply Forall_app in Sc.
  Qed.

  (** *** Leaves *)
  Lemma leaves_cons p e : leaves (p :: e) = GLeaf (kind p) (length (encode (snd p))) None :: leaves e.
  Proof. reflexivity. Qed.
  Lemma fields_leaves e l off : b_fields (leaves e ++ l) off = b_fields l (off + len e).
  Proof. revert off. induction e as [| p e IH]; intros off; [cbn; unfold len; cbn; now rewrite Nat.add_0_r|]. rewrite leaves_cons. cbn [app b_fields]. rewrite IH, len_cons. f_equal. lia. Qed.
  Lemma elements_leaves e l off : b_elements (leaves e ++ l) off = b_elements l (off + len e).
  Proof. revert off. induction e as [| p e IH]; intros off; [cbn; unfold len; cbn; now rewrite Nat.add_0_r|]. rewrite leaves_cons. cbn [app b_elements]. rewrite IH, len_cons. f_equal. lia. Qed.
  Lemma enum_trivia span w l off x p : Forall trivia w -> b_enum span (leaves w ++ l) off x p = b_enum span l (off + len w) x p.
  Proof.
    intros H. revert off. induction H as [| q w Hq _ IH]; intros off; [cbn; unfold len; cbn; now rewrite Nat.add_0_r|]. rewrite leaves_cons. cbn [app b_enum]. assert (kind q =? NIdentifier = false) as -> by (unfold kind; destruct Hq as [-> | [-> | ->]]; reflexivity). rewrite IH, len_cons. f_equal. lia.
  Qed.
  Lemma field_quiet span w l off x v : Forall (fun p => kind p <> NIdentifier /\ kind p <> NString) w -> b_field span (leaves w ++ l) off x v = b_field span l (off + len w) x v.
  Proof.
    intros H. revert off. induction H as [| q w [H1 H2] _ IH]; intros off; [cbn; unfold len; cbn; now rewrite Nat.add_0_r|]. rewrite leaves_cons. cbn [app b_field]. apply Nat.eqb_neq in H1, H2. rewrite H1, H2. cbn [orb]. rewrite IH, len_cons. f_equal. lia.
  Qed.
  Lemma trivia_quiet w : Forall trivia w -> Forall (fun p => kind p <> NIdentifier /\ kind p <> NString) w.
  Proof. apply Forall_impl. intros p. unfold kind. intros [-> | [-> | ->]]; split; discriminate. Qed.

  (** ** A value of the grammar is built *)
  Notation value := (value parse). Notation entries := (entries parse). Notation more_entries := (more_entries parse).
  Notation entry := (entry parse). Notation elements := (elements parse). Notation more_elements := (more_elements parse). Notation document := (document parse).

  Definition widths (ts : list green) : nat := list_sum (map width ts).
  Lemma widths_app a b : widths (a ++ b) = widths a + widths b.
  Proof. unfold widths. now rewrite map_app, list_sum_app. Qed.
  Lemma widths_leaves e : widths (leaves e) = len e.
  Proof. induction e as [| p e IH]; [reflexivity|]. rewrite leaves_cons, len_cons. change (length (encode (snd p)) + widths (leaves e) = length (encode (snd p)) + len e). now rewrite IH. Qed.
  Lemma gnode_width k ch : width (gnode k ch) = widths ch.
  Proof. reflexivity. Qed.

  Definition Bv (o : nat) (e r : list piece) (t : green) (v : vvalue F) : Prop := (exists ch, t = gnode NValue ch) /\ width t = len e /\ (here o e -> bv t o = Some (Some v)).
  Definition Be (o : nat) (e r : list piece) (t : green) (f : str * vvalue F * (nat * nat)) : Prop :=
    width t = len e /\ exists sub, t = gnode NEntry sub /\ (here o e -> b_field (o, o + len e) sub o None None = Some (Some f)).
  Definition Bes (o : nat) (b r : list piece) (ts : list green) (fs : list (str * vvalue F * (nat * nat))) : Prop :=
    widths ts = len b /\ (here o b -> forall z, b_fields (ts ++ leaves z) o = Some (Some fs)).
  Definition Bls (o : nat) (b r : list piece) (ts : list green) (vs : list (vvalue F)) : Prop :=
    widths ts = len b /\ (here o b -> forall z, b_elements (ts ++ leaves z) o = Some (Some vs)).

  Lemma fields_none z off : b_fields (leaves z) off = Some (Some []).
  Proof. rewrite <- (app_nil_r (leaves z)), fields_leaves. reflexivity. Qed.
  Lemma elements_none z off : b_elements (leaves z) off = Some (Some []).
  Proof. rewrite <- (app_nil_r (leaves z)), elements_leaves. reflexivity. Qed.

  Lemma tok_value o k s e v : tok k s e -> (Forall is_scalar s -> flat_text_in source o (o + length (encode s)) = encode s -> von_leaf F parse source k (length (encode s)) o = Some (Some (Some (Some v)))) -> Bv o e [] (gnode NValue (leaves e)) v.
  Proof.
    intros (w & -> & Fw) H. split; [now eexists|]. split; [rewrite gnode_width; apply widths_leaves|]. intros Hh. destruct (here_tok _ _ _ Hh) as (T & Sc & _). cbn [snd] in *. unfold gnode. rewrite build_step, leaves_cons. cbn [kind fst snd]. cbn [b_first]. change (NValue =? NObject) with false. cbv iota. change (kind (Some k, s)) with k. rewrite (H Sc T). reflexivity.
  Qed.

  Theorem grammar_built :
    (forall o e r t v, value o e r t v -> Bv o e r t v) /\ (forall o b r ts fs, entries o b r ts fs -> Bes o b r ts fs).
  Proof.
    assert (C1 : forall o e r s b, tok NString s e -> content s b -> Bv o e r (gnode NValue (leaves e)) (VString (encode b) (o, o + length (encode s)))).
    { intros o e r s b T C. apply (tok_value o NString s e _ T). intros Sc Tx. unfold von_leaf. rewrite Tx, (unquote_content s b Sc C). reflexivity. }
    assert (C2 : forall o e r s x, tok NNumber s e -> parse (encode (without_underscores s)) = Some x -> Bv o e r (gnode NValue (leaves e)) (VNumber x (o, o + length (encode s)))).
    { intros o e r s x T C. apply (tok_value o NNumber s e _ T). intros Sc Tx. unfold von_leaf. rewrite Tx, (clean_encode s Sc), C. reflexivity. }
    assert (C3 : forall o e r s b, tok NBool s e -> (b = true <-> s = lit "true") -> Bv o e r (gnode NValue (leaves e)) (VBoolean b (o, o + length (encode s)))).
    { intros o e r s b T C. apply (tok_value o NBool s e _ T). intros Sc Tx. unfold von_leaf. rewrite Tx. change (NBool =? NString) with false. change (NBool =? NNumber) with false. change (NBool =? NBool) with true. cbv iota. do 4 f_equal. f_equal.
      assert (Si : Forall is_scalar (lit "true")) by (repeat (apply Forall_cons; [unfold is_scalar; cbn; lia|]); apply Forall_nil).
      destruct (str_eqb (encode s) (lit "true")) eqn:E.
      - symmetry. apply C. apply VfsProofs.str_eqb_spec in E. apply encode_inj; [assumption | assumption | now rewrite E].
      - destruct b; [|reflexivity]. rewrite (proj1 C eq_refl) in E. discriminate. }
    assert (C4 : forall o e r s, tok NNull s e -> Bv o e r (gnode NValue (leaves e)) (VNull (o, o + length (encode s)))).
    { intros o e r s T. apply (tok_value o NNull s e _ T). intros Sc Tx. reflexivity. }
    assert (Cn : forall k ch (v : vvalue F) o e r, width (gnode k ch) = len e -> (here o e -> bv (gnode k ch) o = Some (Some v)) -> Bv o e r (gnode NValue [gnode k ch]) v).
    { intros k ch v o e r W H. split; [now eexists|]. split; [rewrite gnode_width; unfold widths; cbn [map list_sum fold_right]; lia|]. intros Hh. unfold gnode at 1. rewrite build_step. change (NValue =? NObject) with false. cbn. now apply H. }
    assert (C5 : forall o e r n, tok NIdentifier n e -> ~ next_is [NLeftBrace; NLeftBracket] r -> Bv o e r (gnode NValue [gnode NEnum (leaves e)]) (VEnum (encode n) None (o, o + len e))).
    { intros o e r n (w & -> & Fw) _. apply Cn; [rewrite gnode_width; apply widths_leaves|]. intros Hh. destruct (here_tok _ _ _ Hh) as (T & Sc & _). cbn [snd] in *. unfold gnode. rewrite build_step. change (NEnum =? NObject) with false. change (NEnum =? NArray) with false. change (NEnum =? NEnum) with true. cbv iota. fold (widths (leaves ((Some NIdentifier, n) :: w))). rewrite widths_leaves.
      rewrite leaves_cons. cbn [b_enum]. change (kind (Some NIdentifier, n) =? NIdentifier) with true. cbv iota. cbn [snd]. rewrite T. rewrite <- (app_nil_r (leaves w)), (enum_trivia _ w [] _ _ _ Fw). reflexivity. }
    assert (C6 : forall o e p r n t v, tok NIdentifier n e -> next_is [NLeftBrace; NLeftBracket] p -> value (o + len e) p r t v -> Bv (o + len e) p r t v -> Bv o (e ++ p) r (gnode NValue [gnode NEnum (leaves e ++ [t])]) (VEnum (encode n) (Some v) (o, o + len (e ++ p)))).
    { intros o e p r n t v (w & -> & Fw) _ _ ((ch & ->) & Wt & IH). set (t := gnode NValue ch) in *. apply Cn; [rewrite gnode_width, widths_app, widths_leaves, len_app; unfold widths; cbn [map list_sum fold_right]; lia|]. intros Hh. destruct (here_app _ _ _ Hh) as [H1 H2]. specialize (IH H2). destruct (here_tok _ _ _ H1) as (T & Sc & _). cbn [snd] in *.
      unfold gnode. rewrite build_step. change (NEnum =? NObject) with false. change (NEnum =? NArray) with false. change (NEnum =? NEnum) with true. cbv iota. fold (widths (leaves ((Some NIdentifier, n) :: w) ++ [t])). rewrite widths_app, widths_leaves. assert (Wt' : widths [t] = len p) by (unfold widths; cbn [map list_sum fold_right]; lia). rewrite Wt', <- len_app.
      rewrite leaves_cons. cbn [app b_enum]. change (kind (Some NIdentifier, n) =? NIdentifier) with true. cbv iota. cbn [snd]. rewrite T, (enum_trivia _ w [t] _ _ _ Fw). unfold t at 1. unfold gnode. cbn [b_enum]. fold (gnode NValue ch). fold t. replace (o + length (encode n) + len w) with (o + len ((Some NIdentifier, n) :: w)) by (rewrite len_cons; cbn [snd]; lia). rewrite IH. reflexivity. }
    assert (C7 : forall o a b z r s s' ts fs, tok NLeftBrace s a -> tok NRightBrace s' z -> entries (o + len a) b (z ++ r) ts fs -> Bes (o + len a) b (z ++ r) ts fs -> Bv o (a ++ b ++ z) r (gnode NValue [gnode NObject (leaves a ++ ts ++ leaves z)]) (VObject fs (o, o + len (a ++ b ++ z)))).
    { intros o a b z r s s' ts fs _ _ _ [W IH]. assert (Ww : widths (leaves a ++ ts ++ leaves z) = len (a ++ b ++ z)) by (rewrite !widths_app, !widths_leaves, !len_app; lia). apply Cn; [now rewrite gnode_width|]. intros Hh. apply here_app in Hh. destruct Hh as [_ Hh]. apply here_app in Hh. destruct Hh as [Hh _]. specialize (IH Hh z).
      unfold gnode. rewrite build_step. change (NObject =? NObject) with true. cbv iota. fold (widths (leaves a ++ ts ++ leaves z)). rewrite Ww, fields_leaves, IH. reflexivity. }
    assert (C8 : forall o a b z r s s' ts vs, tok NLeftBracket s a -> tok NRightBracket s' z -> elements (o + len a) b (z ++ r) ts vs -> Bls (o + len a) b (z ++ r) ts vs -> Bv o (a ++ b ++ z) r (gnode NValue [gnode NArray (leaves a ++ ts ++ leaves z)]) (VArray vs (o, o + len (a ++ b ++ z)))).
    { intros o a b z r s s' ts vs _ _ _ [W IH]. assert (Ww : widths (leaves a ++ ts ++ leaves z) = len (a ++ b ++ z)) by (rewrite !widths_app, !widths_leaves, !len_app; lia). apply Cn; [now rewrite gnode_width|]. intros Hh. apply here_app in Hh. destruct Hh as [_ Hh]. apply here_app in Hh. destruct Hh as [Hh _]. specialize (IH Hh z).
      unfold gnode. rewrite build_step. change (NArray =? NObject) with false. change (NArray =? NArray) with true. cbv iota. fold (widths (leaves a ++ ts ++ leaves z)). rewrite Ww, elements_leaves, IH. reflexivity. }
    assert (E1 : forall o r, Bes o [] r [] []) by (intros o r; split; [reflexivity|]; intros _ z; apply fields_none).
    assert (Step : forall o e m r t f ts fs, Be o e (m ++ r) t f -> Bes (o + len e) m r ts fs -> Bes o (e ++ m) r (t :: ts) (f :: fs)).
    { intros o e m r t f ts fs [We (sub & -> & IHe)] [Wm IHm]. split; [rewrite len_app; unfold widths in *; cbn [map list_sum fold_right]; fold (list_sum (map width ts)); lia|]. intros Hh z. apply here_app in Hh. destruct Hh as [H1 H2]. rewrite gnode_width in We. cbn [app]. unfold gnode at 1. cbn [b_fields]. change (NEntry =? NEntry) with true. cbv iota. fold (widths sub). rewrite We, (IHe H1). cbn [bind]. now rewrite (IHm H2 z). }
    assert (E2 : forall o e m r t f ts fs, entry o e (m ++ r) t f -> Be o e (m ++ r) t f -> more_entries (o + len e) m r ts fs -> Bes (o + len e) m r ts fs -> Bes o (e ++ m) r (t :: ts) (f :: fs)) by (intros o e m r t f ts fs _ He _ Hm; now apply Step).
    assert (M1 : forall o r, ~ next_is [NComma; NIdentifier; NString] r -> Bes o [] r [] []) by (intros o r _; apply E1).
    assert (M2 : forall o c r s, tok NComma s c -> ~ next_is [NIdentifier; NString] r -> Bes o c r (leaves c) []) by (intros o c r s _ _; split; [apply widths_leaves|]; intros _ z; rewrite fields_leaves; apply fields_none).
    assert (M3 : forall o c e m r t f ts fs, c = [] \/ (exists s, tok NComma s c) -> entry (o + len c) e (m ++ r) t f -> Be (o + len c) e (m ++ r) t f -> more_entries (o + len (c ++ e)) m r ts fs -> Bes (o + len (c ++ e)) m r ts fs -> Bes o (c ++ e ++ m) r (leaves c ++ t :: ts) (f :: fs)).
    { intros o c e m r t f ts fs _ _ He _ Hm. rewrite len_app, Nat.add_assoc in Hm. destruct (Step _ _ _ _ _ _ _ _ He Hm) as [W H]. split; [now rewrite widths_app, widths_leaves, W, <- len_app|]. intros Hh z. apply here_app in Hh. destruct Hh as [_ Hh]. rewrite <- app_assoc, fields_leaves. exact (H Hh z). }
    assert (En : forall o k q v r s s' n t x, tok NIdentifier s k \/ tok NString s k -> tok NEq s' q -> named s n -> value (o + len (k ++ q)) v r t x -> Bv (o + len (k ++ q)) v r t x -> Be o (k ++ q ++ v) r (gnode NEntry (leaves k ++ leaves q ++ [t])) (encode n, x, (o, o + len (k ++ q ++ v)))).
    { intros o k q v r s s' n t x T (wq & -> & Fq) Nm _ ((ch & ->) & Wt & IH). set (t := gnode NValue ch) in *. split; [rewrite gnode_width, !widths_app, !widths_leaves, !len_app; unfold widths; cbn [map list_sum fold_right]; lia|]. eexists. split; [reflexivity|]. intros Hh.
      assert (Tk : exists kk w, k = (Some kk, s) :: w /\ Forall trivia w /\ (kk =? NIdentifier) || (kk =? NString) = true) by (destruct T as [(w & -> & Fw) | (w & -> & Fw)]; [exists NIdentifier, w | exists NString, w]; now repeat split). destruct Tk as (kk & w & -> & Fw & Kk).
      set (span := (o, o + len (((Some kk, s) :: w) ++ ((Some NEq, s') :: wq) ++ v))). assert (Hv : here (o + len (((Some kk, s) :: w) ++ (Some NEq, s') :: wq)) v) by (rewrite app_assoc in Hh; now apply here_app in Hh). specialize (IH Hv). destruct (here_tok _ _ _ Hh) as (Tx & Sc & _). cbn [snd] in *.
      rewrite leaves_cons. cbn [app b_field]. change (kind (Some kk, s)) with kk. rewrite Kk. cbn [snd]. rewrite Tx, (trim_encode s n Sc Nm). rewrite (field_quiet span w _ _ _ _ (trivia_quiet w Fw)).
      rewrite (field_quiet span ((Some NEq, s') :: wq)); [|constructor; [split; discriminate | now apply trivia_quiet]]. cbn [app b_field]. unfold t at 1, gnode at 1. cbv iota beta. change (von_field_kind NValue) with true. cbv iota.
      replace (o + length (encode s) + len w + len ((Some NEq, s') :: wq)) with (o + len (((Some kk, s) :: w) ++ (Some NEq, s') :: wq)) by (rewrite len_app, (len_cons (Some kk, s)); cbn [snd]; lia). match goal with |- bind ?a ?f = _ => transitivity (bind (Some (Some x)) f); [f_equal; exact IH | reflexivity] end. }
    assert (L1 : forall o r, Bls o [] r [] []) by (intros o r; split; [reflexivity|]; intros _ z; apply elements_none).
    assert (LStep : forall o e m r t v ts vs, Bv o e (m ++ r) t v -> Bls (o + len e) m r ts vs -> Bls o (e ++ m) r (gnode NElement [t] :: ts) (v :: vs)).
    { intros o e m r t v ts vs ((ch & ->) & We & IHe) [Wm IHm]. set (t := gnode NValue ch) in *. assert (Wt : widths [t] = len e) by (unfold widths; cbn [map list_sum fold_right]; lia). split; [rewrite len_app; unfold widths in *; cbn [map list_sum fold_right]; fold (list_sum (map width ts)); rewrite gnode_width; unfold widths; cbn [map list_sum fold_right] in *; lia|]. intros Hh z. apply here_app in Hh. destruct Hh as [H1 H2].
      cbn [app]. unfold gnode at 1. cbn [b_elements]. change (NElement =? NElement) with true. cbv iota. rewrite build_step. change (NElement =? NObject) with false. cbn [Nat.eqb NElement NArray NEnum NValue NRoot orb]. unfold t at 1. unfold gnode. cbn [b_first]. fold (gnode NValue ch). fold t. rewrite (IHe H1). cbn [bind]. fold (widths [t]). rewrite Wt, (IHm H2 z). reflexivity. }
    assert (L2 : forall o e m r t v ts vs, value o e (m ++ r) t v -> Bv o e (m ++ r) t v -> more_elements (o + len e) m r ts vs -> Bls (o + len e) m r ts vs -> Bls o (e ++ m) r (gnode NElement [t] :: ts) (v :: vs)) by (intros o e m r t v ts vs _ He _ Hm; now apply LStep).
    assert (ML2 : forall o c r s, tok NComma s c -> Bls o c r (leaves c) []) by (intros o c r s _; split; [apply widths_leaves|]; intros _ z; rewrite elements_leaves; apply elements_none).
    assert (ML3 : forall o c e m r t v ts vs, c = [] \/ (exists s, tok NComma s c) -> value (o + len c) e (m ++ r) t v -> Bv (o + len c) e (m ++ r) t v -> more_elements (o + len (c ++ e)) m r ts vs -> Bls (o + len (c ++ e)) m r ts vs -> Bls o (c ++ e ++ m) r (leaves c ++ gnode NElement [t] :: ts) (v :: vs)).
    { intros o c e m r t v ts vs _ _ He _ Hm. rewrite len_app, Nat.add_assoc in Hm. destruct (LStep _ _ _ _ _ _ _ _ He Hm) as [W H]. split; [now rewrite widths_app, widths_leaves, W, <- len_app|]. intros Hh z. apply here_app in Hh. destruct Hh as [_ Hh]. rewrite <- app_assoc, elements_leaves. exact (H Hh z). }
    split; [apply (value_mind F parse Bv Bes Bes Be Bls Bls) | apply (entries_mind F parse Bv Bes Bes Be Bls Bls)]; assumption.
  Qed.

  Lemma document_built o e r t v : document o e r t v -> here o e -> (exists k ch, t = gnode k ch) /\ width t = len e /\ bv t o = Some (Some v).
  Proof.
    intros D H. destruct grammar_built as [GV GE]. destruct D as [o e r t v _ V | o e r ts fs _ V].
    - destruct (GV _ _ _ _ _ V) as ((ch & ->) & W & B). split; [now exists NValue, ch|]. split; [assumption | now apply B].
    - destruct (GE _ _ _ _ _ V) as [W B]. split; [now exists NObject, ts|]. split; [now rewrite gnode_width|]. unfold gnode. rewrite build_step. change (NObject =? NObject) with true. cbv iota. fold (widths ts). specialize (B H []). cbn [leaves map] in B. rewrite app_nil_r in B. rewrite B, W. reflexivity.
  Qed.

  (** ** No panic where the tree stands where it says *)
  Definition sound_strings (e : list piece) : Prop := Forall (fun p => fst p = Some NString -> exists b, content (snd p) b) e.
  Lemma covers_safe ts e : covers ts e -> sound_strings e -> forall o, here o e ->
    (forall span x v, b_field span ts o x v <> None) /\ b_fields ts o <> None /\ b_elements ts o <> None /\ (forall span x p, b_enum span ts o x p <> None) /\ b_first ts o <> None /\ widths ts = len e.
  Proof.
    assert (Bn : forall {A B} (r : result A) (f : A -> result B), r <> None -> (forall a, f a <> None) -> bind r f <> None) by (intros A B [[a|]|] f H1 H2; [apply H2 | discriminate | easy]).
    induction 1 as [| p ts e C IH | k ch e1 ts e C1 IH1 C2 IH2]; intros S o Hh.
    - repeat split; try discriminate; [intros span [x|] [v|]; discriminate | intros span [x|] p; discriminate].
    - inversion S as [| ? ? Sp S']; subst. destruct (here_tok _ _ _ Hh) as (Tx & Sc & Hn). destruct (IH S' _ Hn) as (I1 & I2 & I3 & I4 & I5 & I6). unfold leaf. cbn [b_field b_fields b_elements b_enum b_first].
      split; [intros; apply I1|]. split; [exact I2|]. split; [exact I3|]. split; [intros; apply I4|]. split; [|rewrite len_cons; change (length (encode (snd p)) + widths ts = length (encode (snd p)) + len e); lia].
      unfold von_leaf. destruct (kind p =? NString) eqn:K.
      + assert (Ep : fst p = Some NString) by (unfold kind in K; destruct (fst p) as [k|]; [apply Nat.eqb_eq in K; now subst k | discriminate]). destruct (Sp Ep) as [b Hb]. rewrite Tx, (unquote_content _ b Sc Hb). discriminate.
      + destruct (kind p =? NNumber); [now destruct (parse _)|]. destruct (kind p =? NBool); [discriminate|]. destruct (kind p =? NNull); [discriminate | exact I5].
    - apply Forall_app in S. destruct S as [S1 S2]. destruct (here_app _ _ _ Hh) as [H1 H2]. destruct (IH1 S1 o H1) as (I1 & I2 & I3 & I4 & I5 & I6). destruct (IH2 S2 _ H2) as (J1 & J2 & J3 & J4 & J5 & J6).
      assert (Bt : bv (gnode k ch) o <> None). { unfold gnode. rewrite build_step. destruct (k =? NObject); [now apply Bn|]. destruct (k =? NArray); [now apply Bn|]. destruct (k =? NEnum); [apply I4|]. destruct (_ || _); [assumption | discriminate]. }
      unfold gnode in *. cbn [b_field b_fields b_elements b_enum b_first]. fold (widths ch). fold (widths ch) in Bt. rewrite I6 in *.
      split; [intros span x v; destruct (von_field_kind k); [apply Bn; [assumption | intros; apply J1] | apply J1]|]. split; [destruct (k =? NEntry); [apply Bn; [apply I1 | intros; now apply Bn] | assumption]|].
      split; [destruct (k =? NElement); [apply Bn; [assumption | intros; now apply Bn] | assumption]|]. split; [intros; apply Bn; [assumption | intros; apply J4]|]. split; [assumption|]. rewrite len_app. unfold widths in *. cbn [map list_sum fold_right width]. fold (list_sum (map width ts)). lia.
  Qed.
  Lemma root_safe ts e : covers ts e -> sound_strings e -> here 0 e -> build_root F parse source (gnode NRoot ts) <> None.
  Proof.
    intros C S H. unfold gnode, build_root. destruct ts as [| [k n x | k n ch] r]; [discriminate | discriminate |]. pose proof (covers_safe _ _ C S 0 H) as (_ & _ & _ & _ & X & _). exact X.
  Qed.
End Loops.
