(** Proofs about HTML reports. *)
From Verif Require Import Base Utf8 RopeModel CursorModel LineMapModel HiModel HiSpec HiProofs DiagModel DiagProofs HtmlDiagModel HtmlDiagSpec.

(** ** Reading HTML is unambiguous *)
Lemma letters_split a b a' b' x y : Forall (fun c => (97 <= c <= 122)%Z) a -> Forall (fun c => (97 <= c <= 122)%Z) a' ->
  (x < 97)%Z -> (y < 97)%Z -> a ++ x :: b = a' ++ y :: b' -> a = a' /\ x = y /\ b = b'.
Proof.
  intros Ha. revert a'. induction Ha as [| c a Hc Ha IH]; intros a' Ha' Hx Hy E; destruct Ha' as [| c' a' Hc' Ha'].
  - injection E as -> ->. auto.
  - injection E as -> _. lia.
  - injection E as -> _. lia.
  - injection E as -> E. destruct (IH a' Ha' Hx Hy E) as (-> & -> & ->). auto.
Qed.

Lemma simple_split a b a' b' : simple a -> simple a' -> a ++ 34%Z :: b = a' ++ 34%Z :: b' -> a = a' /\ b = b'.
Proof.
  intros Ha. revert a'. induction Ha as [| c a Hc Ha IH]; intros a' Ha' E; destruct Ha' as [| c' a' Hc' Ha'].
  - injection E as ->. auto.
  - injection E as <- _. tauto.
  - injection E as -> _. tauto.
  - injection E as -> E. destruct (IH a' Ha' E) as (-> & ->). auto.
Qed.

Lemma opening_split n c b n' c' b' : letters n -> letters n' -> (forall v, c = Some v -> simple v) -> (forall v, c' = Some v -> simple v) ->
  opening n c ++ b = opening n' c' ++ b' -> n = n' /\ c = c' /\ b = b'.
Proof.
  intros [_ Hn] [_ Hn'] Hc Hc' E. unfold opening in E. rewrite <- !app_assoc in E. cbn [app] in E. injection E as E.
  destruct c as [v|], c' as [v'|].
  - repeat rewrite <- app_assoc in E. cbn [app] in E.
    change (lit " class=""") with (32%Z :: lit "class=""") in E. cbn [app] in E.
    apply letters_split in E; [|assumption|assumption|lia|lia]. destruct E as (-> & _ & E). injection E as E. rewrite <- !app_assoc in E. cbn [app] in E.
    apply simple_split in E; [|now apply Hc|now apply Hc']. destruct E as [-> E]. injection E as ->. auto.
  - repeat rewrite <- app_assoc in E. cbn [app] in E.
    change (lit " class=""") with (32%Z :: lit "class=""") in E. cbn [app] in E.
    apply letters_split in E; [|assumption|assumption|lia|lia]. destruct E as (_ & E & _). discriminate.
  - repeat rewrite <- app_assoc in E. cbn [app] in E.
    change (lit " class=""") with (32%Z :: lit "class=""") in E. cbn [app] in E.
    apply letters_split in E; [|assumption|assumption|lia|lia]. destruct E as (_ & E & _). discriminate.
  - cbn [app] in E. apply letters_split in E; [|assumption|assumption|lia|lia]. destruct E as (-> & _ & ->). auto.
Qed.

(** What may follow a piece: nothing, or a closing tag. *)
Definition over (r : list Z) : Prop := r = [] \/ exists q, r = 60%Z :: 47%Z :: q.

Lemma opening_not_over n c b r : letters n -> over r -> opening n c ++ b = r -> False.
Proof.
  intros [N F] [-> | (q & ->)] E; [discriminate|]. destruct n as [| a n]; [congruence|]. inversion F as [| ? ? Ha _]; subst.
  unfold opening in E. cbn [app] in E. injection E as E _. lia.
Qed.

Lemma closing_over n s : over (closing n ++ s).
Proof. right. eexists. reflexivity. Qed.

Lemma written_split s x : written s x -> forall r s' x' r', written s' x' -> over r -> over r' -> s ++ r = s' ++ r' -> s = s' /\ x = x' /\ r = r'.
Proof.
  induction 1 as [| c s x N1 N2 N3 H IH | e c s x He H IH | n k b kb s x Hn Hk Hb IHb Hs IHs]; intros r s' x' r' H' O O' E.
  - inversion H' as [| c' t y M1 M2 M3 G | e' c' t y Ge G | n' k' b' kb' t y Gn Gk Gb Gs]; subst; cbn [app] in E.
    + auto.
    + exfalso. destruct O as [-> | (q & ->)]; [discriminate|]. injection E as E _. congruence.
    + exfalso. destruct (entity_head _ _ Ge) as (z & ->). destruct O as [-> | (q & ->)]; [discriminate|]. cbn in E. injection E as E _. discriminate.
    + exfalso. rewrite <- !app_assoc in E. eapply opening_not_over; [exact Gn | exact O | symmetry; exact E].
  - inversion H' as [| c' t y M1 M2 M3 G | e' c' t y Ge G | n' k' b' kb' t y Gn Gk Gb Gs]; subst; cbn [app] in E.
    + exfalso. destruct O' as [-> | (q & ->)]; [discriminate|]. injection E as E _. congruence.
    + injection E as -> E. destruct (IH r t y r' G O O' E) as (-> & -> & ->). auto.
    + exfalso. destruct (entity_head _ _ Ge) as (z & ->). cbn in E. injection E as E _. congruence.
    + exfalso. unfold opening in E. rewrite <- !app_assoc in E. cbn [app] in E. injection E as E _. congruence.
  - inversion H' as [| c' t y M1 M2 M3 G | e' c' t y Ge G | n' k' b' kb' t y Gn Gk Gb Gs]; subst; cbn [app] in E.
    + exfalso. destruct (entity_head _ _ He) as (z & ->). destruct O' as [-> | (q & ->)]; [discriminate|]. cbn in E. injection E as E _. discriminate.
    + exfalso. destruct (entity_head _ _ He) as (z & ->). cbn in E. injection E as E _. congruence.
    + rewrite <- !app_assoc in E. destruct (entity_split _ _ _ _ _ _ He Ge E) as [-> E2].
      destruct (IH r t y r' G O O' E2) as (-> & -> & ->). split; [|auto]. apply app_inv_tail in E. now rewrite E.
    + exfalso. destruct (entity_head _ _ He) as (z & ->). unfold opening in E. rewrite <- !app_assoc in E. cbn [app] in E. injection E as E _. discriminate.
  - inversion H' as [| c' t y M1 M2 M3 G | e' c' t y Ge G | n' k' b' kb' t y Gn Gk Gb Gs]; subst; cbn [app] in E.
    + exfalso. rewrite <- !app_assoc in E. eapply opening_not_over; [exact Hn | exact O' | exact E].
    + exfalso. unfold opening in E. rewrite <- !app_assoc in E. cbn [app] in E. injection E as E _. congruence.
    + exfalso. destruct (entity_head _ _ Ge) as (z & ->). unfold opening in E. rewrite <- !app_assoc in E. cbn [app] in E. injection E as E _. discriminate.
    + rewrite <- !app_assoc in E. destruct (opening_split _ _ _ _ _ _ Hn Gn Hk Gk E) as (-> & -> & E2).
      destruct (IHb _ _ _ _ Gb (closing_over _ _) (closing_over _ _) E2) as (-> & -> & E3). apply app_inv_head in E3.
      destruct (IHs _ _ _ _ Gs O O' E3) as (-> & -> & ->). auto.
Qed.

Lemma written_fun s x y : written s x -> written s y -> x = y.
Proof. intros H G. destruct (written_split s x H [] s y [] G) as (_ & -> & _); [now left | now left | reflexivity | reflexivity]. Qed.

(** ** Writing *)
Definition word (s : list Z) : list html := map HChar s.
Definition el (n : list Z) (c : option (list Z)) (b : list Z) : list Z := opening n c ++ b ++ closing n.

Lemma written_app a x : written a x -> forall b y, written b y -> written (a ++ b) (x ++ y).
Proof.
  induction 1 as [| c s x N1 N2 N3 H IH | e c s x He H IH | n k b kb s x Hn Hk Hb IHb Hs IHs]; intros t y G; [assumption | | |].
  - cbn [app]. apply WChar; auto.
  - rewrite <- app_assoc. cbn [app]. apply WEntity; auto.
  - rewrite <- !app_assoc. cbn [app]. apply WElem; auto.
Qed.
Lemma written_text s : simple s -> written s (word s).
Proof. induction 1 as [| c s Hc Hs IH]; [constructor|]. cbn. apply WChar; tauto. Qed.
Lemma written_escape s : written (html_escape_diag s) (word s).
Proof.
  rewrite escapes_agree. induction s as [| c s IH]; [constructor|]. cbn [html_escape flat_map word map]. fold (html_escape s) (word s). unfold html_escape_char.
  assert (E : forall e, In (e, c) entities -> written (e ++ html_escape s) (HChar c :: word s)) by (intros e He; now apply WEntity).
  destruct (Z.eqb_spec c 60) as [-> |]; [apply E; cbn; tauto|].
  destruct (Z.eqb_spec c 62) as [-> |]; [apply E; cbn; tauto|].
  destruct (Z.eqb_spec c 38) as [-> |]; [apply E; cbn; tauto|].
  destruct (Z.eqb_spec c 34) as [-> |]; [apply E; cbn; tauto|].
  destruct (Z.eqb_spec c 39) as [-> |]; [apply E; cbn; tauto|].
  cbn [app]. now apply WChar.
Qed.
Lemma written_el n c b k : letters n -> (forall v, c = Some v -> simple v) -> written b k -> written (el n c b) [HElem n c k].
Proof. intros Hn Hc Hb. unfold el. replace (closing n) with (closing n ++ []) by apply app_nil_r. apply WElem; auto. constructor. Qed.

Lemma visible_word s : flat_map visible (word s) = s.
Proof. induction s as [| c s IH]; [reflexivity|]. cbn. now rewrite <- IH at 2. Qed.
Lemma chosen_word f s : flat_map (chosen f) (word s) = [].
Proof. induction s as [| c s IH]; [reflexivity | exact IH]. Qed.

Definition simpleb (s : list Z) : bool := forallb (fun c => negb ((c =? 34) || (c =? 38) || (c =? 60) || (c =? 62)))%Z s.
Lemma simpleb_spec s : simpleb s = true -> simple s.
Proof.
  unfold simpleb, simple. intros H. apply Forall_forall. intros c Hc. rewrite forallb_forall in H. specialize (H c Hc).
  rewrite negb_true_iff, !orb_false_iff in H. rewrite !Z.eqb_neq in H. tauto.
Qed.
Definition lettersb (s : list Z) : bool := negb (same s []) && forallb (fun c => (97 <=? c) && (c <=? 122))%Z s.
Lemma lettersb_spec s : lettersb s = true -> letters s.
Proof.
  unfold lettersb, letters, same. rewrite andb_true_iff, forallb_forall. intros [H1 H2]. split; [destruct s; [discriminate | discriminate]|].
  apply Forall_forall. intros c Hc. specialize (H2 c Hc). lia.
Qed.
Lemma simple_app a b : simple a -> simple b -> simple (a ++ b).
Proof. unfold simple. intros. apply Forall_app. auto. Qed.
Lemma simple_repeat c n : simple [c] -> simple (repeat c n).
Proof. intros H. inversion H; subst. induction n; [constructor | constructor; auto]. Qed.
Lemma simple_dec n : simple (dec n).
Proof. apply Forall_forall. intros c Hc. apply dec_clean in Hc. lia. Qed.

(** ** Listings *)
Definition spans : list (list Z) := [lit "line-num"; lit "vbar"; lit "padding"; lit "underline"; lit "multiline"; lit "label-msg"].
Definition calm (t : list html) : Prop :=
  forall f, (forall k, In k spans -> f (lit "span") (Some k) = false) -> flat_map (chosen f) t = [].
Definition inner (h p : list Z) : Prop := exists t, written h t /\ flat_map visible t = p /\ calm t.

Lemma inner_nil : inner [] [].
Proof. exists []. split; [constructor|]. split; [reflexivity|]. intros f _. reflexivity. Qed.
Lemma inner_app a p b q : inner a p -> inner b q -> inner (a ++ b) (p ++ q).
Proof.
  intros (t & W & V & C) (u & W' & V' & C'). exists (t ++ u). split; [now apply written_app|]. rewrite flat_map_app, V, V'. split; [reflexivity|].
  intros f Hf. now rewrite flat_map_app, C, C'.
Qed.
Lemma inner_text s : simple s -> inner s s.
Proof. intros H. exists (word s). split; [now apply written_text|]. split; [apply visible_word|]. intros f _. apply chosen_word. Qed.
Lemma inner_escape s : inner (html_escape_diag s) s.
Proof. exists (word s). split; [apply written_escape|]. split; [apply visible_word|]. intros f _. apply chosen_word. Qed.
Lemma inner_span k b p : In k spans -> inner b p -> inner (el (lit "span") (Some k) b) p.
Proof.
  intros Hk (t & W & V & C). exists [HElem (lit "span") (Some k) t]. split.
  - apply written_el; [apply lettersb_spec; reflexivity | | assumption]. intros v [= <-].
    cbn [In spans] in Hk. repeat (destruct Hk as [<- | Hk]; [apply simpleb_spec; reflexivity|]). contradiction.
  - split; [cbn [flat_map visible]; now rewrite app_nil_r|]. intros f Hf. cbn [flat_map chosen]. rewrite (Hf k Hk), (C f Hf). reflexivity.
Qed.

Ltac lay := unfold el, opening, closing; repeat rewrite <- app_assoc; reflexivity.
Ltac clear_text := solve [apply inner_text; apply simpleb_spec; reflexivity].

Lemma simple_pad w i : simple (pad_left w (dec i)).
Proof. apply simple_app; [apply simple_repeat; apply simpleb_spec; reflexivity | apply simple_dec]. Qed.

Lemma inner_bar b p q r : inner q r -> simple b -> p = b -> In (lit "line-num") spans -> forall k, In k spans ->
  inner (el (lit "span") (Some k) b ++ lit " " ++ el (lit "span") (Some (lit "vbar")) [9474%Z] ++ q) (p ++ lit " " ++ [9474%Z] ++ r).
Proof.
  intros Hq Hb -> _ k Hk. apply inner_app; [apply inner_span; [assumption | now apply inner_text]|].
  apply inner_app; [clear_text|]. apply inner_app; [|assumption]. apply inner_span; [cbn; tauto | clear_text].
Qed.

Lemma inner_number w i q r : inner q r -> inner (html_number w i ++ q) (pad_left w (dec (i + 1)) ++ lit " " ++ [9474%Z] ++ r).
Proof.
  intros H. replace (html_number w i ++ q) with
    (el (lit "span") (Some (lit "line-num")) (pad_left w (dec (i + 1))) ++ lit " " ++ el (lit "span") (Some (lit "vbar")) [9474%Z] ++ q)
    by (unfold html_number; lay).
  apply inner_bar; [assumption | apply simple_pad | reflexivity | cbn; tauto | cbn; tauto].
Qed.
Lemma inner_padding w q r : inner q r -> inner (html_padding w ++ q) (repeat 32%Z w ++ lit " " ++ [9474%Z] ++ r).
Proof.
  intros H. replace (html_padding w ++ q) with
    (el (lit "span") (Some (lit "padding")) (repeat 32%Z w) ++ lit " " ++ el (lit "span") (Some (lit "vbar")) [9474%Z] ++ q)
    by (unfold html_padding; lay).
  apply inner_bar; [assumption | apply simple_repeat, simpleb_spec; reflexivity | reflexivity | cbn; tauto | cbn; tauto].
Qed.
Lemma inner_msg l : inner (html_label_msg l ++ nl) (match lb_message l with Some msg => lit " " ++ msg ++ nl | None => nl end).
Proof.
  unfold html_label_msg. destruct (lb_message l) as [msg|]; [|cbn [app]; clear_text].
  match goal with |- inner ?h _ => replace h with (lit " " ++ el (lit "span") (Some (lit "label-msg")) (html_escape_diag msg) ++ nl) by lay end.
  apply inner_app; [clear_text|]. apply inner_app; [|clear_text]. apply inner_span; [cbn; tauto | apply inner_escape].
Qed.
Lemma inner_line c line q r : simple [c] -> inner q r ->
  inner (lit " <span class=""multiline"">" ++ [c] ++ lit "</span>" ++ html_escape_diag line ++ nl ++ q) (lit " " ++ [c] ++ line ++ nl ++ r).
Proof.
  intros Hc H.
  match goal with |- inner ?h _ => replace h with (lit " " ++ el (lit "span") (Some (lit "multiline")) [c] ++ html_escape_diag line ++ nl ++ q) by lay end.
  apply inner_app; [clear_text|]. apply inner_app; [apply inner_span; [cbn; tauto | now apply inner_text]|].
  apply inner_app; [apply inner_escape|]. apply inner_app; [clear_text | assumption].
Qed.

Lemma inner_multi lns l p i : inner (html_multi_line lns l p i) (multi_line true lns l p i).
Proof.
  unfold html_multi_line, multi_line. destruct (nth_error lns i) as [line|]; [|apply inner_nil].
  cbn [charset_of ch_vbar ch_ltop ch_lbot ch_hbar].
  destruct (i =? pl_start_line p); [|destruct (i =? pl_end_line p)].
  - apply inner_number. rewrite <- (app_nil_r nl). apply inner_line; [apply simpleb_spec; reflexivity | apply inner_nil].
  - apply inner_number. apply inner_line; [apply simpleb_spec; reflexivity|]. apply inner_padding.
    match goal with |- inner ?h _ => replace h with (lit " " ++ el (lit "span") (Some (lit "multiline")) [9492%Z] ++
      el (lit "span") (Some (lit "underline")) (repeat 9472%Z (pl_end_col p)) ++
      el (lit "span") (Some (lit "underline")) (repeat 94%Z (Nat.max (pl_end_col p) 1)) ++ html_label_msg l ++ nl) by lay end.
    apply inner_app; [clear_text|]. apply inner_app; [apply inner_span; [cbn; tauto | clear_text]|].
    apply inner_app; [apply inner_span; [cbn; tauto | apply inner_text, simple_repeat, simpleb_spec; reflexivity]|].
    apply inner_app; [apply inner_span; [cbn; tauto | apply inner_text, simple_repeat, simpleb_spec; reflexivity]|].
    apply inner_msg.
  - apply inner_number. rewrite <- (app_nil_r nl). apply inner_line; [apply simpleb_spec; reflexivity | apply inner_nil].
Qed.

(** ** Snippets *)
Ltac walk := repeat (progress (rewrite ?flat_map_app, ?chosen_word; cbn [flat_map chosen app])).
Definition tops : list (list Z) := [lit "code"; lit "severity"; lit "message"; lit "help"].
Definition snip (h p : list Z) : Prop :=
  exists t loc pre, written h t /\ (forall k, In k tops -> of_class k t = []) /\
    of_class (lit "location") t = [loc] /\ of_name (lit "pre") t = [pre] /\ p = loc ++ nl ++ pre.

Lemma snippet_snip m r full l uri :
  match snippet_plain true m r full l uri, html_snippet m r full l uri with
  | Some p, Some h => snip h p | None, None => True | _, _ => False end.
Proof.
  unfold snippet_plain, html_snippet. destruct (locate m r full l) as [p|]; [|exact Logic.I].
  set (w := length (dec (pl_end_line p + 1))). cbn [charset_of ch_vbar ch_ltop ch_lbot ch_hbar].
  match goal with |- snip (_ ++ _ ++ _ ++ _ ++ _ ++ _ ++ _ ++ _ ++ _ ++ _ ++ _ ++ _ ++ _ ++ _ ++ _ ++ ?hb ++ _) (_ ++ ?pb ++ _) => set (h := hb); set (b := pb) end.
  assert (B : inner h b).
  { unfold h, b. clear h b. destruct (pl_start_line p =? pl_end_line p).
    - destruct (nth_error (lines full) (pl_start_line p)) as [line|]; [|apply inner_nil]. apply inner_number.
      apply inner_app; [clear_text|]. apply inner_app; [apply inner_escape|]. apply inner_app; [clear_text|]. apply inner_padding.
      match goal with |- inner ?h _ => replace h with (lit " " ++ el (lit "span") (Some (lit "underline")) (repeat 32%Z (pl_start_col p) ++ repeat 94%Z (underline_len full l)) ++
        html_label_msg l ++ nl) by lay end.
      match goal with |- inner _ ?x => replace x with (lit " " ++ (repeat 32%Z (pl_start_col p) ++ repeat 94%Z (underline_len full l)) ++
        match lb_message l with Some msg => lit " " ++ msg ++ nl | None => nl end) by (repeat rewrite <- app_assoc; reflexivity) end.
      apply inner_app; [clear_text|]. apply inner_app; [apply inner_span; [cbn; tauto|]|apply inner_msg].
      apply inner_text, simple_app; apply simple_repeat, simpleb_spec; reflexivity.
    - generalize (seq (pl_start_line p) (S (pl_end_line p) - pl_start_line p)). intros is. induction is as [| i is IH]; [apply inner_nil|].
      cbn [flat_map]. apply inner_app; [apply inner_multi | exact IH]. }
  clearbody h b.
  assert (L : inner (html_padding w ++ nl ++ h ++ html_padding w ++ nl) (repeat 32%Z w ++ lit " " ++ [9474%Z] ++ nl ++ b ++ repeat 32%Z w ++ lit " " ++ [9474%Z] ++ nl)).
  { apply inner_padding. apply inner_app; [clear_text|]. apply inner_app; [assumption|]. apply inner_padding. clear_text. }
  destruct L as (t & W & V & C).
  set (place := lit "  " ++ [9484%Z] ++ lit " at " ++ (match uri with Some x => x | None => lit "<anonymous>" end) ++ lit ":" ++ dec (pl_start_line p + 1) ++ lit ":" ++ dec (pl_start_col p + 1)).
  exists (word (lit "  ") ++ [HElem (lit "div") (Some (lit "snippet"))
    (word (nl ++ lit "    ") ++ [HElem (lit "div") (Some (lit "location")) (word place)] ++
     word (nl ++ lit "    ") ++ [HElem (lit "pre") None [HElem (lit "code") None t]] ++ word (nl ++ lit "  "))] ++ word nl), place, (flat_map visible t).
  assert (Cl : forall k, In k [lit "code"; lit "severity"; lit "message"; lit "help"; lit "location"] ->
    flat_map (chosen (fun _ c => match c with Some v => same v k | None => false end)) t = []).
  { intros k Hk. apply C. intros s Hs. cbn [In] in Hk. cbn [In spans] in Hs.
    repeat (destruct Hk as [<- | Hk]; [repeat (destruct Hs as [<- | Hs]; [reflexivity|]); contradiction|]). contradiction. }
  assert (Cp : flat_map (chosen (fun m0 _ => same m0 (lit "pre"))) t = []) by (apply C; reflexivity).
  split; [|split; [|split; [|split]]].
  - match goal with |- written ?o _ => replace o with (lit "  " ++ el (lit "div") (Some (lit "snippet"))
      ((nl ++ lit "    ") ++ el (lit "div") (Some (lit "location")) (lit "  " ++ [9484%Z] ++ lit " at " ++ html_escape_diag (match uri with Some x => x | None => lit "<anonymous>" end) ++ lit ":" ++ dec (pl_start_line p + 1) ++ lit ":" ++ dec (pl_start_col p + 1)) ++
       (nl ++ lit "    ") ++ el (lit "pre") None (el (lit "code") None (html_padding w ++ nl ++ h ++ html_padding w ++ nl)) ++ (nl ++ lit "  ")) ++ nl) by lay end.
    assert (Wt : forall s, simpleb s = true -> written s (word s)) by (intros s Hs; now apply written_text, simpleb_spec).
    assert (Lt : forall s, lettersb s = true -> letters s) by apply lettersb_spec.
    apply written_app; [now apply Wt|]. apply written_app; [|now apply Wt].
    apply written_el; [now apply Lt | intros v [= <-]; now apply simpleb_spec|].
    apply written_app; [now apply Wt|]. apply written_app.
    + apply written_el; [now apply Lt | intros v [= <-]; now apply simpleb_spec|].
      unfold place, word. rewrite !map_app. apply written_app; [now apply Wt|]. apply written_app; [now apply Wt|].
      apply written_app; [now apply Wt|]. apply written_app; [apply written_escape|]. apply written_app; [now apply Wt|].
      apply written_app; [apply written_text, simple_dec|]. apply written_app; [now apply Wt|]. apply written_text, simple_dec.
    + apply written_app; [now apply Wt|]. apply written_app; [|now apply Wt].
      apply written_el; [now apply Lt | discriminate|]. apply written_el; [now apply Lt | discriminate | exact W].
  - intros k Hk. unfold of_class. walk. rewrite Cl by (cbn [In tops] in Hk |- *; tauto).
    cbn [In tops] in Hk. repeat (destruct Hk as [<- | Hk]; [reflexivity|]). contradiction.
  - unfold of_class. walk. rewrite Cl by (cbn [In]; tauto).
    change (same (lit "snippet") (lit "location")) with false. change (same (lit "location") (lit "location")) with true. cbn [app].
    rewrite visible_word. reflexivity.
  - unfold of_name. walk. rewrite Cp. change (same (lit "div") (lit "pre")) with false. change (same (lit "code") (lit "pre")) with false.
    change (same (lit "pre") (lit "pre")) with true. cbn [app flat_map visible]. rewrite app_nil_r. reflexivity.
  - rewrite V. unfold location, place. cbn [charset_of ch_vbar ch_ltop]. fold w. repeat rewrite <- app_assoc. reflexivity.
Qed.

(** ** Reports *)
Lemma snips_all (f g : label -> option (list Z)) ls :
  (forall l, match f l, g l with Some p, Some h => snip h p | None, None => True | _, _ => False end) ->
  match cat_options (map f ls), cat_options (map g ls) with
  | Some p, Some h => exists t, written h t /\ (forall k, In k tops -> of_class k t = []) /\
      length (of_class (lit "location") t) = length (of_name (lit "pre") t) /\
      p = concat (map (fun lp => fst lp ++ [10%Z] ++ snd lp) (combine (of_class (lit "location") t) (of_name (lit "pre") t)))
  | None, None => True | _, _ => False end.
Proof.
  intros H. induction ls as [| l ls IH]; [exists []; split; [constructor|]; split; [intros; reflexivity | split; reflexivity]|].
  cbn [map cat_options]. specialize (H l). destruct (f l) as [p|], (g l) as [h|]; try contradiction; [|exact Logic.I].
  destruct (cat_options (map f ls)) as [ps|], (cat_options (map g ls)) as [hs|]; try contradiction; [|exact Logic.I].
  destruct H as (t & loc & pre & W & T & L & N & ->). destruct IH as (u & W' & T' & Len & ->).
  exists (t ++ u). split; [now apply written_app|]. unfold of_class, of_name in *.
  split; [intros k Hk; rewrite flat_map_app, T, T' by assumption; reflexivity|].
  rewrite !flat_map_app, L, N. split; [cbn [length app]; now rewrite Len|].
  cbn [combine app map concat fst snd]. repeat rewrite <- app_assoc. reflexivity.
Qed.

Lemma html_report r d uri : (forall c, dg_code d = Some c -> simple c) ->
  match render_plain true r d uri, render_html r d uri with
  | Some p, Some h => exists t, written h t /\ reports t p
  | None, None => True | _, _ => False end.
Proof.
  intros Hc. unfold render_plain, render_html. destruct (from_source r) as [m|]; [|exact Logic.I].
  set (full := rd_text_in r 0 (src_len (rd_src r))).
  assert (S := snips_all (fun l => snippet_plain true m r full l uri) (fun l => html_snippet m r full l uri) (dg_labels d)
    (fun l => snippet_snip m r full l uri)).
  destruct (cat_options _) as [ps|]; destruct (cat_options _) as [hs|]; try contradiction; [|exact Logic.I].
  destruct S as (t & W & T & Len & ->).
  set (tag := lit "[" ++ (match dg_code d with Some c => c | None => severity_name (dg_severity d) end) ++ lit "]").
  set (kind := match dg_code d with Some _ => lit "code" | None => lit "severity" end).
  set (help := match dg_help d with
               | Some h => word (lit "  ") ++ [HElem (lit "div") (Some (lit "help")) (word (lit "help: " ++ h))] ++ word nl | None => [] end).
  assert (Wt : forall s, simpleb s = true -> written s (word s)) by (intros s Hs; now apply written_text, simpleb_spec).
  assert (Lt : forall s, lettersb s = true -> letters s) by apply lettersb_spec.
  exists [HElem (lit "div") (Some (lit "diagnostic")) (word (nl ++ lit "  ") ++
    [HElem (lit "div") (Some (lit "header " ++ severity_name (dg_severity d)))
       (word (nl ++ lit "    ") ++ [HElem (lit "span") (Some kind) (word tag)] ++ word (lit " ") ++
        [HElem (lit "span") (Some (lit "message")) (word (dg_message d))] ++ word (nl ++ lit "  "))] ++
    word nl ++ t ++ help)].
  split.
  - match goal with |- written ?o _ => replace o with (el (lit "div") (Some (lit "diagnostic")) ((nl ++ lit "  ") ++
      el (lit "div") (Some (lit "header " ++ severity_name (dg_severity d)))
        ((nl ++ lit "    ") ++ el (lit "span") (Some kind) tag ++ lit " " ++
         el (lit "span") (Some (lit "message")) (html_escape_diag (dg_message d)) ++ (nl ++ lit "  ")) ++
      nl ++ hs ++ match dg_help d with
               | Some h => lit "  " ++ el (lit "div") (Some (lit "help")) (lit "help: " ++ html_escape_diag h) ++ nl | None => [] end)) end.
    2: { unfold tag, kind. destruct (dg_severity d); destruct (dg_code d), (dg_help d); lay. }
    apply written_el; [now apply Lt | intros v [= <-]; now apply simpleb_spec|].
    apply written_app; [now apply Wt|]. apply written_app.
    + apply written_el; [now apply Lt | intros v [= <-]; apply simpleb_spec; destruct (dg_severity d); reflexivity|].
      apply written_app; [now apply Wt|]. apply written_app.
      * apply written_el; [now apply Lt | intros v [= <-]; apply simpleb_spec; unfold kind; destruct (dg_code d); reflexivity|].
        apply written_text. unfold tag. apply simple_app; [now apply simpleb_spec|]. apply simple_app; [|now apply simpleb_spec].
        destruct (dg_code d) as [c|]; [now apply Hc | apply simpleb_spec; destruct (dg_severity d); reflexivity].
      * apply written_app; [now apply Wt|]. apply written_app; [|now apply Wt].
        apply written_el; [now apply Lt | intros v [= <-]; now apply simpleb_spec | apply written_escape].
    + apply written_app; [now apply Wt|]. apply written_app; [exact W|]. unfold help. destruct (dg_help d) as [h|]; [|constructor].
      apply written_app; [now apply Wt|]. apply written_app; [|now apply Wt].
      apply written_el; [now apply Lt | intros v [= <-]; now apply simpleb_spec|]. unfold word. rewrite map_app.
      apply written_app; [now apply Wt | apply written_escape].
  - assert (Hh : forall f, flat_map (chosen f) help =
      match dg_help d with Some h => if f (lit "div") (Some (lit "help")) then [lit "help: " ++ h] else [] | None => [] end).
    { intros f. unfold help. destruct (dg_help d) as [h|]; [|reflexivity]. walk. rewrite visible_word. destruct (f _ _); reflexivity. }
    assert (Hn : forall k, same (lit "header " ++ severity_name (dg_severity d)) k = true -> hd_error k = Some 104%Z /\ length k > 7).
    { intros k. unfold same. destruct (list_eq_dec _ _ _) as [<- |]; [|discriminate]. intros _. split; [reflexivity | destruct (dg_severity d); cbn; lia]. }
    assert (No : forall k, hd_error k <> Some 104%Z \/ length k < 7 -> same (lit "header " ++ severity_name (dg_severity d)) k = false).
    { intros k Hk. destruct (same _ k) eqn:E; [|reflexivity]. apply Hn in E. destruct E as [E1 E2]. destruct Hk; [contradiction | lia]. }
    assert (D : forall k, In k [lit "code"; lit "severity"; lit "message"; lit "location"; lit "help"] ->
      of_class k [HElem (lit "div") (Some (lit "diagnostic")) (word (nl ++ lit "  ") ++
        [HElem (lit "div") (Some (lit "header " ++ severity_name (dg_severity d)))
           (word (nl ++ lit "    ") ++ [HElem (lit "span") (Some kind) (word tag)] ++ word (lit " ") ++
            [HElem (lit "span") (Some (lit "message")) (word (dg_message d))] ++ word (nl ++ lit "  "))] ++
        word nl ++ t ++ help)] =
      (if same kind k then [tag] else []) ++ (if same (lit "message") k then [dg_message d] else []) ++ of_class k t ++
      match dg_help d with Some h => if same (lit "help") k then [lit "help: " ++ h] else [] | None => [] end).
    { intros k Hk. unfold of_class. walk. rewrite Hh, !visible_word.
      rewrite No by (cbn [In] in Hk; repeat (destruct Hk as [<- | Hk]; [first [left; discriminate | right; cbn; lia]|]); contradiction).
      replace (same (lit "diagnostic") k) with false by (cbn [In] in Hk; repeat (destruct Hk as [<- | Hk]; [reflexivity|]); contradiction).
      rewrite !app_nil_r. cbn [app]. repeat rewrite <- app_assoc. reflexivity. }
    assert (P : of_name (lit "pre") [HElem (lit "div") (Some (lit "diagnostic")) (word (nl ++ lit "  ") ++
        [HElem (lit "div") (Some (lit "header " ++ severity_name (dg_severity d)))
           (word (nl ++ lit "    ") ++ [HElem (lit "span") (Some kind) (word tag)] ++ word (lit " ") ++
            [HElem (lit "span") (Some (lit "message")) (word (dg_message d))] ++ word (nl ++ lit "  "))] ++
        word nl ++ t ++ help)] = of_name (lit "pre") t).
    { unfold of_name. walk. rewrite Hh.
      change (same (lit "div") (lit "pre")) with false. change (same (lit "span") (lit "pre")) with false.
      cbn [app]. rewrite !app_nil_r. destruct (dg_help d); rewrite ?app_nil_r; reflexivity. }
    exists tag, (dg_message d). rewrite !D by (cbn [In]; tauto). rewrite P. rewrite ?(T (lit "code")), ?(T (lit "severity")), ?(T (lit "message")), ?(T (lit "help")) by (cbn [In tops]; tauto).
    assert (K : forall k, In k [lit "message"; lit "location"; lit "help"] -> same kind k = false).
    { intros k Hk. unfold kind. cbn [In] in Hk. repeat (destruct Hk as [<- | Hk]; [destruct (dg_code d); reflexivity|]). contradiction. }
    rewrite (K (lit "message")), (K (lit "location")), (K (lit "help")) by (cbn [In]; tauto).
    change (same (lit "message") (lit "message")) with true. change (same (lit "help") (lit "message")) with false.
    change (same (lit "message") (lit "location")) with false. change (same (lit "help") (lit "location")) with false.
    change (same (lit "message") (lit "help")) with false. change (same (lit "help") (lit "help")) with true.
    cbn [app]. split; [|split; [|split]].
    + unfold kind. destruct (dg_code d), (dg_help d); reflexivity.
    + destruct (dg_help d); reflexivity.
    + destruct (dg_help d); rewrite app_nil_r; exact Len.
    + unfold tag. destruct (dg_help d) as [h|]; cbn [map concat]; rewrite ?app_nil_r; repeat rewrite <- app_assoc; reflexivity.
Qed.
