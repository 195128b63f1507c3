(** Theorems about HTML reports and about the first and last lines of reports. *)
From Verif Require Import Base Utf8 RopeModel CursorModel LineMapModel HiModel HiSpec DiagModel DiagSpec DiagProofs HtmlDiagModel HtmlDiagSpec HtmlDiagProofs.

(** C212, for codes without quotes, ampersands and angle brackets: the HTML report stands for one tree, and what that tree
    reports is the plain report. *)
Theorem html_is_plain_partial : forall r d uri p,
  (forall c, dg_code d = Some c -> simple c) -> render_plain true r d uri = Some p ->
  exists out t, render_html r d uri = Some out /\ written out t /\ (forall t', written out t' -> t' = t) /\ reports t p.
Proof.
  intros r d uri p Hc Hp. assert (H := html_report r d uri Hc). rewrite Hp in H.
  destruct (render_html r d uri) as [out|]; [|contradiction]. destruct H as (t & W & R).
  exists out, t. split; [reflexivity|]. split; [exact W|]. split; [|exact R]. intros t' W'. exact (written_fun _ _ _ W' W).
Qed.
Print Assumptions html_is_plain_partial.

Example html_case :
  let d := Diagnostic (Some (lit "E1")) (lit "a < b & c") SevWarning [Label (Some (lit "<here>")) 4 5 None] (Some (lit "'try'")) in
  (forall c, dg_code d = Some c -> simple c) /\ render_plain true (flat_reader (lit "let <")) d None <> None.
Proof.
  split; [|vm_compute; discriminate]. intros c [= <-]. apply simpleb_spec. reflexivity.
Qed.

(** C212 fails: codes are not escaped, so a code that holds markup is read as elements of the report. *)
Theorem html_is_plain_refuted : exists text d p out,
  render_plain true (flat_reader text) d None = Some p /\ render_html (flat_reader text) d None = Some out /\
  (exists t, written out t) /\ forall t, written out t -> ~ reports t p /\ In (lit "all is well") (of_class (lit "message") t).
Proof.
  set (c := lit "<span class=""message"">all is well</span>").
  exists (lit "x"), (Diagnostic (Some c) (lit "bad") SevError [] None). do 2 eexists.
  split; [vm_compute; reflexivity|]. split; [reflexivity|].
  assert (Wt : forall s, simpleb s = true -> written s (word s)) by (intros s Hs; now apply written_text, simpleb_spec).
  assert (Lt : forall s, lettersb s = true -> letters s) by apply lettersb_spec.
  assert (Sv : forall k v, Some k = Some v -> simpleb k = true -> simple v) by (intros k v [= <-]; apply simpleb_spec).
  match goal with |- (exists t, written ?o t) /\ _ => set (out := o) end.
  assert (W : written out [HElem (lit "div") (Some (lit "diagnostic")) (word (nl ++ lit "  ") ++
    [HElem (lit "div") (Some (lit "header error")) (word (nl ++ lit "    ") ++
       [HElem (lit "span") (Some (lit "code")) (word (lit "[") ++ [HElem (lit "span") (Some (lit "message")) (word (lit "all is well"))] ++ word (lit "]"))] ++
       word (lit " ") ++ [HElem (lit "span") (Some (lit "message")) (word (lit "bad"))] ++ word (nl ++ lit "  "))] ++ word nl)]).
  { replace out with (el (lit "div") (Some (lit "diagnostic")) ((nl ++ lit "  ") ++
      el (lit "div") (Some (lit "header error")) ((nl ++ lit "    ") ++
        el (lit "span") (Some (lit "code")) (lit "[" ++ el (lit "span") (Some (lit "message")) (lit "all is well") ++ lit "]") ++
        lit " " ++ el (lit "span") (Some (lit "message")) (lit "bad") ++ (nl ++ lit "  ")) ++ nl)) by (vm_compute; reflexivity).
    repeat first [apply written_app; [apply Wt; reflexivity|] | apply written_app; [|apply Wt; reflexivity] | apply written_app
      | apply Wt; reflexivity | apply written_el; [apply Lt; reflexivity | intros v Hv; apply (Sv _ _ Hv); reflexivity|]]. }
  split; [eexists; exact W|]. intros t Ht. assert (E := written_fun _ _ _ Ht W). subst t. split.
  - intros (tag & msg & _ & H & _). vm_compute in H. discriminate.
  - vm_compute. tauto.
Qed.
Print Assumptions html_is_plain_refuted.

(** What a report is tagged with. *)
Definition tagged (d : diagnostic) (tag : list Z) : Prop :=
  dg_code d = Some tag \/
  dg_code d = None /\ (dg_severity d = SevError /\ tag = lit "error" \/ dg_severity d = SevWarning /\ tag = lit "warning" \/
                       dg_severity d = SevAdvice /\ tag = lit "advice").

Lemma first_line_app a b : ~ In 10%Z a -> first_line (a ++ 10%Z :: b) = a.
Proof.
  induction a as [| c a IH]; intros N; [reflexivity|]. cbn [app first_line]. destruct (Z.eqb_spec c 10) as [-> |]; [exfalso; apply N; now left|].
  f_equal. apply IH. intros G. apply N. now right.
Qed.

(** C213: the first line of a report has its code, or its severity, and its message; help comes last. *)
Theorem report_headline : forall u r d uri p tag, render_plain u r d uri = Some p -> tagged d tag ->
  ~ In 10%Z tag -> ~ In 10%Z (dg_message d) ->
  first_line p = lit "[" ++ tag ++ lit "] " ++ dg_message d /\
  (forall h, dg_help d = Some h -> exists a, p = a ++ [10%Z] ++ [10%Z] ++ lit "help: " ++ h ++ [10%Z]).
Proof.
  intros u r d uri p tag Hp Ht Nt Nm. unfold render_plain in Hp. destruct (from_source r) as [m|]; [|discriminate].
  assert (E : match dg_code d with Some c => c | None => severity_name (dg_severity d) end = tag).
  { destruct Ht as [-> | (-> & [(-> & ->) | [(-> & ->) | (-> & ->)]])]; reflexivity. }
  rewrite E in Hp. clear E Ht. set (full := rd_text_in r 0 (src_len (rd_src r))) in Hp. cbv zeta in Hp.
  destruct (cat_options _) as [s|] eqn:Es; [|discriminate].
  match type of Hp with Some ?x = Some _ => assert (Ep : p = x) by congruence; rewrite Ep; clear Ep Hp p end. split.
  - match goal with |- first_line (?x ++ ?b) = ?y => replace (x ++ b) with (y ++ 10%Z :: b) by (unfold nl; repeat rewrite <- app_assoc; reflexivity) end.
    apply first_line_app. rewrite !in_app_iff. intros [G | [G | [G | G]]]; [cbn in G; lia | auto | cbn in G; lia | auto].
  - intros h ->. assert (Hs : exists a, (lit "[" ++ tag ++ lit "] " ++ dg_message d ++ nl) ++ s = a ++ [10%Z]).
    { destruct (dg_labels d) as [| l ls] eqn:El.
      - injection Es as <-. exists (lit "[" ++ tag ++ lit "] " ++ dg_message d). rewrite app_nil_r. unfold nl. repeat rewrite <- app_assoc. reflexivity.
      - assert (G : exists b, s = b ++ [10%Z]).
        { clear El. revert l s Es. induction ls as [| l' ls IH]; intros l s Es; cbn [map cat_options] in Es.
          - destruct (snippet_plain u m r full l uri) as [x|] eqn:Ex; [|discriminate]. injection Es as <-. rewrite app_nil_r.
            exact (snippet_ends _ _ _ _ _ _ _ Ex).
          - destruct (snippet_plain u m r full l uri) as [x|] eqn:Ex; [|discriminate].
            specialize (IH l'). cbn [map cat_options] in IH. destruct (match snippet_plain u m r full l' uri with Some _ => _ | None => _ end) as [y|]; [|discriminate].
            injection Es as <-. destruct (IH y eq_refl) as (b & ->). exists (x ++ b). now rewrite app_assoc. }
        destruct G as (b & ->). eexists. rewrite app_assoc. reflexivity. }
    destruct Hs as (a & Hs). exists a. rewrite app_assoc, Hs. unfold nl. repeat rewrite <- app_assoc. reflexivity.
Qed.
Print Assumptions report_headline.

Example headline_case :
  let d := Diagnostic None (lit "bad") SevAdvice [Label (Some (lit "here")) 4 5 None] (Some (lit "try")) in
  tagged d (lit "advice") /\ option_map first_line (render_plain true (flat_reader (lit "let x")) d None) = Some (lit "[advice] bad").
Proof. split; [right; split; [reflexivity|]; right; right; split; reflexivity | vm_compute; reflexivity]. Qed.

(** Reports without codes that start alike have the same severity and message. *)
Theorem headline_tells : forall u r d uri p u' r' d' uri' p', render_plain u r d uri = Some p -> render_plain u' r' d' uri' = Some p' ->
  dg_code d = None -> dg_code d' = None -> ~ In 10%Z (dg_message d) -> ~ In 10%Z (dg_message d') -> first_line p = first_line p' ->
  dg_severity d = dg_severity d' /\ dg_message d = dg_message d'.
Proof.
  intros u r d uri p u' r' d' uri' p' Hp Hp' Hc Hc' Hm Hm' E.
  assert (T : forall x, dg_code x = None -> tagged x (severity_name (dg_severity x))).
  { intros x Hx. right. split; [assumption|]. destruct (dg_severity x); cbn [severity_name]; tauto. }
  assert (N : forall x : diagnostic, ~ In 10%Z (severity_name (dg_severity x))) by (intros x; destruct (dg_severity x); intros G; vm_compute in G; lia).
  destruct (report_headline _ _ _ _ _ _ Hp (T d Hc) (N d) Hm) as [H _].
  destruct (report_headline _ _ _ _ _ _ Hp' (T d' Hc') (N d') Hm') as [H' _].
  rewrite H, H' in E. destruct (dg_severity d), (dg_severity d'); try discriminate E; split; try reflexivity;
  repeat (rewrite app_assoc in E); apply app_inv_head in E; exact E.
Qed.
Print Assumptions headline_tells.
