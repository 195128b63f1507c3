(** Properties C01, C02, C03: edit batches on a flat source text. *)
From Verif Require Import Base Utf8 Utf8Facts EditModel EditSpec EditProofs.

(** C01: a batch of disjoint edits acts simultaneously on the old text. *)
Theorem edits_simultaneous : forall s es,
  valid s -> Forall (edit_ok s) es -> separate es ->
  exists r, apply_edits_range s es = Some (simultaneous s es, r).
Proof.
  exact (fun s es Hv Hok Hs =>
    apply_edits_compatible s es Hv Hok (separate_compatible es Hs (edits_wf s es Hok))).
Qed.
Print Assumptions edits_simultaneous.

(** C01: the listing order of a separate batch is irrelevant. *)
Theorem edits_order_irrelevant : forall s es es',
  valid s -> Forall (edit_ok s) es -> separate es -> Permutation es es' ->
  exists t r r', apply_edits_range s es = Some (t, r) /\ apply_edits_range s es' = Some (t, r').
Proof.
  exact edits_order_irrelevant_lemma.
Qed.
Print Assumptions edits_order_irrelevant.

Definition ex_text : str := lit "let x = 5;".
Definition ex_edits : list edit :=
  [Edit 8 9 (lit "42"); Edit 4 5 (lit "é"); Edit 0 0 (lit "pub ")].

Example edits_simultaneous_example :
  valid ex_text /\ Forall (edit_ok ex_text) ex_edits /\ separate ex_edits /\
  apply_edits_range ex_text ex_edits = Some (lit "pub let é = 42;", (0, 15%Z)) /\
  simultaneous ex_text ex_edits = lit "pub let é = 42;".
Proof.
  split; [apply validb_valid; vm_compute; reflexivity|].
  split.
  { repeat constructor; cbn; try lia; try (apply validb_valid; vm_compute; reflexivity). }
  split.
  { unfold separate. ord_pairs. }
  split; vm_compute; reflexivity.
Qed.

(** C02: outside the returned range old and new text coincide. *)
Theorem reparse_range_sound : forall s es s' from to,
  valid s -> Forall (edit_ok s) es -> compatible es ->
  apply_edits_range s es = Some (s', (from, to)) ->
  exists to' old_to,
    to = Z.of_nat to' /\ from <= to' /\ to' <= length s' /\ old_to <= length s /\
    length s' - to' = length s - old_to /\
    firstn from s' = firstn from s /\ from <= old_to /\
    skipn to' s' = skipn old_to s /\
    (forall e, In e es -> from <= e_start e /\ e_end e <= old_to) /\
    (es <> [] -> (exists e, In e es /\ e_start e = from) /\ exists e, In e es /\ e_end e = old_to).
Proof. exact apply_edits_range_sound. Qed.
Print Assumptions reparse_range_sound.

(** C02 for [apply_edits], which returns only the start of the range. *)
Theorem reparse_start_sound : forall s es s' from,
  valid s -> Forall (edit_ok s) es -> compatible es -> es <> [] ->
  apply_edits s es = Some (s', from) ->
  firstn from s' = firstn from s /\ (forall e, In e es -> from <= e_start e) /\
  exists e, In e es /\ e_start e = from.
Proof.
  intros s es s' from Hv Hok Hc Hne H. unfold apply_edits in H.
  destruct (apply_edits_range s es) as [[s0 [f0 t0]]|] eqn:E; [|discriminate].
  assert (s0 = s' /\ f0 = from) as [-> ->] by (split; congruence).
  destruct (apply_edits_range_sound s es s' from t0 Hv Hok Hc E) as (to' & old_to & _ & _ & _ & _ & _ & H1 & _ & _ & H2 & H3).
  split; [exact H1|]. split; [intros e He; now apply H2 | now apply H3].
Qed.
Print Assumptions reparse_start_sound.

Example reparse_range_example :
  let es := [Edit 4 7 (lit ""); Edit 8 9 (lit "1234")] in
  compatible es /\ Forall (edit_ok ex_text) es /\
  apply_edits_range ex_text es = Some (lit "let  1234;", (4, 9%Z)).
Proof.
  split; [unfold compatible; ord_pairs|].
  split; [|vm_compute; reflexivity].
  repeat constructor; cbn; try lia; apply validb_valid; vm_compute; reflexivity.
Qed.

(** C03: batches with common starting points, when insertions are listed
    before the replacement starting at the same offset. *)
Theorem same_start_edits_partial : forall s es,
  valid s -> Forall (edit_ok s) es -> compatible es ->
  exists r, apply_edits_range s es = Some (simultaneous s es, r).
Proof. exact apply_edits_compatible. Qed.
Print Assumptions same_start_edits_partial.

Example same_start_example :
  let es := [Edit 3 3 (lit "A"); Edit 3 3 (lit "B"); Edit 3 5 (lit "C")] in
  compatible es /\ apply_edits_range (lit "0123456") es = Some (lit "012ABC56", (3, 6%Z)).
Proof. split; [unfold compatible; ord_pairs | vm_compute; reflexivity]. Qed.

(** C03 fails in general: a replacement listed before an insertion at its start. *)
Theorem same_start_edits_refuted : exists s es,
  valid s /\ Forall (edit_ok s) es /\
  ForallOrdPairs disjoint es /\
  exists t r, apply_edits_range s es = Some (t, r) /\ t <> simultaneous s es /\
              t = lit "012R456" /\ simultaneous s es = lit "012RI56".
Proof. exact same_start_refuted_lemma. Qed.
Print Assumptions same_start_edits_refuted.
