(** Properties C04 - C07 and C68: chunked sources. *)
From Verif Require Import Base Utf8 Utf8Facts EditModel EditSpec EditProofs
  RopeModel RopeSpec RopeProofs.

(** C04: any editing history accepted by a flat text is accepted by the rope,
    with the same ranges and the same final text (any chunk size). *)
Theorem rope_refines_flat_text : forall csz s batches s' rgs,
  valid s -> Forall (Forall (fun e => valid (e_text e))) batches ->
  flat_history s batches = Some (s', rgs) ->
  exists r0 r', rope_new csz s = Some r0 /\
    rope_history csz r0 batches = Some (r', rgs) /\ wf_chunked r' /\ text_of r' = s'.
Proof. exact rope_refines_string. Qed.
Print Assumptions rope_refines_flat_text.

(** C04: histories of legal disjoint batches are never rejected. *)
Theorem legal_batch_never_rejected : forall csz r es,
  wf_chunked r -> Forall (edit_ok (text_of r)) es -> compatible es ->
  exists r' rg, rope_apply csz r es = Some (r', rg) /\ wf_chunked r' /\
    text_of r' = simultaneous (text_of r) es.
Proof. exact legal_batch_lemma. Qed.
Print Assumptions legal_batch_never_rejected.

(** C04: pieces never exceed the chunk size. *)
Theorem chunk_size_respected : forall csz text cs,
  4 <= csz -> valid text -> chunkify csz text = Some cs ->
  concat cs = text /\ Forall (fun c => 1 <= length c <= csz) cs.
Proof. exact chunk_size_lemma. Qed.
Print Assumptions chunk_size_respected.

Definition rope_batches : list (list edit) :=
  [[Edit 1 9 (lit "<é>"); Edit 12 12 (lit "tail")]; [Edit 0 5 (lit "")]; []].

Example rope_example :
  let s := lit "0123456789ab" in
  exists r0 r', rope_new 4 s = Some r0 /\ ck_chunks r0 = [lit "0123"; lit "4567"; lit "89ab"] /\
    rope_history 4 r0 rope_batches = Some (r', [(1, 12%Z); (0, 0%Z); (7, 7%Z)]) /\
    text_of r' = lit "9abtail" /\ flat_history s rope_batches <> None.
Proof.
  cbv zeta. eexists _, _. split; [vm_compute; reflexivity|]. split; [reflexivity|].
  split; [vm_compute; reflexivity|]. split; [vm_compute; reflexivity|]. vm_compute. discriminate.
Qed.

(** C05: the chunk served for an in-range offset holds that offset and is a
    verbatim part of the text; past the end it is empty. *)
Theorem chunk_at_correct : forall r off,
  wf_chunked r ->
  (off < length (text_of r) ->
   exists st t, chunk_at r off = Some (st, t) /\ rope_chunk_at r off = Some (st, t) /\
     st <= off < st + length t /\ st + length t <= length (text_of r) /\
     t = substr (text_of r) st (st + length t) /\ valid t /\
     is_boundary (text_of r) st = true /\ is_boundary (text_of r) (st + length t) = true) /\
  (length (text_of r) <= off ->
   chunk_at r off = Some (length (text_of r), []) /\
   rope_chunk_at r off = Some (length (text_of r), [])).
Proof. exact (fun r off Hwf => conj (chunk_at_spec r off Hwf) (chunk_at_end r off Hwf)). Qed.
Print Assumptions chunk_at_correct.

(** C05: text of a range. *)
Theorem text_in_range_correct : forall r a b,
  wf_chunked r -> a <= b -> b <= length (text_of r) ->
  is_boundary (text_of r) a = true -> is_boundary (text_of r) b = true ->
  text_in_chunks r a b = Some (substr (text_of r) a b).
Proof. exact text_in_chunks_spec. Qed.
Print Assumptions text_in_range_correct.

Definition three_chunks : chunked := rebuild [lit "ab"; lit "cé"; lit "fg"].

Example access_example :
  wf_chunked three_chunks /\
  chunk_at three_chunks 4 = Some (2, lit "cé") /\
  text_in_chunks three_chunks 1 6 = Some (lit "bcéf").
Proof.
  split; [|split; vm_compute; reflexivity].
  apply wf_rebuild. repeat constructor; try discriminate; apply validb_valid; vm_compute; reflexivity.
Qed.

(** C06 on in-range ranges lying on character boundaries: all sources agree. *)
Theorem sources_agree_partial : forall r a b,
  wf_chunked r -> b <= length (text_of r) ->
  is_boundary (text_of r) a = true -> is_boundary (text_of r) b = true ->
  text_in_chunks r a b = Some (flat_text_in (text_of r) a b).
Proof. exact sources_agree_lemma. Qed.
Print Assumptions sources_agree_partial.

(** C06 fails for a range ending past the end of the text ... *)
Theorem sources_agree_past_end_refuted : exists r a b,
  wf_chunked r /\ text_in_chunks r a b = Some (lit "bc") /\ flat_text_in (text_of r) a b = [].
Proof. exact sources_past_end_refuted. Qed.
Print Assumptions sources_agree_past_end_refuted.

(** ... and, for a range starting inside a character, two chunkings of one text disagree. *)
Theorem sources_agree_off_boundary_refuted : exists r1 r2 a b,
  wf_chunked r1 /\ wf_chunked r2 /\ text_of r1 = text_of r2 /\
  text_in_chunks r1 a b = Some [] /\ text_in_chunks r2 a b = Some (lit "bc").
Proof. exact sources_off_boundary_refuted. Qed.
Print Assumptions sources_agree_off_boundary_refuted.

(** C07: appends concatenate; every snapshot keeps the text of its time. *)
Theorem streaming_is_append : forall csz ops,
  ops_valid ops ->
  exists b snaps, stream_run csz ops = Some (b, snaps) /\
    wf_chunked b /\ Forall wf_chunked snaps /\
    text_of b = pushed ops /\ map text_of snaps = snapshot_texts [] ops.
Proof. exact stream_run_spec. Qed.
Print Assumptions streaming_is_append.

Example streaming_example :
  let ops := [Push (lit "abcdef"); Snapshot; Push (lit ""); Push (lit "ghé"); Snapshot] in
  exists b s1 s2, stream_run 4 ops = Some (b, [s1; s2]) /\
    text_of b = lit "abcdefghé" /\ text_of s1 = lit "abcdef" /\ text_of s2 = lit "abcdefghé".
Proof.
  cbv zeta. eexists _, _, _. split; [vm_compute; reflexivity|].
  repeat split; vm_compute; reflexivity.
Qed.

(** C68 fails: deleting half a character (which a flat text refuses) silently
    deletes a whole rope chunk. *)
Theorem off_boundary_edit_refuted : exists csz r e,
  wf_chunked r /\ e_end e <= length (text_of r) /\ valid (e_text e) /\
  apply_edits_range (text_of r) [e] = None /\
  text_of r = lit "éabcdef" /\ e_end e = 1 /\
  exists r' rg, rope_apply csz r [e] = Some (r', rg) /\ text_of r' = [].
Proof. exact off_boundary_refuted_lemma. Qed.
Print Assumptions off_boundary_edit_refuted.
