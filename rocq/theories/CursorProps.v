(** Properties C08, C09, C10, C13, C69, C70: scanning and searching through a cursor. *)
From Verif Require Import Base Utf8 Utf8Facts ScanSpec SimdModel.
From Verif Require Import EditModel RopeModel RopeSpec RopeProofs CursorModel CursorSpec CursorProofs SearchProofs.

(** The sources of the library deliver their text. *)
Theorem flat_source_serves : forall s, valid s -> serves (flat_source s) s.
Proof. exact flat_serves. Qed.
Print Assumptions flat_source_serves.

Theorem chunked_source_serves : forall r, wf_chunked r -> serves (chunked_source r) (text_of r).
Proof. exact chunked_serves. Qed.
Print Assumptions chunked_source_serves.

(** C08, C09: every cursor program (peeks, scans, prefix tests, consumption and
    repositioning in any order) shows exactly what the flat text shows. *)
Theorem cursor_refines_text : forall src text off ks,
  serves src text -> is_boundary text (Nat.min off (length text)) = true ->
  Forall (legal text) ks ->
  exists os c, cursor_run src (cursor_at src off) ks = Some (os, c) /\
    flat_run text (Nat.min off (length text)) ks os (cu_off c).
Proof.
  intros src text off ks Hs Hb Hk.
  destruct (cursor_at_placed src text off Hs Hb) as [Hp Ho].
  destruct (run_refines src text ks _ Hs Hp Hk) as (os & c & H1 & H2 & _).
  rewrite Ho in H2. exists os, c. auto.
Qed.
Print Assumptions cursor_refines_text.

(** The flat semantics leaves no freedom. *)
Theorem flat_program_deterministic : forall text off ks o1 a1 o2 a2,
  flat_run text off ks o1 a1 -> flat_run text off ks o2 a2 -> o1 = o2 /\ a1 = a2.
Proof. exact flat_run_det. Qed.
Print Assumptions flat_program_deterministic.

(** ... hence the chunking cannot be observed. *)
Theorem chunking_unobservable : forall r off ks,
  wf_chunked r -> is_boundary (text_of r) (Nat.min off (length (text_of r))) = true ->
  Forall (legal (text_of r)) ks ->
  exists os c1 c2,
    cursor_run (chunked_source r) (cursor_at (chunked_source r) off) ks = Some (os, c1) /\
    cursor_run (flat_source (text_of r)) (cursor_at (flat_source (text_of r)) off) ks = Some (os, c2) /\
    cu_off c1 = cu_off c2.
Proof.
  intros r off ks Hwf Hb Hk.
  apply (sources_indistinguishable _ _ (text_of r)); try assumption; [now apply chunked_serves|].
  apply flat_serves. now destruct (chunked_serves r Hwf).
Qed.
Print Assumptions chunking_unobservable.

(** Bytewise scanning with an arbitrary predicate, from a character boundary. *)
Theorem take_while_byte_correct : forall src text c p,
  serves src text -> placed src text c ->
  exists c' n, take_while_byte src p c = Some c' /\ cu_off c' = cu_off c + n /\
    longest_run (fun b => p b = true) (skipn (cu_off c) text) n.
Proof. exact take_while_byte_spec. Qed.
Print Assumptions take_while_byte_correct.

Definition split_word : chunked := rebuild [lit "let  x1"; lit "23_"; lit "é = ""a"; lit "b"";"].

Example cursor_example :
  wf_chunked split_word /\
  let src := chunked_source split_word in
  let prog := [SkipIdent; SkipSpace; Peek; PeekNext; SkipIdent; PeekByte; NextChar; SkipSpace;
               Consume (lit "= ""ab"""); StartsWith (lit ";;"); Goto 3;
               TakeWhile (fun c => (c =? 32)%Z); SkipUntil 59%Z] in
  Forall (legal (text_of split_word)) prog /\
  exists c, cursor_run src (cursor_at src 0) prog
    = Some ([ORange 0 3; ORange 3 5; OChar (Some 120%Z); OChar (Some 49%Z); ORange 5 10;
             OByte (Some 195%Z); OChar (Some 233%Z); ORange 12 13; OBool true; OBool false; ODone;
             ORange 3 5; ORange 5 19], c).
Proof.
  split.
  - apply wf_rebuild. repeat constructor; try discriminate; apply validb_valid; vm_compute; reflexivity.
  - cbv zeta. split.
    + repeat constructor; cbn [legal]; try lia; apply validb_valid; vm_compute; reflexivity.
    + eexists. vm_compute. reflexivity.
Qed.

(** C10, soundness for every source: an answer is an occurrence at or after the start. *)
Theorem find_str_sound : forall src text pat off,
  serves src text -> is_boundary text (Nat.min off (length text)) = true ->
  exists r, find_str_from src off pat = Some r /\
    (forall i, r = Some i -> Nat.min off (length text) <= i /\ occurs pat text i).
Proof.
  intros src text pat off Hs Hb.
  destruct (find_str_from_spec src text pat off Hs Hb) as (r & H1 & H2 & _). eauto.
Qed.
Print Assumptions find_str_sound.

(** C10 in full for a contiguous text. *)
Theorem find_str_flat_correct : forall s pat off,
  valid s -> is_boundary s (Nat.min off (length s)) = true ->
  exists r, find_str_from (flat_source s) off pat = Some r /\
    first_occurrence pat s (Nat.min off (length s)) r.
Proof.
  intros s pat off Hv Hb.
  destruct (find_str_from_spec _ s pat off (flat_serves s Hv) Hb) as (r & H1 & _ & H3).
  exists r. split; [assumption|]. apply H3. now apply flat_wide.
Qed.
Print Assumptions find_str_flat_correct.

(** C10 for chunked texts whose chunks are long enough; missing: texts with a chunk
    shorter than the pattern, or cut so that the kept tail starts inside a
    character, for which the claim is false (below). *)
Theorem find_str_chunked_partial : forall src text pat off,
  serves src text -> is_boundary text (Nat.min off (length text)) = true ->
  wide_chunks src text (length pat - 1) ->
  exists r, find_str_from src off pat = Some r /\
    first_occurrence pat text (Nat.min off (length text)) r.
Proof.
  intros src text pat off Hs Hb Hw.
  destruct (find_str_from_spec src text pat off Hs Hb) as (r & H1 & _ & H3). eauto.
Qed.
Print Assumptions find_str_chunked_partial.

(** The width condition for ASCII texts is just a condition on chunk lengths. *)
Theorem ascii_chunks_wide : forall r keep, wf_chunked r -> ascii (text_of r) ->
  (forall pre c post, ck_chunks r = pre ++ c :: post -> post <> [] -> keep <= length c) ->
  wide_chunks (chunked_source r) (text_of r) keep.
Proof. exact ascii_wide. Qed.
Print Assumptions ascii_chunks_wide.

Definition wide_text : chunked := rebuild [lit "hello wo"; lit "rld, wor"; lit "ld"].

Example find_str_example :
  wide_chunks (chunked_source wide_text) (text_of wide_text) 4 /\
  find_str_from (chunked_source wide_text) 0 (lit "world") = Some (Some 6) /\
  find_str_from (chunked_source wide_text) 7 (lit "world") = Some (Some 13) /\
  find_str_from (chunked_source wide_text) 7 (lit "worlds") = Some None.
Proof.
  split; [|repeat split; vm_compute; reflexivity].
  apply ascii_wide.
  - apply wf_rebuild. repeat constructor; try discriminate; apply validb_valid; vm_compute; reflexivity.
  - unfold ascii. vm_compute. repeat constructor; discriminate.
  - intros pre c post Heq Hpost. cbn in Heq.
    destruct pre as [| a [| b [| d pre]]]; cbn in Heq; inversion Heq; subst; cbn; try lia.
    + now destruct Hpost.
    + exfalso. now destruct pre.
Qed.

(** C10 fails when the pattern spans three chunks: text streamed in as "a","b","c". *)
Theorem find_str_three_chunks_refuted : exists b,
  stream_run 4096 [Push (lit "xa"); Push (lit "b"); Push (lit "cx")] = Some (b, []) /\
  occurs (lit "abc") (text_of b) 1 /\
  find_str_from (chunked_source b) 0 (lit "abc") = Some None.
Proof.
  eexists. split; [vm_compute; reflexivity|]. split; [|vm_compute; reflexivity].
  exists (lit "x"). split; [reflexivity | vm_compute; lia].
Qed.
Print Assumptions find_str_three_chunks_refuted.

(** C10 fails when the kept tail would start inside a character, even for long chunks. *)
Theorem find_str_tail_cut_refuted : exists b,
  stream_run 4096 [Push (lit "ññññé"); Push (lit "bcdefgh")] = Some (b, []) /\
  occurs (lit "ébc") (text_of b) 8 /\
  find_str_from (chunked_source b) 0 (lit "ébc") = Some None.
Proof.
  eexists. split; [vm_compute; reflexivity|]. split; [|vm_compute; reflexivity].
  exists (lit "defgh"). split; [reflexivity | vm_compute; lia].
Qed.
Print Assumptions find_str_tail_cut_refuted.

(** C13 *)
Theorem find_char_correct : forall src text ch off,
  serves src text -> off <= length text -> is_boundary text off = true ->
  exists r, find_char_from src off ch = Some r /\ first_char_position ch text off r.
Proof. exact find_char_from_spec. Qed.
Print Assumptions find_char_correct.

Example find_char_example :
  find_char_from (chunked_source split_word) 3 233%Z = Some (Some 10) /\
  find_char_from (chunked_source split_word) 16 34%Z = Some (Some 18) /\
  find_char_from (chunked_source split_word) 11 120%Z = Some None.
Proof. repeat split; vm_compute; reflexivity. Qed.

(** C69 fails: an unsuccessful search leaves the cursor at the last chunk. *)
Theorem find_str_keeps_position_refuted : exists b c',
  stream_run 4096 [Push (lit "abc"); Push (lit "def")] = Some (b, []) /\
  find_str (chunked_source b) (lit "zz") (cursor_at (chunked_source b) 1) = Some (None, c') /\
  cu_off (cursor_at (chunked_source b) 1) = 1 /\ cu_off c' = 3.
Proof. eexists _, _. split; [vm_compute; reflexivity|]. repeat split; vm_compute; reflexivity. Qed.
Print Assumptions find_str_keeps_position_refuted.

(** C69 for a contiguous text. *)
Theorem find_str_flat_keeps_position_partial : forall s pat off r c',
  valid s -> is_boundary s (Nat.min off (length s)) = true ->
  find_str (flat_source s) pat (cursor_at (flat_source s) off) = Some (r, c') ->
  cu_off c' = cu_off (cursor_at (flat_source s) off).
Proof. exact find_str_flat_position. Qed.
Print Assumptions find_str_flat_keeps_position_partial.

(** C70 fails: inside a character of a contiguous text the scanning and searching
    loops never leave the spot, whatever the amount of fuel. *)
Theorem scan_off_boundary_diverges : forall s off,
  off < length s -> is_boundary s off = false ->
  (forall scan fuel, scan_loop (flat_source s) scan fuel (cursor_at (flat_source s) off) = None) /\
  (forall ch fuel base, find_char_loop (flat_source s) fuel ch base (cursor_at (flat_source s) off) = None) /\
  (forall pat fuel, pat <> [] ->
     find_str_loop (flat_source s) fuel pat off (cursor_at (flat_source s) off) = None).
Proof.
  intros s off H Hb. split; [|split].
  - intros. now apply scan_stuck.
  - intros. now apply find_char_stuck.
  - intros. now apply find_str_stuck.
Qed.
Print Assumptions scan_off_boundary_diverges.

Theorem scanning_terminates_refuted : exists s off,
  valid s /\ off < length s /\
  (forall fuel, scan_loop (flat_source s) (scan_simd skip_ascii_whitespace) fuel
                  (cursor_at (flat_source s) off) = None) /\
  (forall fuel, find_char_loop (flat_source s) fuel 33%Z off (cursor_at (flat_source s) off) = None).
Proof.
  exists (lit "é!"), 1. split; [apply validb_valid; vm_compute; reflexivity|].
  split; [vm_compute; lia|].
  destruct (scan_off_boundary_diverges (lit "é!") 1) as (H1 & H2 & _); [vm_compute; lia | reflexivity|].
  split; intros; [apply H1 | apply H2].
Qed.
Print Assumptions scanning_terminates_refuted.

(** C70 holds on character boundaries: see [cursor_refines_text], [find_str_sound]
    and [find_char_correct], whose conclusions include termination. *)

(** C06: the rest of the text from an offset, for every source type; past the end it is empty. *)
Theorem text_from_correct : forall s r off, wf_chunked r -> text_of r = s -> valid s ->
  off <= length s -> is_boundary s off = true ->
  flat_text_from s off = skipn off s /\ chunked_text_from r off = Some (skipn off s).
Proof.
  intros s r off Hwf Ht Hv Hle Hb.
  assert (Hlen : ck_len r = length s) by (rewrite <- Ht; destruct Hwf; tauto).
  assert (Hsub : substr s off (length s) = skipn off s).
  { unfold substr. apply firstn_all2. rewrite skipn_length. lia. }
  unfold flat_text_from, chunked_text_from. rewrite Hlen.
  destruct (length s <=? off) eqn:E.
  - apply Nat.leb_le in E. rewrite skipn_all2 by lia. auto.
  - assert (He : is_boundary s (length s) = true) by apply is_boundary_length.
    rewrite flat_text_in_spec, Hsub by (assumption || lia). split; [reflexivity|].
    rewrite text_in_chunks_spec, Ht, Hsub by (rewrite ?Ht; assumption || lia). reflexivity.
Qed.
Print Assumptions text_from_correct.

Example text_from_example :
  flat_text_from (lit "aéb") 1 = lit "éb" /\
  chunked_text_from (rebuild [lit "aé"; lit "b"]) 1 = Some (lit "éb").
Proof. vm_compute. auto. Qed.
