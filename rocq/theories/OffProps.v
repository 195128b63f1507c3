(** Edits off character boundaries. *)
From Verif Require Import Base Utf8 Utf8Facts EditModel EditSpec RopeModel RopeSpec RopeProofs
  OffSpec OffProofs.

(** C68, the flat text: a batch of edits is carried out exactly when every one
    of them is in range and on character boundaries. *)
Theorem flat_edits_refused : forall s es,
  valid s -> Forall (fun e => e_start e <= e_end e /\ valid (e_text e)) es -> compatible es ->
  (apply_edits_range s es <> None <-> Forall (edit_ok s) es).
Proof. exact flat_accepts. Qed.
Print Assumptions flat_edits_refused.

(** C68, the rope: any edit whatever is carried out; what it replaces lies
    between the points where its two ends land, so text before its start and
    past the end of the chunk in which it ends is never touched. *)
Theorem rope_edit_anywhere : forall csz r e,
  wf_chunked r -> valid (e_text e) ->
  exists a b r' rg,
    lands (ck_chunks r) (Nat.min (e_start e) (length (text_of r))) a /\
    lands (ck_chunks r)
      (Nat.max (Nat.min (e_end e) (length (text_of r))) (Nat.min (e_start e) (length (text_of r)))) b /\
    rope_apply csz r [e] = Some (r', rg) /\ wf_chunked r' /\
    text_of r' = firstn (Nat.min a b) (text_of r) ++ e_text e ++ skipn b (text_of r).
Proof. exact rope_edit_any. Qed.
Print Assumptions rope_edit_anywhere.

Definition twin : chunked := rebuild [lit "aé"; lit "bc"].

Example twin_ok : wf_chunked twin.
Proof.
  apply wf_rebuild. repeat constructor; try discriminate.
  - exists [97; 233]%Z. split; [repeat constructor; unfold is_scalar; lia | reflexivity].
  - exists [98; 99]%Z. split; [repeat constructor; unfold is_scalar; lia | reflexivity].
Qed.

(** Deleting from inside the first chunk's last letter into the second chunk. *)
Example twin_edit :
  match rope_apply 8 twin [Edit 2 4 (lit "X")] with
  | Some (r, _) => text_of r = lit "aéXc"
  | None => False
  end.
Proof. vm_compute. reflexivity. Qed.

Example twin_flat : apply_edits_range (text_of twin) [Edit 2 4 (lit "X")] = None.
Proof. vm_compute. reflexivity. Qed.

Example twin_flat_ok : apply_edits_range (text_of twin) [Edit 1 3 (lit "X"); Edit 4 5 []] <> None.
Proof. vm_compute. discriminate. Qed.
