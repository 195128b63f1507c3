(** Theorems about the parsers that build no nodes but the root. *)
From Verif Require Import Base Utf8 LexModel TreeModel TreeSpec ParserModel ParserSpec LangSpec LangParseProofs BareModel BareSpec BareProofs.

(** ** C203: bumping *)
(** The leaves of the root are the tokens from the first that counts on, each once and in order; nothing is diagnosed besides what
    the lexer did. *)
Theorem bumping_keeps : forall ign root toks len errs lead rest, (Z.of_nat (taken toks) < 2 ^ 32)%Z -> leads ign toks lead rest ->
  exists gs, bumping_parse ign root toks len errs = Some (GNode root (taken rest) gs, errs) /\ Forall2 as_leaf rest gs.
Proof.
  intros ign root toks len errs lead rest L D. destruct (leads_split _ _ _ _ D) as [_ ->]. exists (map tokleaf (no_trivia ign toks)). split; [|now apply leaves_of].
  rewrite (bumping_tree ign toks L). unfold gnode. now rewrite width_leaves.
Qed.
Print Assumptions bumping_keeps.

(** So a text whose first token counts is in the tree from end to end. *)
Theorem bumping_whole_partial : forall ign root toks len errs, (Z.of_nat (taken toks) < 2 ^ 32)%Z -> (forall t r, toks = t :: r -> ign (tk_kind t) = false) ->
  exists gs, bumping_parse ign root toks len errs = Some (GNode root (taken toks) gs, errs) /\ Forall2 as_leaf toks gs.
Proof. intros ign root toks len errs L H. apply (bumping_keeps ign root toks len errs [] toks L). split; [reflexivity|]. now split; [constructor|]. Qed.
Print Assumptions bumping_whole_partial.

(** White space (kind 0) before the first word is not in the tree. *)
Theorem bumping_whole_refuted : exists ign toks gs w, (Z.of_nat (taken toks) < 2 ^ 32)%Z /\ bumping_parse ign 9 toks 7 [] = Some (GNode 9 w gs, []) /\ w < taken toks.
Proof. exists (Nat.eqb 0), [Token 0 0 2; Token 1 2 7; Token 8 7 7], [GLeaf 1 5 None; GLeaf 8 0 None], 5. split; [reflexivity|]. split; [reflexivity|]. cbn. lia. Qed.
Print Assumptions bumping_whole_refuted.

Example bumping_case : bumping_parse (Nat.eqb 0) 9 [Token 0 0 2; Token 1 2 7; Token 0 7 8; Token 2 8 9; Token 0 9 12; Token 8 12 12] 12 [(3, 4)] =
  Some (GNode 9 10 [GLeaf 1 5 None; GLeaf 0 1 None; GLeaf 2 1 None; GLeaf 0 3 None; GLeaf 8 0 None], [(3, 4)]).
Proof. reflexivity. Qed.
Example bumping_lead : leads (Nat.eqb 0) [Token 0 0 2; Token 1 2 7; Token 0 7 8] [Token 0 0 2] [Token 1 2 7; Token 0 7 8].
Proof. split; [reflexivity|]. split; [repeat constructor|]. intros t r E. now injection E as <- <-. Qed.

(** ** C204: advancing *)
(** The leaves of the root are exactly the tokens that do not count, after the first that does; nothing is diagnosed. *)
Theorem advancing_keeps : forall ign root toks len errs lead rest us, (Z.of_nat (taken toks) < 2 ^ 32)%Z -> leads ign toks lead rest ->
  picked (fun t => ign (tk_kind t) = true) rest us ->
  exists gs, advancing_parse ign root toks len errs = Some (GNode root (taken us) gs, errs) /\ Forall2 as_leaf us gs.
Proof.
  intros ign root toks len errs lead rest us L D P. destruct (leads_split _ _ _ _ D) as [_ ->]. apply picked_filter in P. subst us. eexists. split; [|now apply leaves_of].
  rewrite (advancing_tree ign toks L). unfold gnode. now rewrite width_leaves.
Qed.
Print Assumptions advancing_keeps.

(** A token that counts is in no tree: for every text with one the root is too short by at least its length, and no diagnostic
    says so. *)
Theorem advancing_loses : forall ign root toks len t, (Z.of_nat (taken toks) < 2 ^ 32)%Z -> In t toks -> ign (tk_kind t) = false -> tk_start t < tk_end t ->
  exists w gs, advancing_parse ign root toks len [] = Some (GNode root w gs, []) /\ w + (tk_end t - tk_start t) <= taken toks /\
    Forall (fun g => forall k ch n, g = GNode k n ch \/ g = GLeaf k n None -> ign k = true) gs.
Proof.
  intros ign root toks len t L I C P. eexists _, _. split; [rewrite (advancing_tree ign toks L); reflexivity|]. split.
  - rewrite width_leaves. change (taken toks) with (toklen toks). pose proof (filter_len (fun t => ign (tk_kind t)) toks) as F. pose proof (filter_in_len (fun t => negb (ign (tk_kind t))) t toks I ltac:(cbn; now rewrite C)) as G.
    pose proof (trivia_filter ign toks) as T. rewrite T, toklen_app in F. lia.
  - apply Forall_forall. intros g G. apply in_map_iff in G. destruct G as (x & <- & X). apply filter_In in X. destruct X as [_ X]. intros k ch n [E | E]; [discriminate|]. injection E as <- <-. exact X.
Qed.
Print Assumptions advancing_loses.

(** Two words with a blank between: only the blank is in the tree. *)
Theorem advancing_whole_refuted : exists toks, (forall t r, toks = t :: r -> Nat.eqb 0 (tk_kind t) = false) /\
  advancing_parse (Nat.eqb 0) 9 toks 9 [] = Some (GNode 9 1 [GLeaf 0 1 None], []) /\ taken toks = 9.
Proof. exists [Token 1 0 5; Token 0 5 6; Token 2 6 9; Token 8 9 9]. split; [|split; reflexivity]. intros t r E. now injection E as <- <-. Qed.
Print Assumptions advancing_whole_refuted.

(** Where the language ignores nothing, the root is empty whatever the text. *)
Theorem advancing_empty : forall root toks len errs, (Z.of_nat (taken toks) < 2 ^ 32)%Z -> advancing_parse (fun _ => false) root toks len errs = Some (GNode root 0 [], errs).
Proof.
  intros root toks len errs L. rewrite (advancing_tree _ toks L). assert (E : forall ts : list token, filter (fun t => (fun _ : nat => false) (tk_kind t)) ts = []) by (induction ts; [reflexivity | assumption]).
  now rewrite E.
Qed.
Print Assumptions advancing_empty.
Example advancing_empty_case : advancing_parse (fun _ => false) 9 [Token 1 0 5; Token 0 5 6; Token 2 6 9; Token 8 9 9] 9 [] = Some (GNode 9 0 [], []).
Proof. reflexivity. Qed.
Example advancing_picked : picked (fun t => Nat.eqb 0 (tk_kind t) = true) [Token 1 0 5; Token 0 5 6; Token 2 6 9] [Token 0 5 6].
Proof. apply PickNot; [discriminate|]. apply PickIt; [reflexivity|]. apply PickNot; [discriminate|]. constructor. Qed.
