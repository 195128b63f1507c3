(** Theorems about the disk watcher. *)
From Verif Require Import Base Utf8 VfsModel WatchModel WatchSpec WatchProofs.

(** As long as [unwatch_all] is not called, an event leads to one call of the callback for every path at or below a watched one,
    in order and with the right kind, and to no other call; acts other than events lead to none. *)
Theorem watcher_tells_partial acts k ps : ~ In UnwatchAll acts ->
  exists vs, told acts k ps vs /\ (forall vs', told acts k ps vs' -> vs' = vs) /\ calls (acts ++ [Event {| e_kind := k; e_paths := ps |}]) = calls acts ++ vs.
Proof.
  intros N. exists (handle (Some (delivered (fst (run acts [])) {| e_kind := k; e_paths := ps |}))).
  pose proof (told_event acts k ps _ (watched_spec acts N)) as T. split; [exact T|]. split.
  - intros vs' T'. exact (told_unique _ _ _ _ _ T' T).
  - unfold calls. rewrite run_app. cbn [run step fst snd]. rewrite app_nil_r. reflexivity.
Qed.
Theorem watcher_silent acts x : (forall e, x <> Event e) -> calls (acts ++ [x]) = calls acts.
Proof.
  intros N. unfold calls. rewrite run_app. cbn [run snd].
  destruct x as [u|u| |e|]; cbn [step handle fst snd]; [apply app_nil_r|apply app_nil_r|apply app_nil_r|destruct (N e eq_refl)|apply app_nil_r].
Qed.
(** [unwatch_all] does not end the watching. *)
Theorem watcher_unwatch_all_refuted : exists acts p,
  (forall u, ~ watched (acts ++ [UnwatchAll]) u) /\ calls (acts ++ [UnwatchAll] ++ [Event {| e_kind := KModify; e_paths := [p] |}]) <> calls (acts ++ [UnwatchAll]).
Proof.
  exists [Watch (lit "src")], (lit "src/a"). split; [|vm_compute; discriminate].
  intros u (b & a & E & _ & N). destruct b as [|x b]; injection E; intros.
  - subst a. apply N. left. reflexivity.
  - destruct b as [|y b]; [discriminate|]. destruct b; discriminate.
Qed.
(** A file that is renamed is told as changed under its old name, which is no longer there: it is never told as removed. *)
Theorem watcher_rename_refuted : exists acts old new, ~ In UnwatchAll acts /\ of_interest acts old /\ of_interest acts new /\
  exists vs, calls (acts ++ [Event {| e_kind := KModify; e_paths := [old; new] |}]) = calls acts ++ vs /\ ~ In (Removed old) vs /\ ~ In (Created new) vs.
Proof.
  exists [Watch (lit "src")], (lit "src/a"), (lit "src/b"). split; [intros [H|[]]; discriminate|].
  assert (W : watched [Watch (lit "src")] (lit "src")) by (exists [], []; split; [reflexivity|split; intros []]).
  split; [exists (lit "src"); split; [exact W|right; exists (lit "a"); reflexivity]|].
  split; [exists (lit "src"); split; [exact W|right; exists (lit "b"); reflexivity]|].
  exists [Changed (lit "src/a"); Changed (lit "src/b")]. split; [reflexivity|]. split; intros [H|[H|[]]]; discriminate.
Qed.
Print Assumptions watcher_tells_partial.
Print Assumptions watcher_silent.
Print Assumptions watcher_unwatch_all_refuted.
Print Assumptions watcher_rename_refuted.

Example watcher_run : calls [Watch (lit "src"); Watch (lit "doc"); Event {| e_kind := KCreate; e_paths := [lit "src/a"; lit "bin/x"; lit "srcs"] |};
    Error; Unwatch (lit "src"); Event {| e_kind := KRemove; e_paths := [lit "src/a"; lit "doc"] |}; Event {| e_kind := KAccess; e_paths := [lit "doc"] |}]
  = [Created (lit "src/a"); Removed (lit "doc")].
Proof. reflexivity. Qed.
