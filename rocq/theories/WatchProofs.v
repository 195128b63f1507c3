From Verif Require Import Base Utf8 VfsModel VfsProofs WatchModel WatchSpec.

Lemma run_app a b w : run (a ++ b) w = (fst (run b (fst (run a w))), snd (run a w) ++ snd (run b (fst (run a w)))).
Proof.
  revert w. induction a as [|x a IH]; intros w; cbn [app run].
  - cbn [fst snd app]. destruct (run b w); reflexivity.
  - destruct (step x w) as [w1 o1]. rewrite (IH w1). destruct (run a w1) as [w2 o2]. cbn [fst snd]. destruct (run b w2) as [w3 o3]. cbn [fst snd]. rewrite app_assoc. reflexivity.
Qed.

Lemma starts_spec u p : starts u p = true <-> exists r, p = u ++ r.
Proof.
  revert p. induction u as [|a u IH]; intros p; cbn [starts].
  - split; [exists p; reflexivity|reflexivity].
  - destruct p as [|b p]; [split; [discriminate|intros (r & H); discriminate]|].
    rewrite andb_true_iff, Z.eqb_eq, IH. split.
    + intros (-> & r & ->). exists r. reflexivity.
    + intros (r & H). injection H as -> ->. split; [reflexivity|exists r; reflexivity].
Qed.
Lemma at_or_below_spec u p : at_or_below u p = true <-> below u p.
Proof.
  unfold at_or_below, below. rewrite orb_true_iff, starts_spec. change (lit "/") with [47%Z]. split.
  - intros [E|(r & ->)]; [left; symmetry; apply str_eqb_spec; exact E|right; exists r; rewrite <- app_assoc; reflexivity].
  - intros [->|(r & ->)]; [left; apply str_eqb_spec; reflexivity|right; exists r; rewrite <- app_assoc; reflexivity].
Qed.

(** The set of the library is the set of the watched paths, without [unwatch_all]. *)
Lemma watched_spec acts : ~ In UnwatchAll acts -> forall u, In u (fst (run acts [])) <-> watched acts u.
Proof.
  induction acts as [|x acts IH] using rev_ind; intros N u.
  - cbn. split; [intros []|]. intros (b & a & E & _). destruct b; discriminate.
  - assert (N' : ~ In UnwatchAll acts) by (intros H; apply N, in_or_app; left; exact H).
    specialize (IH N'). rewrite run_app. cbn [run]. cbn [fst].
    assert (Old : watched (acts ++ [x]) u <-> x = Watch u \/ (watched acts u /\ x <> Unwatch u)).
    { split.
      - intros (b & a & E & Na & Nu). destruct a as [|y a _] using rev_ind.
        + apply app_inj_tail in E. left. apply E.
        + rewrite app_comm_cons, app_assoc in E. apply app_inj_tail in E. destruct E as [E ->]. right. split.
          * exists b, a. split; [exact E|]. split; intros H; [apply Na|apply Nu]; apply in_or_app; left; exact H.
          * intros ->. apply Na, in_or_app. right. left. reflexivity.
      - intros [->|((b & a & -> & Na & Nu) & D)].
        + exists acts, []. split; [reflexivity|]. split; intros [].
        + exists b, (a ++ [x]). split; [rewrite <- app_assoc; reflexivity|].
          split; intros H; apply in_app_or in H; destruct H as [H|[H|[]]]; [exact (Na H)|exact (D H)|exact (Nu H)|].
          apply N, in_or_app. right. left. exact H. }
    destruct x as [v|v| |e|]; cbn [step fst].
    + unfold watch. cbn [In]. rewrite Old, IH. split.
      * intros [->|H]; [left; reflexivity|right; split; [exact H|discriminate]].
      * intros [H|[H _]]; [left; congruence|right; exact H].
    + unfold unwatch. rewrite filter_In, IH, Old, negb_true_iff. split.
      * intros [H E]. right. split; [exact H|]. intros [= ->]. rewrite (proj2 (str_eqb_spec u u) eq_refl) in E. discriminate.
      * intros [H|[H D]]; [discriminate|]. split; [exact H|]. destruct (str_eqb u v) eqn:E; [|reflexivity]. apply str_eqb_spec in E. subst v. congruence.
    + exfalso. apply N, in_or_app. right. left. reflexivity.
    + rewrite Old, IH. split; [intros H; right; split; [exact H|discriminate]|intros [H|[H _]]; [discriminate|exact H]].
    + rewrite Old, IH. split; [intros H; right; split; [exact H|discriminate]|intros [H|[H _]]; [discriminate|exact H]].
Qed.

Lemma told_event acts k ps w : (forall u, In u w <-> watched acts u) -> told acts k ps (handle (Some (delivered w {| e_kind := k; e_paths := ps |}))).
Proof.
  intros W. cbn [handle delivered e_kind e_paths]. induction ps as [|p ps IH]; cbn [filter]; [constructor|].
  assert (I : existsb (fun u => at_or_below u p) w = true <-> of_interest acts p).
  { rewrite existsb_exists. unfold of_interest. split; intros (u & A & B); exists u; (split; [apply W; exact A|apply at_or_below_spec; exact B]). }
  destruct (existsb _ w).
  - cbn [flat_map]. pose proof (proj1 I eq_refl) as O.
    destruct k; cbn [is_modify is_create is_remove app]; first [apply ToldYes; [exact O|constructor|exact IH] | apply ToldNo; [right; intros v V; inversion V|exact IH]].
  - apply ToldNo; [left; intros H; apply I in H; discriminate|exact IH].
Qed.
Lemma told_unique acts k ps vs1 vs2 : told acts k ps vs1 -> told acts k ps vs2 -> vs1 = vs2.
Proof.
  intros T. revert vs2. induction T as [|p ps v vs O N T IH|p ps vs O T IH]; intros vs2 T2; inversion T2; subst; clear T2; try reflexivity.
  - f_equal; [|apply IH; assumption]. match goal with A : news k p v, B : news k p ?v0 |- _ => inversion A; subst; inversion B; reflexivity end.
  - exfalso. match goal with H : _ \/ _ |- _ => destruct H as [H|H]; [exact (H O)|exact (H _ N)] end.
  - exfalso. destruct O as [O|O]; [apply O; assumption|eapply O; eassumption].
  - apply IH. assumption.
Qed.
