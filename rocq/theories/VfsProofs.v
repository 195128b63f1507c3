From Verif Require Import Base Utf8 VfsModel VfsSpec.

Lemma str_eqb_spec a : forall b, str_eqb a b = true <-> a = b.
Proof.
  induction a as [|x a IH]; intros [|y b]; simpl; split; try discriminate; try reflexivity.
  - rewrite andb_true_iff, IH. intros [H ->]. f_equal. lia.
  - intros H. injection H as -> ->. rewrite Z.eqb_refl. simpl. now apply IH.
Qed.

Section Maps.
  Context {K V : Type} (eqb : K -> K -> bool) (Heq : forall a b, eqb a b = true <-> a = b).
  Lemma eqb_refl k : eqb k k = true. Proof. now apply Heq. Qed.
  Lemma eqb_neq a b : a <> b -> eqb a b = false.
  Proof. intros H. destruct (eqb a b) eqn:E; [|reflexivity]. now apply Heq in E. Qed.
  Lemma mget_remove (m : list (K * V)) k k' : mget eqb (mremove eqb m k) k' = if eqb k k' then None else mget eqb m k'.
  Proof.
    induction m as [|[a v] m IH]; simpl; [now destruct (eqb k k')|].
    destruct (eqb a k) eqn:E; simpl; rewrite IH.
    - apply Heq in E. subst a. now destruct (eqb k k').
    - destruct (eqb a k') eqn:E2; [|reflexivity]. apply Heq in E2. subst a.
      destruct (eqb k k') eqn:E3; [|reflexivity]. apply Heq in E3. subst. now rewrite eqb_refl in E.
  Qed.
  Lemma mget_insert (m : list (K * V)) k v k' : mget eqb (minsert eqb m k v) k' = if eqb k k' then Some v else mget eqb m k'.
  Proof. unfold minsert. simpl. rewrite mget_remove. now destruct (eqb k k'). Qed.
End Maps.

Lemma N_eqb_spec a b : N.eqb a b = true <-> a = b. Proof. apply N.eqb_eq. Qed.

(** The tables agree, and every id in use is below the next one. *)
Record coherent (v : memory_vfs) : Prop := {
  co_files : forall u e, mget str_eqb (mv_files v) u = Some e -> mget str_eqb (mv_uri_to_id v) u = Some (fe_id e);
  co_uris : forall u id, mget str_eqb (mv_uri_to_id v) u = Some id -> exists e, mget str_eqb (mv_files v) u = Some e;
  co_ids : forall u id, mget str_eqb (mv_uri_to_id v) u = Some id <-> mget N.eqb (mv_ids v) id = Some u;
  co_next : forall u id, mget str_eqb (mv_uri_to_id v) u = Some id -> (id < mv_next_id v)%N }.

Lemma coherent_new : coherent vfs_new.
Proof. split; simpl; try discriminate. intros; split; discriminate. Qed.

Lemma coherent_write v now u c : coherent v -> (mv_next_id v + 1 < 4294967296)%N -> coherent (write_file v now u c).
Proof.
  intros [H1 H2 H3 H4] Hn. unfold write_file. destruct (mget str_eqb (mv_uri_to_id v) u) as [id|] eqn:E.
  - split; cbn [mv_files mv_ids mv_uri_to_id mv_next_id]; auto.
    + intros u' e. rewrite mget_insert by exact str_eqb_spec. destruct (str_eqb u u') eqn:E2; [|apply H1].
      apply str_eqb_spec in E2. subst u'. intros Hx. injection Hx as <-. exact E.
    + intros u' id' Hx. rewrite mget_insert by exact str_eqb_spec. destruct (str_eqb u u'); [eauto|eapply H2; eassumption].
  - assert (Hmod : ((mv_next_id v + 1) mod 4294967296 = mv_next_id v + 1)%N) by (apply N.mod_small; lia).
    split; cbn [mv_files mv_ids mv_uri_to_id mv_next_id].
    + intros u' e. rewrite !mget_insert by exact str_eqb_spec. destruct (str_eqb u u') eqn:E2; [|apply H1].
      intros Hx. injection Hx as <-. reflexivity.
    + intros u' id'. rewrite !mget_insert by exact str_eqb_spec. destruct (str_eqb u u'); [eauto|apply H2].
    + intros u' id'. rewrite mget_insert by exact str_eqb_spec. rewrite mget_insert by exact N_eqb_spec.
      destruct (str_eqb u u') eqn:E2; destruct (N.eqb (mv_next_id v) id') eqn:E3.
      * apply str_eqb_spec in E2. apply N.eqb_eq in E3. subst. tauto.
      * apply str_eqb_spec in E2. apply N.eqb_neq in E3. subst u'. split.
        -- intros Hx. injection Hx as Hx. congruence.
        -- intros Hx. apply H3 in Hx. congruence.
      * apply N.eqb_eq in E3. subst id'. split.
        -- intros Hx. apply H4 in Hx. lia.
        -- intros Hx. injection Hx as ->. rewrite (eqb_refl str_eqb str_eqb_spec) in E2. discriminate.
      * apply H3.
    + intros u' id'. rewrite mget_insert by exact str_eqb_spec. rewrite Hmod. destruct (str_eqb u u').
      * intros Hx. injection Hx as <-. lia.
      * intros Hx. apply H4 in Hx. lia.
Qed.

Lemma coherent_write_known v now u c : coherent v -> mget str_eqb (mv_uri_to_id v) u <> None -> coherent (write_file v now u c).
Proof.
  intros [H1 H2 H3 H4] Hn. unfold write_file. destruct (mget str_eqb (mv_uri_to_id v) u) as [id|] eqn:E; [|congruence].
  split; cbn [mv_files mv_ids mv_uri_to_id mv_next_id]; auto.
  - intros u' e. rewrite mget_insert by exact str_eqb_spec. destruct (str_eqb u u') eqn:E2; [|apply H1].
    apply str_eqb_spec in E2. subst u'. intros Hx. injection Hx as <-. exact E.
  - intros u' id' Hx. rewrite mget_insert by exact str_eqb_spec. destruct (str_eqb u u'); [eauto|eapply H2; eassumption].
Qed.

Lemma coherent_remove v u : coherent v -> coherent (remove_file v u).
Proof.
  intros Hc. assert (Hc' := Hc). destruct Hc' as [H1 H2 H3 H4]. unfold remove_file.
  destruct (mget str_eqb (mv_files v) u) as [e|] eqn:E; [|assumption].
  assert (Hid := H1 _ _ E).
  split; cbn [mv_files mv_ids mv_uri_to_id mv_next_id].
  - intros u' e'. rewrite !mget_remove by exact str_eqb_spec. destruct (str_eqb u u'); [discriminate|apply H1].
  - intros u' id'. rewrite !mget_remove by exact str_eqb_spec. destruct (str_eqb u u'); [discriminate|apply H2].
  - intros u' id'. rewrite mget_remove by exact str_eqb_spec. rewrite mget_remove by exact N_eqb_spec.
    destruct (str_eqb u u') eqn:E2; destruct (N.eqb (fe_id e) id') eqn:E3.
    + split; discriminate.
    + apply str_eqb_spec in E2. subst u'. split; [discriminate|]. intros Hx. apply H3 in Hx.
      apply N.eqb_neq in E3. congruence.
    + apply N.eqb_eq in E3. subst id'. split; [|discriminate]. intros Hx. apply H3 in Hx. apply H3 in Hid.
      assert (u = u') by congruence. subst. rewrite (eqb_refl str_eqb str_eqb_spec) in E2. discriminate.
    + apply H3.
  - intros u' id'. rewrite mget_remove by exact str_eqb_spec. destruct (str_eqb u u'); [discriminate|apply H4].
Qed.

Lemma content_step v op uri : coherent v ->
  option_map fst (get_source (apply_op v op) uri) =
  match op with
  | Write u c => if str_eqb u uri then Some c else option_map fst (get_source v uri)
  | Remove u => if str_eqb u uri then None else option_map fst (get_source v uri)
  end.
Proof.
  intros Hc. unfold get_source. destruct op as [u c|u]; simpl.
  - unfold write_file. destruct (mget str_eqb (mv_uri_to_id v) u); cbn [mv_files];
      rewrite mget_insert by exact str_eqb_spec; now destruct (str_eqb u uri).
  - unfold remove_file. destruct (mget str_eqb (mv_files v) u) eqn:E; cbn [mv_files].
    + rewrite mget_remove by exact str_eqb_spec. now destruct (str_eqb u uri).
    + destruct (str_eqb u uri) eqn:E2; [|reflexivity]. apply str_eqb_spec in E2. subst. now rewrite E.
Qed.

Lemma str_eqb_dec u v (A : Type) (x y : A) : (if str_eqb u v then x else y) = if list_eq_dec Z.eq_dec u v then x else y.
Proof.
  destruct (list_eq_dec Z.eq_dec u v) as [->|H]; [now rewrite (eqb_refl str_eqb str_eqb_spec)|].
  now rewrite (eqb_neq str_eqb str_eqb_spec).
Qed.

Lemma coherent_absent v u : coherent v -> option_map fst (get_source v u) = None <-> mget str_eqb (mv_uri_to_id v) u = None.
Proof.
  intros [H1 H2 _ _]. unfold get_source. split; intros H.
  - destruct (mget str_eqb (mv_uri_to_id v) u) as [id|] eqn:E; [|reflexivity].
    destruct (H2 _ _ E) as [e He]. rewrite He in H. discriminate.
  - destruct (mget str_eqb (mv_files v) u) as [e|] eqn:E; [|reflexivity]. apply H1 in E. congruence.
Qed.

Lemma history ops : (creations (rev ops) < 4294967296)%N ->
  coherent (after_ops ops) /\ mv_next_id (after_ops ops) = creations (rev ops) /\
  forall uri, option_map fst (get_source (after_ops ops) uri) = holds (rev ops) uri.
Proof.
  unfold after_ops. induction ops as [|op ops IH] using rev_ind; intros Hn.
  - split; [apply coherent_new|]. split; reflexivity.
  - rewrite fold_left_app, rev_app_distr in *. cbn [rev app fold_left] in *.
    set (v := fold_left apply_op ops vfs_new) in *.
    assert (Hn' : (creations (rev ops) < 4294967296)%N) by (destruct op; simpl in Hn; lia).
    destruct (IH Hn') as (Hc & Hnx & Hh). split; [|split].
    + destruct op as [u c|u]; [|now apply coherent_remove]. simpl in Hn |- *.
      destruct (holds (rev ops) u) eqn:Eh.
      * (* rewriting: no new id *)
        assert (Hex : mget str_eqb (mv_uri_to_id v) u <> None).
        { intros Hx. apply (coherent_absent v u Hc) in Hx. rewrite Hh in Hx. congruence. }
        apply coherent_write_known; assumption.
      * apply coherent_write; [assumption|]. lia.
    + destruct op as [u c|u]; simpl in Hn |- *.
      * unfold write_file. destruct (mget str_eqb (mv_uri_to_id v) u) as [id|] eqn:E; cbn [mv_next_id].
        -- destruct (holds (rev ops) u) eqn:Eh; [simpl; assumption|].
           rewrite <- Hh in Eh. apply (coherent_absent v u Hc) in Eh. congruence.
        -- apply (coherent_absent v u Hc) in E. rewrite Hh in E. rewrite E in Hn |- *.
           rewrite N.mod_small by lia. lia.
      * unfold remove_file. destruct (mget _ _ _); simpl; assumption.
    + intros uri. rewrite content_step by assumption. rewrite Hh. destruct op; apply str_eqb_dec.
Qed.

(** Listing *)
Fixpoint size (t : ftree) : nat := match t with FDir _ kids => S (list_sum (map size kids)) | _ => 1 end.

Lemma ftree_ind' (P : ftree -> Prop) : (forall u, P (FFile u)) -> (forall u, P (FOther u)) ->
  (forall u kids, Forall P kids -> P (FDir u kids)) -> forall t, P t.
Proof.
  intros HF HO HD. fix IH 1. intros [u|u kids|u]; [apply HF| |apply HO].
  apply HD. induction kids as [|k kids IHk]; constructor; auto.
Qed.

Lemma list_sum_rev l : list_sum (rev l) = list_sum l.
Proof. induction l as [|x l IH]; [reflexivity|]. simpl. rewrite list_sum_app, IH. simpl. lia. Qed.

Lemma flat_map_rev_perm {A B} (f : A -> list B) l : Permutation (flat_map f (rev l)) (flat_map f l).
Proof. apply Permutation_flat_map. symmetry. apply Permutation_rev. Qed.

Lemma list_loop_spec l : forall n trees, list_sum (map size trees) <= n ->
  (forall t, In t trees -> shape l t) -> forall fuel, n < fuel ->
  exists fs, list_loop fuel l (map uri_of trees) = Some fs /\ Permutation fs (flat_map files_of trees).
Proof.
  induction n as [n IH] using lt_wf_ind. intros trees Hn Hs fuel Hf.
  destruct fuel as [|f]; [lia|]. destruct trees as [|t trees]; [exists []; split; [reflexivity|constructor]|].
  assert (Ht := Hs t (or_introl eq_refl)).
  assert (Hs' : forall t', In t' trees -> shape l t') by (intros; apply Hs; now right).
  change (list_sum (map size (t :: trees))) with (size t + list_sum (map size trees)) in Hn.
  assert (Hpos : 1 <= size t) by (destruct t; simpl; lia).
  cbn [map list_loop]. inversion Ht as [u Hu|u kids Hu Hk Hks|u Hu Hu2]; subst t.
  - cbn [uri_of flat_map files_of app]. unfold is_file at 1. rewrite Hu.
    destruct (IH (n - 1)%nat ltac:(lia) trees ltac:(simpl in *; lia) Hs' f ltac:(lia)) as (fs & -> & Hp).
    exists (u :: fs). split; [reflexivity|]. now constructor.
  - cbn [uri_of flat_map files_of]. unfold is_file, is_dir at 1. rewrite Hu, Hk.
    rewrite <- map_rev, <- map_app.
    assert (Hsz : size (FDir u kids) = S (list_sum (map size kids))) by reflexivity.
    destruct (IH (n - 1)%nat ltac:(lia) (rev kids ++ trees)) with (fuel := f) as (fs & -> & Hp).
    + rewrite map_app, list_sum_app, map_rev, list_sum_rev. lia.
    + intros t' Hin. apply in_app_iff in Hin. destruct Hin as [Hin|Hin]; [apply Hks, in_rev; assumption|auto].
    + lia.
    + exists fs. split; [reflexivity|]. rewrite Hp, flat_map_app. apply Permutation_app_tail. apply flat_map_rev_perm.
  - cbn [uri_of flat_map files_of app]. unfold is_file, is_dir at 1.
    destruct (IH (n - 1)%nat ltac:(lia) trees ltac:(simpl in *; lia) Hs' f ltac:(lia)) as (fs & E & Hp).
    exists fs. split; [|assumption].
    destruct (ls_type l u) as [[| |]|]; try congruence; rewrite ?Hu2 by reflexivity; assumption.
Qed.
