(** Theorems about the virtual file systems (C40, C41, C79). *)
From Verif Require Import Base Utf8 VfsModel VfsSpec VfsProofs.

(** C40: contents and identities after any history that creates fewer than 2^32 files. *)
Theorem memory_vfs_is_a_map ops : (creations (rev ops) < 2 ^ 32)%N -> let v := after_ops ops in
  (forall uri, option_map fst (get_source v uri) = holds (rev ops) uri) /\
  (forall uri, exists_file v uri = true <-> holds (rev ops) uri <> None) /\
  (forall uri c, holds (rev ops) uri = Some c -> metadata v uri = Some (TyFile, length c) /\
     exists id, get_id v uri = Some id /\ get_source v uri = Some (c, id) /\ get_uri v id = Some uri) /\
  (forall uri, holds (rev ops) uri = None -> get_id v uri = None /\ metadata v uri = None) /\
  (forall uri id, get_id v uri = Some id <-> get_uri v id = Some uri).
Proof.
  intros Hn v. destruct (history ops Hn) as (Hc & _ & Hh). fold v in Hc, Hh.
  split; [exact Hh|]. split; [|split; [|split]].
  - intros uri. rewrite <- Hh. unfold exists_file, get_source. destruct (mget str_eqb (mv_files v) uri); simpl; split; congruence.
  - intros uri c H. rewrite <- Hh in H. unfold get_source, metadata in *.
    destruct (mget str_eqb (mv_files v) uri) as [e|] eqn:E; [|discriminate]. simpl in H. injection H as <-.
    split; [reflexivity|]. exists (fe_id e). assert (Hi := co_files v Hc _ _ E).
    split; [exact Hi|]. split; [reflexivity|]. apply (co_ids v Hc). exact Hi.
  - intros uri H. rewrite <- Hh in H. split; [now apply coherent_absent|].
    unfold metadata, get_source in *. now destruct (mget str_eqb (mv_files v) uri).
  - intros uri id. apply (co_ids v Hc).
Qed.
Print Assumptions memory_vfs_is_a_map.

Lemma id_history ops more uri id : (creations (rev (ops ++ more)) < 2 ^ 32)%N ->
  get_uri (after_ops ops) id = Some uri -> forall uri', get_uri (after_ops (ops ++ more)) id = Some uri' -> uri' = uri.
Proof.
  revert uri id. induction more as [|op more IH] using rev_ind; intros uri id Hn Hu uri' Hu'.
  - rewrite app_nil_r in Hu'. congruence.
  - rewrite app_assoc in *. unfold after_ops in *. rewrite fold_left_app in Hu'. cbn [fold_left] in Hu'.
    rewrite rev_app_distr in Hn. cbn [rev app] in Hn.
    assert (Hn1 : (creations (rev (ops ++ more)) < 2 ^ 32)%N) by (destruct op; cbn [creations] in Hn; lia).
    assert (Hle : (creations (rev ops) <= creations (rev (ops ++ more)))%N).
    { clear. rewrite rev_app_distr. induction (rev more) as [|x l IHl]; simpl; [lia|]. destruct x; lia. }
    destruct (history (ops ++ more) Hn1) as (Hc & Hx & _). unfold after_ops in Hc, Hx.
    destruct (history ops ltac:(lia)) as (Hc0 & Hx0 & _). unfold after_ops in Hc0, Hx0.
    set (v := fold_left apply_op (ops ++ more) vfs_new) in *. set (v0 := fold_left apply_op ops vfs_new) in *.
    destruct op as [u c|u]; simpl in Hu'.
    + unfold write_file in Hu'. destruct (mget str_eqb (mv_uri_to_id v) u); [apply (IH uri id Hn1 Hu uri' Hu')|].
      unfold get_uri in Hu'. cbn [mv_ids] in Hu'. rewrite mget_insert in Hu' by exact N_eqb_spec.
      destruct (N.eqb (mv_next_id v) id) eqn:E; [|apply (IH uri id Hn1 Hu uri' Hu')].
      apply N.eqb_eq in E. subst id. unfold get_uri in Hu. apply (co_ids v0 Hc0) in Hu. apply (co_next v0 Hc0) in Hu. lia.
    + unfold remove_file in Hu'. destruct (mget str_eqb (mv_files v) u) as [e|]; [|apply (IH uri id Hn1 Hu uri' Hu')].
      unfold get_uri in Hu'. cbn [mv_ids] in Hu'. rewrite mget_remove in Hu' by exact N_eqb_spec.
      destruct (N.eqb (fe_id e) id); [discriminate|apply (IH uri id Hn1 Hu uri' Hu')].
Qed.

(** C40: an identity never passes to another path, not even after removal; and a path keeps its identity
    as long as it is not removed. *)
Theorem identities_stable ops more uri id : (creations (rev (ops ++ more)) < 2 ^ 32)%N ->
  get_id (after_ops ops) uri = Some id ->
  (forall uri', get_uri (after_ops (ops ++ more)) id = Some uri' -> uri' = uri) /\
  (~ In (Remove uri) more -> get_id (after_ops (ops ++ more)) uri = Some id).
Proof.
  intros Hn Hi.
  assert (Hle : (creations (rev ops) <= creations (rev (ops ++ more)))%N).
  { clear. rewrite rev_app_distr. induction (rev more) as [|x l IHl]; simpl; [lia|]. destruct x; lia. }
  destruct (history ops ltac:(lia)) as (Hc0 & _). split.
  - apply id_history; [assumption|]. apply (co_ids _ Hc0). exact Hi.
  - clear Hle Hn. unfold after_ops in *. rewrite fold_left_app. set (v := fold_left apply_op ops vfs_new) in *.
    clearbody v. clear Hc0. revert v Hi. induction more as [|op more IH]; intros v Hi Hr; [exact Hi|].
    simpl. apply IH; [|intros H; apply Hr; now right].
    destruct op as [u c|u]; simpl; unfold get_id in *.
    + unfold write_file. destruct (mget str_eqb (mv_uri_to_id v) u) eqn:E; cbn [mv_uri_to_id]; [assumption|].
      rewrite mget_insert by exact str_eqb_spec. destruct (str_eqb u uri) eqn:E2; [|assumption].
      apply str_eqb_spec in E2. subst. congruence.
    + unfold remove_file. destruct (mget str_eqb (mv_files v) u); cbn [mv_uri_to_id]; [|assumption].
      rewrite mget_remove by exact str_eqb_spec. destruct (str_eqb u uri) eqn:E2; [|assumption].
      apply str_eqb_spec in E2. subst. exfalso. apply Hr. now left.
Qed.
Print Assumptions identities_stable.

Example history_case : let ops := [Write (lit "a") (lit "1"); Write (lit "b") (lit "2"); Write (lit "a") (lit "33");
    Remove (lit "b"); Write (lit "b") (lit "4")] in
  creations (rev ops) = 3%N /\ get_source (after_ops ops) (lit "a") = Some (lit "33", 0%N) /\
  get_source (after_ops ops) (lit "b") = Some (lit "4", 2%N) /\ get_uri (after_ops ops) 1 = None.
Proof. vm_compute. auto. Qed.

(** C41, what holds: over a tree of directories the listing ends and reports exactly the files of the tree,
    each as often as it occurs in the tree.  Missing: file systems that are not trees, and the in-memory one. *)
Theorem listing_finds_files_partial l t : shape l t -> exists enough, forall fuel, enough <= fuel ->
  exists fs, list_all_files fuel l (uri_of t) = Some fs /\ Permutation fs (files_of t).
Proof.
  intros H. exists (S (size t)). intros fuel Hf.
  destruct (list_loop_spec l (size t) [t]) with (fuel := fuel) as (fs & E & Hp).
  - simpl. lia.
  - intros t' [<-|[]]. assumption.
  - lia.
  - exists fs. split; [exact E|]. rewrite Hp. simpl. now rewrite app_nil_r.
Qed.
Print Assumptions listing_finds_files_partial.

(** C41: in the in-memory file system nothing is a directory: listing any root reports that root if it is
    a file and otherwise nothing at all. *)
Theorem memory_listing_exact v root fuel : 2 <= fuel ->
  list_all_files fuel (memory_listing v) root = Some (if exists_file v root then [root] else []).
Proof.
  intros Hf. destruct fuel as [|[|f]]; try lia. unfold list_all_files, exists_file. cbn [list_loop].
  unfold is_file, is_dir, memory_listing, metadata. cbn [ls_type].
  destruct (mget str_eqb (mv_files v) root); reflexivity.
Qed.
Print Assumptions memory_listing_exact.

Theorem listing_finds_files_refuted : exists ops root file,
  holds (rev ops) file <> None /\ (exists name, file = root ++ lit "/" ++ name) /\
  forall fuel fs, list_all_files fuel (memory_listing (after_ops ops)) root = Some fs -> fs = [].
Proof.
  exists [Write (lit "src/a.rs") (lit "x")], (lit "src"), (lit "src/a.rs").
  split; [vm_compute; discriminate|]. split; [exists (lit "a.rs"); reflexivity|].
  intros fuel fs H. destruct fuel as [|[|f]]; try discriminate.
  rewrite memory_listing_exact in H by lia. injection H as <-. reflexivity.
Qed.
Print Assumptions listing_finds_files_refuted.

(** A directory that (through a symbolic link, which [fs::metadata] follows) contains itself: the listing never
    ends. *)
Definition looped : listing := Listing (fun _ => Some TyDirectory) (fun _ => Some [lit "d"]).
Theorem listing_terminates_refuted : exists l root, forall fuel, list_all_files fuel l root = None.
Proof.
  exists looped, (lit "d"). intros fuel. unfold list_all_files. induction fuel as [|f IH]; [reflexivity|].
  cbn [list_loop]. exact IH.
Qed.
Print Assumptions listing_terminates_refuted.

Example small_tree : let l := Listing
    (fun u => if str_eqb u (lit "d") then Some TyDirectory else if str_eqb u (lit "d/e") then Some TyDirectory
              else if str_eqb u (lit "s") then Some TyOther else Some TyFile)
    (fun u => if str_eqb u (lit "d") then Some [lit "d/a"; lit "d/e"; lit "s"]
              else if str_eqb u (lit "d/e") then Some [lit "d/e/b"] else None) in
  let t := FDir (lit "d") [FFile (lit "d/a"); FDir (lit "d/e") [FFile (lit "d/e/b")]; FOther (lit "s")] in
  shape l t /\ list_all_files 9 l (lit "d") = Some [lit "d/e/b"; lit "d/a"].
Proof.
  split; [|vm_compute; reflexivity].
  apply ShDir; [reflexivity|reflexivity|]. intros k [<-|[<-|[<-|[]]]].
  - apply ShFile. reflexivity.
  - apply ShDir; [reflexivity|reflexivity|]. intros k [<-|[]]. apply ShFile. reflexivity.
  - apply ShOther; discriminate.
Qed.

(** C79: on disk no file ever has an identity. *)
Theorem disk_identity_refuted : exists files uri, 
  disk_get_source (disk_new files) uri <> None /\
  forall ops, disk_get_id (fold_left (fun v op => match op with Write u c => disk_write v u c | Remove u => disk_remove v u end)
                            ops (disk_new files)) uri = None.
Proof.
  exists [(lit "a", lit "1")], (lit "a"). split; [vm_compute; discriminate|].
  assert (H : forall ops v, dv_uri_to_id v = [] -> dv_uri_to_id (fold_left (fun v op => match op with Write u c => disk_write v u c | Remove u => disk_remove v u end) ops v) = []).
  { induction ops as [|op ops IH]; intros v Hv; [exact Hv|]. simpl. apply IH. now destruct op. }
  intros ops. unfold disk_get_id. now rewrite H.
Qed.
Print Assumptions disk_identity_refuted.

(** C40: listing a directory of the file system in memory names every file once, and no other path. *)
Lemma remove_keys {V} (m : list (str * V)) k : map fst (mremove str_eqb m k) = filter (fun u => negb (str_eqb u k)) (map fst m).
Proof. unfold mremove. induction m as [| [u v] m IH]; [reflexivity|]. cbn [filter map fst]. destruct (negb (str_eqb u k)); cbn [map fst]; now rewrite IH. Qed.
Lemma insert_keys {V} (m : list (str * V)) k v : NoDup (map fst m) -> NoDup (map fst (minsert str_eqb m k v)).
Proof.
  intros N. unfold minsert. cbn [map fst]. rewrite remove_keys. constructor; [|now apply NoDup_filter]. rewrite filter_In. intros [_ H]. now rewrite (eqb_refl str_eqb str_eqb_spec) in H.
Qed.
Lemma files_once ops : NoDup (map fst (mv_files (after_ops ops))).
Proof.
  unfold after_ops. assert (G : forall ops v, NoDup (map fst (mv_files v)) -> NoDup (map fst (mv_files (fold_left apply_op ops v)))); [|apply G; constructor].
  clear ops. induction ops as [| op ops IH]; intros v N; [exact N|]. cbn [fold_left]. apply IH. destruct op as [u c | u]; cbn [apply_op].
  - unfold write_file. destruct (mget str_eqb (mv_uri_to_id v) u); cbn [mv_files]; now apply insert_keys.
  - unfold remove_file. destruct (mget str_eqb (mv_files v) u); cbn [mv_files]; [rewrite remove_keys; now apply NoDup_filter | exact N].
Qed.
Lemma key_in {V} (m : list (str * V)) k : In k (map fst m) <-> mget str_eqb m k <> None.
Proof.
  induction m as [| [u v] m IH]; cbn [map fst In mget]; [tauto|]. destruct (str_eqb u k) eqn:E.
  - apply str_eqb_spec in E. split; [discriminate | now left].
  - rewrite <- IH. split; [|now right]. intros [-> | H]; [|exact H]. now rewrite (eqb_refl str_eqb str_eqb_spec) in E.
Qed.
Theorem memory_read_dir ops dir : (creations (rev ops) < 2 ^ 32)%N ->
  exists names, read_dir (after_ops ops) dir = Some names /\ NoDup names /\ forall uri, In uri names <-> holds (rev ops) uri <> None.
Proof.
  intros Hn. destruct (history ops Hn) as (_ & _ & Hh). eexists. split; [reflexivity|]. split; [apply files_once|]. intros uri. rewrite key_in, <- Hh. unfold get_source. destruct (mget str_eqb (mv_files (after_ops ops)) uri); cbn; split; congruence.
Qed.
Print Assumptions memory_read_dir.
Example memory_read_dir_case : read_dir (after_ops [Write (lit "a") (lit "1"); Write (lit "b") []; Write (lit "a") (lit "2"); Remove (lit "b"); Write (lit "c") []]) (lit "/") = Some [lit "c"; lit "a"].
Proof. vm_compute. reflexivity. Qed.
