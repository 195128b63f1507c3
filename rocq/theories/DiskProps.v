(** What the virtual file system on disk holds, with the operating system's files as they were found. *)
From Verif Require Import Base Utf8 VfsModel VfsSpec VfsProofs.

(** What a path holds after a history (latest operation first) on a disk that
    already held files. *)
Fixpoint disk_holds (found : list (str * str)) (newest_first : list vop) (uri : str) : option str :=
  match newest_first with
  | [] => match find (fun f => if list_eq_dec Z.eq_dec (fst f) uri then true else false) found with
          | Some f => Some (snd f) | None => None end
  | Write u c :: older => if list_eq_dec Z.eq_dec u uri then Some c else disk_holds found older uri
  | Remove u :: older => if list_eq_dec Z.eq_dec u uri then None else disk_holds found older uri
  end.

Definition disk_after (found : list (str * str)) (ops : list vop) : disk_vfs :=
  fold_left (fun v op => match op with Write u c => disk_write v u c | Remove u => disk_remove v u end)
    ops (disk_new found).

Lemma str_eqb_case : forall a b, str_eqb a b = if list_eq_dec Z.eq_dec a b then true else false.
Proof.
  intros a b. destruct (list_eq_dec Z.eq_dec a b) as [-> | N].
  - now apply str_eqb_spec.
  - destruct (str_eqb a b) eqn:E; [|reflexivity]. apply str_eqb_spec in E. congruence.
Qed.

Lemma disk_after_snoc : forall found ops op,
  disk_after found (ops ++ [op]) =
  match op with Write u c => disk_write (disk_after found ops) u c | Remove u => disk_remove (disk_after found ops) u end.
Proof. intros. unfold disk_after. rewrite fold_left_app. reflexivity. Qed.

(** C79, what does hold: after any history each path has the content last
    written to it (or found there), and no path ever has an identity. *)
Theorem disk_contents : forall found ops uri,
  disk_get_source (disk_after found ops) uri = disk_holds found (rev ops) uri /\
  disk_get_id (disk_after found ops) uri = None.
Proof.
  intros found ops uri. split.
  - induction ops as [| op ops IH] using rev_ind.
    + cbn [rev disk_holds]. unfold disk_after, disk_get_source. cbn [fold_left disk_new dv_files].
      induction found as [| [k v] found IH]; [reflexivity|].
      cbn [mget find fst]. rewrite str_eqb_case.
      destruct (list_eq_dec Z.eq_dec k uri); [reflexivity | exact IH].
    + rewrite rev_app_distr, disk_after_snoc. cbn [rev app].
      unfold disk_get_source in *. destruct op as [u c | u]; cbn [disk_write disk_remove dv_files disk_holds].
      * rewrite mget_insert by apply str_eqb_spec. rewrite IH, str_eqb_case.
        destruct (list_eq_dec Z.eq_dec u uri); reflexivity.
      * rewrite mget_remove by apply str_eqb_spec. rewrite IH, str_eqb_case.
        destruct (list_eq_dec Z.eq_dec u uri); reflexivity.
  - unfold disk_get_id. assert (H : dv_uri_to_id (disk_after found ops) = []).
    { induction ops as [| op ops IH] using rev_ind; [reflexivity|].
      rewrite disk_after_snoc. destruct op; exact IH. }
    now rewrite H.
Qed.
Print Assumptions disk_contents.

Example disk_run :
  let v := disk_after [(lit "a", lit "1"); (lit "b", lit "2")] [Write (lit "c") (lit "3"); Remove (lit "a"); Write (lit "b") (lit "4")] in
  map (disk_get_source v) [lit "a"; lit "b"; lit "c"; lit "d"] = [None; Some (lit "4"); Some (lit "3"); None].
Proof. vm_compute. reflexivity. Qed.
