(** Theorems about the folders of a workspace, and the module files the service answers with. *)
From Verif Require Import Base Utf8 VfsModel VfsProofs TreeModel TreeSpec TreeProofs SymModel SymSpec SymProofs SymProps FolderSpec.

(** A client initializes with a root and folders, then opens and closes folders. *)
Definition ws_event (to_path : str -> option str) (w : workspace) (e : folder_event) : workspace :=
  match e with Opened u => ws_add_folder to_path w u | Closed u => ws_remove_folder w u end.
Definition session (to_path : str -> option str) (root : option str) (folders : list str) (es : list folder_event) : workspace :=
  fold_left (ws_event to_path) es (ws_initialize to_path ws_new root folders).
(** What was opened at the start *)
Definition initially (root : option str) (folders : list str) : list folder_event := match root with Some u => [Opened u] | None => [] end ++ map Opened folders.

Lemma open_nil u : ~ open_after [] u.
Proof. intros (b & a & E & _). now destruct b. Qed.
Lemma open_snoc es e u : open_after (es ++ [e]) u <-> e = Opened u \/ (e <> Closed u /\ open_after es u).
Proof.
  split.
  - intros (b & a & E & N). destruct a as [| x a _] using rev_ind.
    + apply app_inj_tail in E. now left.
    + right. change (b ++ Opened u :: a ++ [x]) with (b ++ (Opened u :: a) ++ [x]) in E. rewrite app_assoc in E. apply app_inj_tail in E. destruct E as [-> ->]. split; [intros ->; apply N; apply in_or_app; right; now left|].
      exists b, a. split; [reflexivity|]. intros I. apply N. apply in_or_app. now left.
  - intros [-> | (N & b & a & -> & N')].
    + exists es, []. split; [reflexivity | easy].
    + exists b, (a ++ [e]). split; [now rewrite <- app_assoc|]. intros I. apply in_app_or in I. destruct I as [I | [I | []]]; contradiction.
Qed.
(** [m] holds the paths of the open folders. *)
Definition holds (to_path : str -> option str) (m : list (str * str)) (es : list folder_event) : Prop :=
  forall u p, mget str_eqb m u = Some p <-> open_after es u /\ to_path u = Some p.
Lemma eqb_case u v : {u = v /\ str_eqb u v = true} + {u <> v /\ str_eqb u v = false}.
Proof. destruct (str_eqb u v) eqn:E; [left | right]; (split; [|reflexivity]). - now apply str_eqb_spec. - intros ->. assert (str_eqb v v = true) by now apply str_eqb_spec. congruence. Qed.
Lemma holds_open to_path m es v : holds to_path m es -> holds to_path (match to_path v with Some p => minsert str_eqb m v p | None => m end) (es ++ [Opened v]).
Proof.
  intros H u p. rewrite open_snoc. destruct (to_path v) as [q|] eqn:P.
  - rewrite (mget_insert str_eqb str_eqb_spec). destruct (eqb_case v u) as [[-> ->] | [N ->]].
    + split; [intros E; injection E as ->; split; [now left | assumption] | intros [_ E]; congruence].
    + rewrite (H u p). split; [intros [O E]; split; [right; split; [discriminate | assumption] | assumption]|]. intros [[E' | [_ O]] E]; [injection E' as E'; contradiction | now split].
  - rewrite (H u p). split; [intros [O E]; split; [right; split; [discriminate | assumption] | assumption]|]. intros [[E' | [_ O]] E]; [injection E' as E'; congruence | now split].
Qed.
Lemma holds_close to_path m es v : holds to_path m es -> holds to_path (mremove str_eqb m v) (es ++ [Closed v]).
Proof.
  intros H u p. rewrite open_snoc, (mget_remove str_eqb str_eqb_spec). destruct (eqb_case v u) as [[-> ->] | [N ->]].
  - split; [discriminate|]. intros [[E | [N _]] _]; [discriminate | now destruct N].
  - rewrite (H u p). split; [intros [O E]; split; [right; split; [intros E'; injection E' as E'; contradiction | assumption] | assumption]|]. intros [[E' | [_ O]] E]; [discriminate | now split].
Qed.
Lemma holds_new to_path : holds to_path [] [].
Proof. intros u p. split; [discriminate|]. intros [O _]. now destruct (open_nil u). Qed.
Lemma holds_folders to_path folders : forall fr es, holds to_path (fst fr) es -> holds to_path (fst (fold_left (ws_open to_path) folders fr)) (es ++ map Opened folders).
Proof.
  induction folders as [| v r IH]; intros fr es H; cbn [fold_left map]; [now rewrite app_nil_r|]. change (Opened v :: map Opened r) with ([Opened v] ++ map Opened r). rewrite app_assoc. apply IH.
  apply (holds_open to_path _ _ v) in H. unfold ws_open. now destruct (to_path v).
Qed.

(** C208: at any time in a session the folders are those opened (at the start or later) and not closed since, with the path each stands
    for; what stands for no path is no folder. *)
Theorem workspace_folders : forall to_path root folders es u p,
  mget str_eqb (ws_folders (session to_path root folders es)) u = Some p <-> open_after (initially root folders ++ es) u /\ to_path u = Some p.
Proof.
  intros to_path root folders es. cut (holds to_path (ws_folders (session to_path root folders es)) (initially root folders ++ es)); [easy|]. unfold session.
  assert (H0 : holds to_path (ws_folders (ws_initialize to_path ws_new root folders)) (initially root folders)).
  { unfold ws_initialize, initially. cbn [ws_folders]. apply holds_folders. destruct root as [u|]; cbn [fst]; [|apply holds_new]. pose proof (holds_open to_path _ _ u (holds_new to_path)) as H. unfold ws_open. cbn [ws_new ws_folders fst app] in *. now destruct (to_path u). }
  revert H0. generalize (ws_initialize to_path ws_new root folders), (initially root folders). induction es as [| e es IH]; intros w es0 H; cbn [fold_left]; [now rewrite app_nil_r|].
  change (e :: es) with ([e] ++ es). rewrite app_assoc. apply IH. destruct e as [v | v]; cbn [ws_event ws_add_folder ws_remove_folder ws_folders]; [now apply holds_open | now apply holds_close].
Qed.
Print Assumptions workspace_folders.

Example workspace_folders_case : let w := session (fun s => Some s) (Some (lit "/a")) [lit "/b"] [Closed (lit "/a"); Opened (lit "/c"); Closed (lit "/c"); Opened (lit "/c")] in
  mget str_eqb (ws_folders w) (lit "/a") = None /\ mget str_eqb (ws_folders w) (lit "/b") = Some (lit "/b") /\ mget str_eqb (ws_folders w) (lit "/c") = Some (lit "/c").
Proof. repeat split. Qed.

(** C208: so the root the service answers with for a file is a folder that is open. *)
Lemma in_of_get (m : list (str * str)) u p : NoDup (map fst m) -> In (u, p) m -> mget str_eqb m u = Some p.
Proof.
  induction m as [| [v q] m IH]; intros N I; [contradiction|]. cbn [map fst] in N. apply NoDup_cons_iff in N. destruct N as [N1 N2]. cbn [mget]. destruct (eqb_case v u) as [[-> ->] | [Nv ->]].
  - destruct I as [I | I]; [now injection I as -> | destruct N1; now apply (in_map fst) in I].
  - destruct I as [I | I]; [injection I as -> _; contradiction | now apply IH].
Qed.
Lemma remove_keys (m : list (str * str)) v : NoDup (map fst m) -> NoDup (map fst (mremove str_eqb m v)) /\ ~ In v (map fst (mremove str_eqb m v)).
Proof.
  unfold mremove. induction m as [| [x q] m IH]; intros N; cbn [filter map fst]; [split; [constructor | easy]|]. cbn [map fst] in N. apply NoDup_cons_iff in N. destruct N as [N1 N2]. destruct (IH N2) as [A B]. destruct (eqb_case x v) as [[-> ->] | [Nx ->]]; cbn [negb]; [now split|].
  cbn [map fst]. split; [constructor; [|assumption] | intros [E | I]; contradiction]. intros I. apply N1. apply in_map_iff in I. destruct I as ([a b] & E & I). apply filter_In in I. apply in_map_iff. exists (a, b). now split.
Qed.
Lemma insert_keys (m : list (str * str)) v p : NoDup (map fst m) -> NoDup (map fst (minsert str_eqb m v p)).
Proof. intros N. destruct (remove_keys m v N) as [A B]. unfold minsert. cbn [map fst]. now constructor. Qed.
Lemma session_keys to_path root folders es : NoDup (map fst (ws_folders (session to_path root folders es))).
Proof.
  unfold session. assert (H0 : NoDup (map fst (ws_folders (ws_initialize to_path ws_new root folders)))).
  { unfold ws_initialize. cbn [ws_folders]. assert (forall fr, NoDup (map fst (fst fr)) -> NoDup (map fst (fst (fold_left (ws_open to_path) folders fr)))).
    { induction folders as [| v r IH]; intros fr H; cbn [fold_left]; [assumption|]. apply IH. unfold ws_open. destruct (to_path v); [|assumption]. cbn [fst]. now apply insert_keys. }
    apply H. destruct root as [u|]; [|constructor]. unfold ws_open. destruct (to_path u); [|constructor]. cbn [fst]. apply insert_keys. constructor. }
  revert H0. generalize (ws_initialize to_path ws_new root folders). induction es as [| e es IH]; intros w H; cbn [fold_left]; [assumption|]. apply IH. destruct e as [v | v]; cbn [ws_event ws_add_folder ws_remove_folder ws_folders].
  - unfold add_folder. destruct (to_path v); [now apply insert_keys | assumption].
  - unfold remove_folder. now apply remove_keys.
Qed.
Theorem root_is_open : forall to_path root folders es uri u, find_root to_path (ws_folders (session to_path root folders es)) uri = Some u ->
  open_after (initially root folders ++ es) u /\ exists path p, to_path uri = Some path /\ to_path u = Some p /\ inside path p.
Proof.
  intros to_path root folders es uri u E. apply find_root_contains in E. destruct E as (path & p & P & I & Ins). apply in_of_get in I; [|apply session_keys]. apply workspace_folders in I. destruct I as [O Pu]. split; [assumption|]. now exists path, p.
Qed.
Print Assumptions root_is_open.
(** And every file in an open folder has one. *)
Theorem open_has_root : forall to_path root folders es uri path u p, to_path uri = Some path -> open_after (initially root folders ++ es) u -> to_path u = Some p -> inside path p ->
  find_root to_path (ws_folders (session to_path root folders es)) uri <> None.
Proof.
  intros to_path root folders es uri path u p P O Pu Ins E. assert (G : mget str_eqb (ws_folders (session to_path root folders es)) u = Some p) by now apply workspace_folders.
  assert (I : In (u, p) (ws_folders (session to_path root folders es))). { revert G. generalize (ws_folders (session to_path root folders es)). clear. induction l as [| [v q] l IH]; cbn [mget]; [discriminate|]. destruct (eqb_case v u) as [[-> ->] | [_ ->]]; [intros E; injection E as ->; now left | intros E; right; now apply IH]. }
  assert (W : is_within_workspace to_path (ws_folders (session to_path root folders es)) uri = true) by (apply (within_workspace_iff to_path _ uri path P); now exists u, p). unfold is_within_workspace in W. rewrite E in W. discriminate.
Qed.
Print Assumptions open_has_root.
Example root_case : find_root (fun s => Some s) (ws_folders (session (fun s => Some s) (Some (lit "/a")) [lit "/a/b"] [Closed (lit "/a/b")])) (lit "/a/b/c") = Some (lit "/a").
Proof. reflexivity. Qed.

(** ** C209: a reference to a module *)
(** For a reference (directly in the root) whose name is in no file, the service answers with the beginning of the file the module
    resolver finds for the name, or with nothing. *)
Theorem definition_module : forall is_reference text_in resolve t uri k0 n0 before k n ch after start,
  let root := GNode k0 n0 (before ++ GNode k n ch :: after) in
  let off := list_sum (map width before) in
  built root -> is_reference k = true -> off <= start < off + n -> lookup t (text_in off (off + n)) = None ->
  (forall loc, In loc (definition is_reference text_in resolve t uri root start) <-> exists u, resolve uri (text_in off (off + n)) = Some u /\ loc = (u, (0, 0))).
Proof.
  intros is_reference text_in resolve t uri k0 n0 before k n ch after start root off Hb Hk Hs L.
  assert (Hlen := node_len _ _ _ Hb). destruct (built_node _ _ _ Hb) as [Hf _].
  assert (Hn : width (GNode k n ch) = n).
  { apply Forall_app in Hf. destruct Hf as [_ Hf]. inversion Hf; subst. rewrite <- (glen_width _ H1). reflexivity. }
  assert (E : child_at_offset n0 (before ++ GNode k n ch :: after) 0 start = Some (RNode k n ch off)).
  { unfold child_at_offset, child_index_at_offset. rewrite Hlen, map_app, list_sum_app. cbn [map]. rewrite list_sum_cons, Hn. fold off.
    replace ((start <? 0) || (0 + (off + (n + list_sum (map width after))) <=? start)) with false by (symmetry; apply orb_false_iff; lia).
    rewrite index_loop_at by (try assumption; rewrite Hn; fold off; lia). cbn [Nat.add].
    rewrite (child_at_some _ 0 (length before) (GNode k n ch)) by (try assumption; rewrite nth_error_app2, Nat.sub_diag by lia; reflexivity).
    rewrite firstn_app, firstn_all, Nat.sub_diag. cbn [firstn red_of]. rewrite app_nil_r. reflexivity. }
  intros loc. unfold root, definition. rewrite E, Hk, L. destruct (resolve uri (text_in off (off + n))) as [u|].
  - split; [intros [<- | []]; now exists u | intros (u' & E' & ->); injection E' as ->; now left].
  - split; [contradiction | intros (u' & E' & _); discriminate].
Qed.
Print Assumptions definition_module.
(** Inside a node that is no reference, it answers with nothing. *)
Theorem definition_elsewhere : forall is_reference text_in resolve t uri k0 n0 before k n ch after start,
  let root := GNode k0 n0 (before ++ GNode k n ch :: after) in
  let off := list_sum (map width before) in
  built root -> is_reference k = false -> off <= start < off + n -> definition is_reference text_in resolve t uri root start = [].
Proof.
  intros is_reference text_in resolve t uri k0 n0 before k n ch after start root off Hb Hk Hs.
  assert (Hlen := node_len _ _ _ Hb). destruct (built_node _ _ _ Hb) as [Hf _].
  assert (Hn : width (GNode k n ch) = n).
  { apply Forall_app in Hf. destruct Hf as [_ Hf]. inversion Hf; subst. rewrite <- (glen_width _ H1). reflexivity. }
  assert (E : child_at_offset n0 (before ++ GNode k n ch :: after) 0 start = Some (RNode k n ch off)).
  { unfold child_at_offset, child_index_at_offset. rewrite Hlen, map_app, list_sum_app. cbn [map]. rewrite list_sum_cons, Hn. fold off.
    replace ((start <? 0) || (0 + (off + (n + list_sum (map width after))) <=? start)) with false by (symmetry; apply orb_false_iff; lia).
    rewrite index_loop_at by (try assumption; rewrite Hn; fold off; lia). cbn [Nat.add].
    rewrite (child_at_some _ 0 (length before) (GNode k n ch)) by (try assumption; rewrite nth_error_app2, Nat.sub_diag by lia; reflexivity).
    rewrite firstn_app, firstn_all, Nat.sub_diag. cbn [firstn red_of]. rewrite app_nil_r. reflexivity. }
  unfold root, definition. now rewrite E, Hk.
Qed.
Print Assumptions definition_elsewhere.
Example definition_module_case : definition (fun k => k =? 7) (fun a b => substr (lit "x y") a b) (fun base name => if str_eqb name (lit "y") then Some (lit "y.scm") else None) table_new (lit "a")
    (GNode 0 3 [GNode 7 1 [GLeaf 1 1 None]; GLeaf 2 1 None; GNode 7 1 [GLeaf 1 1 None]]) 2 = [(lit "y.scm", (0, 0))] /\
  definition (fun k => k =? 7) (fun a b => substr (lit "x y") a b) (fun base name => None) table_new (lit "a")
    (GNode 0 3 [GNode 7 1 [GLeaf 1 1 None]; GLeaf 2 1 None; GNode 7 1 [GLeaf 1 1 None]]) 2 = [].
Proof. split; reflexivity. Qed.
(** A file that cannot be read or parsed has no symbols, whatever the index holds for it. *)
Theorem unparsed_no_symbols : forall h uri l source root, current h uri l -> service_symbols (after_history h) source root uri = if source && root then l else [].
Proof. intros h uri l [|] [|] H; cbn; try reflexivity. eapply current_fun; [apply files_current | assumption]. Qed.
Print Assumptions unparsed_no_symbols.
