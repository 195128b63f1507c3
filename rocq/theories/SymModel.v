(** Model of projects/oak-resolver/src/lib.rs ([GlobalSymbolTable]), oak-symbols/src/lib.rs,
    oak-navigation/src/lib.rs, oak-lsp/src/workspace.rs ([find_root]) and the definition and document symbol
    methods of oak-lsp/src/service.rs. *)
From Verif Require Import Base Utf8 VfsModel TreeModel.

(** oak-symbols/src/lib.rs:18-31 [SymbolInformation]; the role is always [Definition] here and is left out *)
Record symbol := Symbol { sy_name : str; sy_uri : str; sy_range : nat * nat; sy_container : option str }.

(** oak-resolver/src/lib.rs:67-72 *)
Record symbol_table := SymbolTable {
  st_files : list (str * list symbol);
  st_qualified : list (str * symbol) }.

(** lib.rs:76-78 *)
Definition table_new : symbol_table := SymbolTable [] [].

(** lib.rs:98-103 [make_qualified_name] *)
Definition qualified_name (s : symbol) : str :=
  match sy_container s with
  | Some c => c ++ [58%Z; 58%Z] ++ sy_name s
  | None => sy_name s
  end.

(** lib.rs:81-96 [update_file_symbols]; calls do not interleave *)
Definition update_file_symbols (t : symbol_table) (uri : str) (symbols : list symbol) : symbol_table :=
  let q := match mget str_eqb (st_files t) uri with
           | Some old => fold_left (fun q s => mremove str_eqb q (qualified_name s)) old (st_qualified t)
           | None => st_qualified t
           end in
  let q := fold_left (fun q s => minsert str_eqb q (qualified_name s) s) symbols q in
  SymbolTable (minsert str_eqb (st_files t) uri symbols) q.

(** lib.rs:106-108 *)
Definition lookup (t : symbol_table) (fqn : str) : option symbol := mget str_eqb (st_qualified t) fqn.

(** lib.rs:111-113 *)
Definition query_file (t : symbol_table) (uri : str) : list symbol :=
  match mget str_eqb (st_files t) uri with Some s => s | None => [] end.

(** [str::contains] *)
Fixpoint starts_with (s p : str) : bool :=
  match p, s with
  | [], _ => true
  | a :: p', b :: s' => (a =? b)%Z && starts_with s' p'
  | _, [] => false
  end.
Fixpoint contains (s p : str) : bool :=
  starts_with s p || match s with [] => false | _ :: s' => contains s' p end.

(** lib.rs:116-118 [query]; in the iteration order of the map *)
Definition query (t : symbol_table) (q : str) : list symbol :=
  map snd (filter (fun e => contains (fst e) q) (st_qualified t)).

(** oak-symbols/src/lib.rs:68-114 *)
Section Symbols.
  Variables (is_definition : nat -> bool) (is_name : nat -> bool) (debug_kind : nat -> str).
  (** [get_text_in] of the source *)
  Variable text_in : nat -> nat -> str.
  Variable uri : str.

  (** lib.rs:73-85: the text of the first direct leaf that is a name *)
  Fixpoint first_name (ch : list green) (off : nat) : option str :=
    match ch with
    | [] => None
    | c :: r =>
        match c with
        | GLeaf k n _ => if is_name k then Some (text_in off (off + n)) else first_name r (off + n)
        | GNode _ n _ => first_name r (off + n)
        end
    end.

  (** lib.rs:68-106 [collect_symbols] *)
  Fixpoint collect_symbols (t : green) (off : nat) (container : option str) {struct t} : list symbol :=
    match t with
    | GLeaf _ _ _ => []
    | GNode k n ch =>
        if is_definition k then
          let name := match first_name ch off with Some s => s | None => [60%Z] ++ debug_kind k ++ [62%Z] end in
          Symbol name uri (off, off + n) container ::
          (fix go (ch : list green) (off : nat) : list symbol :=
             match ch with
             | [] => []
             | c :: r => collect_symbols c off (Some name) ++ go r (off + glen c)
             end) ch off
        else
          (fix go (ch : list green) (off : nat) : list symbol :=
             match ch with
             | [] => []
             | c :: r => collect_symbols c off container ++ go r (off + glen c)
             end) ch off
    end.

  (** lib.rs:109-114 [document_symbols]; the root is at 0 *)
  Definition document_symbols (root : green) : list symbol := collect_symbols root 0 None.
End Symbols.

(** oak-navigation/src/lib.rs:55-75: [find], [visit_node], [visit_token] (the uri is left out); [None]: slicing the source
    panics *)
Section References.
  Variables (is_name : nat -> bool) (name source : str).

  Definition visit_token (refs : option (list (nat * nat))) (r : red) : option (list (nat * nat)) :=
    match refs, r with
    | Some l, RLeaf k a b =>
        if is_name k then
          match str_get source a b with
          | Some text => if str_eqb text name then Some (l ++ [(a, b)]) else Some l
          | None => None
          end
        else Some l
    | refs, _ => refs
    end.

  (** the elements come in the order of [walk_node] (visitor/mod.rs:19-26, TreeModel.visit); [None] also when the
      tree is deeper than [fuel] *)
  Definition find_references (fuel : nat) (root : green) : option (list (nat * nat)) :=
    match visit fuel (red_of root 0) with
    | Some els => fold_left visit_token els (Some [])
    | None => None
    end.
End References.

(** ** Workspace folders (oak-lsp/src/workspace.rs) *)

(** [Path::components] of an absolute path as a string: the parts between slashes, without empty ones and
    [.] (which [Components] skips) *)
Fixpoint split_slash (s cur : str) : list str :=
  match s with
  | [] => [cur]
  | c :: r => if (c =? 47)%Z then cur :: split_slash r [] else split_slash r (cur ++ [c])
  end.
Definition components (p : str) : list str :=
  filter (fun c => negb (str_eqb c []) && negb (str_eqb c [46%Z])) (split_slash p []).

Fixpoint comps_prefix (a b : list str) : bool :=
  match a, b with
  | [], _ => true
  | x :: a', y :: b' => str_eqb x y && comps_prefix a' b'
  | _, [] => false
  end.
(** [Path::starts_with] *)
Definition path_starts_with (path base : str) : bool := comps_prefix (components base) (components path).

(** workspace.rs:77-94 [find_root]; [to_path] is [Url::parse] followed by [to_file_path]; [folders] in the
    iteration order of the map *)
Section FindRoot.
  Variable to_path : str -> option str.

  Definition root_step (path : str) (best : option (str * nat)) (entry : str * str) : option (str * nat) :=
    if path_starts_with path (snd entry) then
      let len := length (snd entry) in
      match best with
      | Some (_, best_len) => if best_len <? len then Some (fst entry, len) else best
      | None => Some (fst entry, len)
      end
    else best.

  Definition find_root (folders : list (str * str)) (uri : str) : option str :=
    match to_path uri with
    | None => None
    | Some path => option_map fst (fold_left (root_step path) folders None)
    end.

  (** workspace.rs:97-99 *)
  Definition is_within_workspace (folders : list (str * str)) (uri : str) : bool :=
    match find_root folders uri with Some _ => true | None => false end.

  (** workspace.rs:48-54, 57-59 *)
  Definition add_folder (folders : list (str * str)) (uri : str) : list (str * str) :=
    match to_path uri with Some p => minsert str_eqb folders uri p | None => folders end.
  Definition remove_folder (folders : list (str * str)) (uri : str) : list (str * str) := mremove str_eqb folders uri.
End FindRoot.

(** ** Module resolution (oak-resolver/src/lib.rs:20-65 and workspace.rs:24-45) *)
Section Resolve.
  (** [to_path]: [Url::parse] and [to_file_path]; [of_path]: [Url::from_file_path]; [parent], [join]: the methods of
      [Path]; [exists_]: the file system *)
  Variables (to_path of_path parent : str -> option str) (join : str -> str -> str) (exists_ : str -> bool).

  (** lib.rs:55-63 *)
  Fixpoint resolve_roots (roots : list str) (import : str) : option str :=
    match roots with
    | [] => None
    | r :: rs => if exists_ (join r import) then of_path (join r import) else resolve_roots rs import
    end.

  (** lib.rs:41-64; a poisoned lock is left out *)
  Definition resolve (roots : list str) (base_uri import : str) : option str :=
    match to_path base_uri with
    | Some base_path =>
        match parent base_path with
        | None => None
        | Some dir => if exists_ (join dir import) then of_path (join dir import) else resolve_roots roots import
        end
    | None => resolve_roots roots import
    end.

  (** workspace.rs:8-15 without the symbols *)
  Record workspace := Workspace { ws_folders : list (str * str); ws_roots : list str }.
  Definition ws_new : workspace := Workspace [] [].
  Definition ws_open (fr : list (str * str) * list str) (uri : str) : list (str * str) * list str :=
    match to_path uri with
    | Some p => (minsert str_eqb (fst fr) uri p, snd fr ++ [p])
    | None => fr
    end.
  (** workspace.rs:24-45 [initialize]: the root uri, then the folders *)
  Definition ws_initialize (w : workspace) (root : option str) (folders : list str) : workspace :=
    let fr := match root with Some u => ws_open (ws_folders w, []) u | None => (ws_folders w, []) end in
    let fr := fold_left ws_open folders fr in
    Workspace (fst fr) (snd fr).
  (** workspace.rs:48-59 *)
  Definition ws_add_folder (w : workspace) (uri : str) : workspace :=
    Workspace (add_folder to_path (ws_folders w) uri) (ws_roots w).
  Definition ws_remove_folder (w : workspace) (uri : str) : workspace :=
    Workspace (remove_folder (ws_folders w) uri) (ws_roots w).
End Resolve.

(** ** Service methods (oak-lsp/src/service.rs) *)

(** service.rs:157-199 [definition]: locations as (uri, range); [text_in] is the source of the file, [resolve]
    the module resolver *)
Section Definition_.
  Variables (is_reference : nat -> bool) (text_in : nat -> nat -> str) (resolve : str -> str -> option str).
  Definition definition (t : symbol_table) (uri : str) (root : green) (start : nat) : list (str * (nat * nat)) :=
    match root with
    | GLeaf _ _ _ => []
    | GNode k0 n0 ch0 =>
        let at_node (k a b : nat) :=
          if is_reference k then
            let name := text_in a b in
            match lookup t name with
            | Some s => [(sy_uri s, sy_range s)]
            | None => match resolve uri name with Some u => [(u, (0, 0))] | None => [] end
            end
          else [] in
        match child_at_offset n0 ch0 0 start with
        | Some (RLeaf _ a b) => [(uri, (a, b))]
        | Some (RNode k n _ off) => at_node k off (off + n)
        | None => at_node k0 0 n0
        end
    end.
End Definition_.

(** service.rs:100-116 [document_symbols] of the service: [has_source], [has_root] tell whether the file can be
    read and parsed *)
Definition service_symbols (t : symbol_table) (has_source has_root : bool) (uri : str) : list symbol :=
  if has_source then if has_root then query_file t uri else [] else [].
