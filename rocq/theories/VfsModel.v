(** Model of projects/oak-vfs/src/vfs/memory.rs, of the identity tables of vfs/disk.rs and of
    [list_all_files] in projects/oak-lsp/src/service.rs. *)
From Verif Require Import Base Utf8.

Fixpoint str_eqb (a b : str) : bool :=
  match a, b with
  | [], [] => true
  | x :: a', y :: b' => (x =? y)%Z && str_eqb a' b'
  | _, _ => false
  end.

(** [HashMap]: an association list; [insert] replaces, [remove] deletes.  The order stands for the unspecified
    iteration order. *)
Section Maps.
  Context {K V : Type} (eqb : K -> K -> bool).
  Fixpoint mget (m : list (K * V)) (k : K) : option V :=
    match m with [] => None | (k', v) :: r => if eqb k' k then Some v else mget r k end.
  Definition mremove (m : list (K * V)) (k : K) : list (K * V) := filter (fun p => negb (eqb (fst p) k)) m.
  Definition minsert (m : list (K * V)) (k : K) (v : V) : list (K * V) := (k, v) :: mremove m k.
End Maps.

(** memory.rs:34-38 *)
Record file_entry := FileEntry { fe_content : str; fe_modified : nat; fe_id : N }.

(** memory.rs:17-26; clones (28-32) share all of it *)
Record memory_vfs := MemoryVfs {
  mv_files : list (str * file_entry);
  mv_ids : list (N * str);
  mv_uri_to_id : list (str * N);
  mv_next_id : N }.

Definition vfs_new : memory_vfs := MemoryVfs [] [] [] 0.

(** memory.rs:47-64.  The three write locks are held together from start to end (49-51), always taken in the
    same order, so calls are atomic; [now] is the clock. *)
Definition write_file (v : memory_vfs) (now : nat) (uri content : str) : memory_vfs :=
  match mget str_eqb (mv_uri_to_id v) uri with
  | Some id => MemoryVfs (minsert str_eqb (mv_files v) uri (FileEntry content now id)) (mv_ids v)
                 (mv_uri_to_id v) (mv_next_id v)
  | None =>
      let id := mv_next_id v in
      MemoryVfs (minsert str_eqb (mv_files v) uri (FileEntry content now id))
        (minsert N.eqb (mv_ids v) id uri) (minsert str_eqb (mv_uri_to_id v) uri id)
        ((id + 1) mod 4294967296)%N
  end.

(** memory.rs:67-76 *)
Definition remove_file (v : memory_vfs) (uri : str) : memory_vfs :=
  match mget str_eqb (mv_files v) uri with
  | Some e => MemoryVfs (mremove str_eqb (mv_files v) uri) (mremove N.eqb (mv_ids v) (fe_id e))
                (mremove str_eqb (mv_uri_to_id v) uri) (mv_next_id v)
  | None => v
  end.

(** memory.rs:96-130: text and id of the source; the rest *)
Definition get_source (v : memory_vfs) (uri : str) : option (str * N) :=
  option_map (fun e => (fe_content e, fe_id e)) (mget str_eqb (mv_files v) uri).
Definition get_uri (v : memory_vfs) (id : N) : option str := mget N.eqb (mv_ids v) id.
Definition get_id (v : memory_vfs) (uri : str) : option N := mget str_eqb (mv_uri_to_id v) uri.
Definition exists_file (v : memory_vfs) (uri : str) : bool :=
  match mget str_eqb (mv_files v) uri with Some _ => true | None => false end.

(** lib.rs:24-33 [FileType], memory.rs:119-122: always a file *)
Inductive file_type := TyFile | TyDirectory | TyOther.
Definition metadata (v : memory_vfs) (uri : str) : option (file_type * nat) :=
  option_map (fun e => (TyFile, length (fe_content e))) (mget str_eqb (mv_files v) uri).
(** memory.rs:125-130 *)
Definition read_dir (v : memory_vfs) (uri : str) : option (list str) := Some (map fst (mv_files v)).

(** A file system as [list_all_files] sees it (lib.rs:94-108). *)
Record listing := Listing { ls_type : str -> option file_type; ls_read_dir : str -> option (list str) }.
Definition is_file (l : listing) (uri : str) : bool := match ls_type l uri with Some TyFile => true | _ => false end.
Definition is_dir (l : listing) (uri : str) : bool := match ls_type l uri with Some TyDirectory => true | _ => false end.

Definition memory_listing (v : memory_vfs) : listing :=
  Listing (fun uri => option_map fst (metadata v uri)) (read_dir v).

(** oak-lsp/src/service.rs:130-148; the head of the stack list is the end of the [Vec]; [extend] pushes the
    entries in order; [None]: out of fuel *)
Fixpoint list_loop (fuel : nat) (l : listing) (stack : list str) : option (list str) :=
  match fuel with
  | O => None
  | S f =>
      match stack with
      | [] => Some []
      | uri :: rest =>
          if is_file l uri then option_map (cons uri) (list_loop f l rest)
          else if is_dir l uri then
            match ls_read_dir l uri with
            | Some entries => list_loop f l (rev entries ++ rest)
            | None => list_loop f l rest
            end
          else list_loop f l rest
      end
  end.
Definition list_all_files (fuel : nat) (l : listing) (root : str) : option (list str) := list_loop fuel l [root].

(** disk.rs: the identity tables are created empty (21) and read (48-58); nothing in the file writes them, in
    particular [get_source] (41-45) and [write_file] (102-109) do not. *)
Record disk_vfs := DiskVfs { dv_files : list (str * str); dv_uri_to_id : list (str * N); dv_id_to_uri : list (N * str) }.
Definition disk_new (files : list (str * str)) : disk_vfs := DiskVfs files [] [].
Definition disk_write (v : disk_vfs) (uri content : str) : disk_vfs :=
  DiskVfs (minsert str_eqb (dv_files v) uri content) (dv_uri_to_id v) (dv_id_to_uri v).
Definition disk_remove (v : disk_vfs) (uri : str) : disk_vfs :=
  DiskVfs (mremove str_eqb (dv_files v) uri) (dv_uri_to_id v) (dv_id_to_uri v).
Definition disk_get_source (v : disk_vfs) (uri : str) : option str := mget str_eqb (dv_files v) uri.
Definition disk_get_id (v : disk_vfs) (uri : str) : option N := mget str_eqb (dv_uri_to_id v) uri.
