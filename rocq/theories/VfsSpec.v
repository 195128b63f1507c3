(** Specification of the virtual file systems. *)
From Verif Require Import Base Utf8 VfsModel.

Inductive vop := Write (uri content : str) | Remove (uri : str).
Definition apply_op (v : memory_vfs) (op : vop) : memory_vfs :=
  match op with Write u c => write_file v 0 u c | Remove u => remove_file v u end.
Definition after_ops (ops : list vop) : memory_vfs := fold_left apply_op ops vfs_new.

(** What a path holds after a history, latest operation first. *)
Fixpoint holds (newest_first : list vop) (uri : str) : option str :=
  match newest_first with
  | [] => None
  | Write u c :: older => if list_eq_dec Z.eq_dec u uri then Some c else holds older uri
  | Remove u :: older => if list_eq_dec Z.eq_dec u uri then None else holds older uri
  end.

Definition target (op : vop) : str := match op with Write u _ => u | Remove u => u end.

(** A tree of files as seen through a listing, and its files. *)
Inductive ftree := FFile (uri : str) | FDir (uri : str) (kids : list ftree) | FOther (uri : str).
Definition uri_of (t : ftree) : str := match t with FFile u => u | FDir u _ => u | FOther u => u end.
Inductive shape (l : listing) : ftree -> Prop :=
| ShFile u : ls_type l u = Some TyFile -> shape l (FFile u)
| ShDir u kids : ls_type l u = Some TyDirectory -> ls_read_dir l u = Some (map uri_of kids) ->
    (forall k, In k kids -> shape l k) -> shape l (FDir u kids)
| ShOther u : ls_type l u <> Some TyFile -> (ls_type l u = Some TyDirectory -> ls_read_dir l u = None) ->
    shape l (FOther u).
Fixpoint files_of (t : ftree) : list str :=
  match t with FFile u => [u] | FDir _ kids => flat_map files_of kids | FOther _ => [] end.

(** How many files a history creates. *)
Fixpoint creations (newest_first : list vop) : N :=
  match newest_first with
  | [] => 0
  | Write u _ :: older => match holds older u with None => 1 | Some _ => 0 end + creations older
  | Remove _ :: older => creations older
  end.
