(** Model of the disk watcher, projects/oak-vfs/src/vfs/watch.rs.  The library below it (notify) is taken to be the set of the
    watched paths, of which an event is delivered with those of its paths that lie at or below one of them; a path is valid
    Unicode without a slash at the end, so that [to_string_lossy] changes nothing. *)
From Verif Require Import Base Utf8 VfsModel.

(** [notify::EventKind]; a renaming is a modification *)
Inductive ekind := KAny | KAccess | KCreate | KModify | KRemove | KOther.
(** watch.rs:5-12 [VfsEvent] *)
Inductive vevent := Changed (uri : str) | Created (uri : str) | Removed (uri : str).
Record event := { e_kind : ekind; e_paths : list str }.

(** [EventKind::is_modify], [is_create], [is_remove] *)
Definition is_modify (k : ekind) : bool := match k with KModify => true | _ => false end.
Definition is_create (k : ekind) : bool := match k with KCreate => true | _ => false end.
Definition is_remove (k : ekind) : bool := match k with KRemove => true | _ => false end.

(** watch.rs:35-50: the calls of the callback; [None] is an error *)
Definition handle (res : option event) : list vevent :=
  match res with
  | None => []
  | Some e =>
      flat_map (fun uri => if is_modify (e_kind e) then [Changed uri] else if is_create (e_kind e) then [Created uri]
                           else if is_remove (e_kind e) then [Removed uri] else []) (e_paths e)
  end.

(** *** The library: what is watched and what it delivers *)
Fixpoint starts (u p : str) : bool := match u, p with [], _ => true | a :: u', b :: p' => (a =? b)%Z && starts u' p' | _, [] => false end.
Definition at_or_below (u p : str) : bool := str_eqb u p || starts (u ++ lit "/") p.
Definition watches := list str.
Definition delivered (w : watches) (e : event) : event := {| e_kind := e_kind e; e_paths := filter (fun p => existsb (fun u => at_or_below u p) w) (e_paths e) |}.

(** watch.rs:56-58 [watch], recursive; 60-62 [unwatch]: an error if the path is not watched; 64-66 [unwatch_all] *)
Definition watch (u : str) (w : watches) : watches := u :: w.
Definition unwatch (u : str) (w : watches) : watches := filter (fun x => negb (str_eqb x u)) w.
Definition unwatch_all (w : watches) : watches := w.

(** What happens to a watcher *)
Inductive act := Watch (u : str) | Unwatch (u : str) | UnwatchAll | Event (e : event) | Error.
Definition step (a : act) (w : watches) : watches * list vevent :=
  match a with
  | Watch u => (watch u w, [])
  | Unwatch u => (unwatch u w, [])
  | UnwatchAll => (unwatch_all w, [])
  | Event e => (w, handle (Some (delivered w e)))
  | Error => (w, handle None)
  end.
Fixpoint run (acts : list act) (w : watches) : watches * list vevent :=
  match acts with [] => (w, []) | a :: r => let '(w1, o1) := step a w in let '(w2, o2) := run r w1 in (w2, o1 ++ o2) end.
(** The calls of the callback of a new watcher *)
Definition calls (acts : list act) : list vevent := snd (run acts []).
