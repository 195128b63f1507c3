(** The folders of a workspace as a history of openings and closings. *)
From Verif Require Import Base Utf8.

Inductive folder_event := Opened (uri : str) | Closed (uri : str).
(** A folder is open after those events: it was opened and since then not closed. *)
Definition open_after (es : list folder_event) (u : str) : Prop := exists before after, es = before ++ Opened u :: after /\ ~ In (Closed u) after.
