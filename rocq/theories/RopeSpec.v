(** What a chunked source denotes. *)
From Verif Require Import Base Utf8 EditModel EditSpec RopeModel.

(** The flat text behind a chunked source. *)
Definition text_of (r : chunked) : str := concat (ck_chunks r).

(** Well-formed chunking: non-empty well-formed pieces, exact offset table. *)
Definition wf_chunked (r : chunked) : Prop :=
  Forall (fun c => c <> [] /\ valid c) (ck_chunks r) /\
  length (ck_starts r) = length (ck_chunks r) /\
  (forall i s, nth_error (ck_starts r) i = Some s ->
     s = length (concat (firstn i (ck_chunks r)))) /\
  ck_len r = length (text_of r).

(** Specification of an editing history on a flat string: the batches are applied
    one after the other, each simultaneously. [None]: some batch is illegal. *)
Fixpoint flat_history (s : str) (batches : list (list edit)) : option (str * list (nat * Z)) :=
  match batches with
  | [] => Some (s, [])
  | es :: rest =>
      match apply_edits_range s es with
      | None => None
      | Some (s', rg) =>
          match flat_history s' rest with
          | None => None
          | Some (s'', rgs) => Some (s'', rg :: rgs)
          end
      end
  end.

(** The same history on a rope. *)
Fixpoint rope_history (csz : nat) (r : chunked) (batches : list (list edit))
  : option (chunked * list (nat * Z)) :=
  match batches with
  | [] => Some (r, [])
  | es :: rest =>
      match rope_apply csz r es with
      | None => None
      | Some (r', rg) =>
          match rope_history csz r' rest with
          | None => None
          | Some (r'', rgs) => Some (r'', rg :: rgs)
          end
      end
  end.

(** Appended text of a streaming history, and the texts at snapshot time. *)
Fixpoint pushed (ops : list stream_op) : str :=
  match ops with
  | [] => []
  | Push t :: r => t ++ pushed r
  | Snapshot :: r => pushed r
  end.

Fixpoint snapshot_texts (sofar : str) (ops : list stream_op) : list str :=
  match ops with
  | [] => []
  | Push t :: r => snapshot_texts (sofar ++ t) r
  | Snapshot :: r => sofar :: snapshot_texts sofar r
  end.

Definition ops_valid (ops : list stream_op) : Prop :=
  Forall (fun op => match op with Push t => valid t | Snapshot => True end) ops.
