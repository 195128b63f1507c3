(** Model of text edits on flat sources.
    Source: projects/oak-core/src/source/mod.rs:73-78 and
    projects/oak-core/src/source/text.rs:65-125. *)
From Verif Require Import Base Utf8.

(** mod.rs:73-78 [TextEdit { span, text }]. *)
Record edit := Edit { e_start : nat; e_end : nat; e_text : str }.

(** text.rs:71-72 [order.sort_by_key(|&i| edits[i].span.start)].
    std's [sort_by_key] is a stable sort, whose result is unique; it is
    modelled by insertion sort, and the index vector by the edits themselves. *)
Fixpoint insert_edit (x : edit) (l : list edit) : list edit :=
  match l with
  | [] => [x]
  | y :: l' => if e_start x <=? e_start y then x :: y :: l' else y :: insert_edit x l'
  end.

Fixpoint sort_edits (l : list edit) : list edit :=
  match l with
  | [] => []
  | x :: l' => insert_edit x (sort_edits l')
  end.

(** Rust's [isize as usize] cast on a 64-bit target. *)
Definition as_usize (z : Z) : Z := if (z <? 0)%Z then (z + 2 ^ 64)%Z else z.

(** text.rs:74-85: the range loop. State: (reparse_from, reparse_to, delta). *)
Definition range_step (st : nat * Z * Z) (e : edit) : nat * Z * Z :=
  let '(from, to, delta) := st in
  let from' := Nat.min from (e_start e) in
  let start_new := as_usize (Z.of_nat (e_start e) + delta) in
  let end_new := (start_new + Z.of_nat (length (e_text e)))%Z in
  let to' := Z.max to end_new in
  let delta' := (delta + (Z.of_nat (length (e_text e))
                          - Z.of_nat (e_end e - e_start e)))%Z in
  (from', to', delta').

(** text.rs:87-91: [for &i in order.iter().rev() { raw.replace_range(..) }];
    [None] is a panic of [String::replace_range]. *)
Definition replace_all_rev (s : str) (sorted : list edit) : option str :=
  fold_right (fun e acc =>
      match acc with
      | None => None
      | Some r => replace_range r (e_start e) (e_end e) (e_text e)
      end) (Some s) sorted.

(** text.rs:65-95 [SourceText::apply_edits_range]: new text and returned range. *)
Definition apply_edits_range (s : str) (es : list edit) : option (str * (nat * Z)) :=
  match es with
  | [] => Some (s, (length s, Z.of_nat (length s)))
  | _ =>
      let sorted := sort_edits es in
      let '(from, to, _) := fold_left range_step sorted (length s, 0%Z, 0%Z) in
      match replace_all_rev s sorted with
      | None => None
      | Some s' => Some (s', (from, to))
      end
  end.

(** text.rs:123-125 [SourceText::apply_edits]. *)
Definition apply_edits (s : str) (es : list edit) : option (str * nat) :=
  match apply_edits_range s es with
  | Some (s', (from, _)) => Some (s', from)
  | None => None
  end.
