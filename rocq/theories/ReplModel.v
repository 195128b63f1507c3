(** Model of projects/oak-repl/src/lib.rs: the line buffer and the key loop.
    Terminal output is reduced to what is drawn ([screen]); errors of the terminal are not modelled.  [None] is a panic. *)
From Verif Require Import Base Utf8 HiModel.

(** lib.rs:92-99 [LineBuffer] *)
Record buffer := Buffer { bf_lines : list str; bf_current : nat; bf_cursor : nat }.

(** lib.rs:103-105, 139-143 *)
Definition empty_buffer : buffer := Buffer [[]] 0 0.

Definition set_line (ls : list str) (i : nat) (s : str) : list str := firstn i ls ++ s :: skipn (S i) ls.

(** [String::insert]: panics off a character boundary *)
Definition string_insert (s : str) (i : nat) (c : Z) : option str :=
  if is_boundary s i then Some (firstn i s ++ encode_char c ++ skipn i s) else None.

(** [String::remove]: panics off a character boundary and at the end *)
Definition string_remove (s : str) (i : nat) : option str :=
  if is_boundary s i then
    match decode1 (skipn i s) with Some (_, rest) => Some (firstn i s ++ rest) | None => None end
  else None.

(** lib.rs:108-111 *)
Definition insert (b : buffer) (c : Z) : option buffer :=
  match nth_error (bf_lines b) (bf_current b) with
  | None => None
  | Some line =>
      match string_insert line (bf_cursor b) c with
      | None => None
      | Some line' => Some (Buffer (set_line (bf_lines b) (bf_current b) line') (bf_current b) (bf_cursor b + 1))
      end
  end.

(** lib.rs:114-131 *)
Definition backspace (b : buffer) : option buffer :=
  if 0 <? bf_cursor b then
    match nth_error (bf_lines b) (bf_current b) with
    | None => None
    | Some line =>
        match string_remove line (bf_cursor b - 1) with
        | None => None
        | Some line' => Some (Buffer (set_line (bf_lines b) (bf_current b) line') (bf_current b) (bf_cursor b - 1))
        end
    end
  else if 0 <? bf_current b then
    match nth_error (bf_lines b) (bf_current b) with
    | None => None
    | Some current =>
        let ls := firstn (bf_current b) (bf_lines b) ++ skipn (S (bf_current b)) (bf_lines b) in
        match nth_error ls (bf_current b - 1) with
        | None => None
        | Some prev =>
            Some (Buffer (set_line ls (bf_current b - 1) (prev ++ current)) (bf_current b - 1) (length (chars prev)))
        end
    end
  else Some b.

(** lib.rs:134-136 *)
Definition full_text (b : buffer) : str := join [10%Z] (bf_lines b).

(** lib.rs:146-148 *)
Definition is_empty (b : buffer) : bool :=
  (length (bf_lines b) =? 1) && match bf_lines b with [] :: _ => true | _ => false end.

(** lib.rs:66-89 [ReplHandler], with the handler's own state made explicit; [handle] tells whether to leave *)
Record handler (S : Type) := Handler {
  hd_prompt : S -> bool -> list Z;
  hd_complete : S -> str -> bool;
  hd_indent : S -> str -> nat;
  hd_handle : S -> str -> S * bool }.
Arguments Handler {S}. Arguments hd_prompt {S}. Arguments hd_complete {S}. Arguments hd_indent {S}. Arguments hd_handle {S}.

(** lib.rs:189-253: the key events that matter; [KCtrl] is a character with the control modifier *)
Inductive key := KChar (c : Z) | KCtrl (c : Z) | KEnter | KBackspace | KLeft | KRight | KOther.

Record repl (S : Type) := Repl { rp_state : S; rp_buffer : buffer; rp_cont : bool }.
Arguments Repl {S}. Arguments rp_state {S}. Arguments rp_buffer {S}. Arguments rp_cont {S}.

Fixpoint insert_spaces (n : nat) (b : buffer) : option buffer :=
  match n with
  | 0 => Some b
  | S n' => match insert b 32%Z with Some b' => insert_spaces n' b' | None => None end
  end.

(** What one turn of the loop does: the new state, the code handed to the handler, and whether the loop goes on. *)
Record turn (S : Type) := Turn { tn_repl : repl S; tn_code : list str; tn_on : bool }.
Arguments Turn {S}. Arguments tn_repl {S}. Arguments tn_code {S}. Arguments tn_on {S}.

(** lib.rs:189-253 *)
Definition press {S} (h : handler S) (r : repl S) (k : key) : option (turn S) :=
  let b := rp_buffer r in
  let typed c := match insert b c with Some b' => Some (Turn (Repl (rp_state r) b' (rp_cont r)) [] true) | None => None end in
  match k with
  | KCtrl c =>
      if (c =? 99)%Z then Some (Turn (Repl (rp_state r) empty_buffer false) [] true)
      else if (c =? 100)%Z then Some (Turn r [] (negb (is_empty b)))
      else typed c
  | KChar c => typed c
  | KEnter =>
      let code := full_text b in
      if hd_complete h (rp_state r) code then
        let '(s', leave) := hd_handle h (rp_state r) code in
        if leave then Some (Turn (Repl s' b (rp_cont r)) [code] false)
        else Some (Turn (Repl s' empty_buffer false) [code] true)
      else
        match insert_spaces (hd_indent h (rp_state r) code) (Buffer (bf_lines b ++ [[]]) (bf_current b + 1) 0) with
        | Some b' => Some (Turn (Repl (rp_state r) b' true) [] true)
        | None => None
        end
  | KBackspace => match backspace b with Some b' => Some (Turn (Repl (rp_state r) b' (rp_cont r)) [] true) | None => None end
  | KLeft => Some (Turn (Repl (rp_state r) (if 0 <? bf_cursor b then Buffer (bf_lines b) (bf_current b) (bf_cursor b - 1) else b) (rp_cont r)) [] true)
  | KRight =>
      match nth_error (bf_lines b) (bf_current b) with
      | None => None
      | Some line =>
          Some (Turn (Repl (rp_state r) (if bf_cursor b <? length (chars line) then Buffer (bf_lines b) (bf_current b) (bf_cursor b + 1) else b) (rp_cont r)) [] true)
      end
  | KOther => Some (Turn r [] true)
  end.

(** lib.rs:161-258 [run] on a finite sequence of keys: the last state, all code handed over, whether the loop still runs *)
Fixpoint run {S} (h : handler S) (r : repl S) (ks : list key) : option (turn S) :=
  match ks with
  | [] => Some (Turn r [] true)
  | k :: ks' =>
      match press h r k with
      | None => None
      | Some t =>
          if tn_on t then
            match run h (tn_repl t) ks' with
            | Some t' => Some (Turn (tn_repl t') (tn_code t ++ tn_code t') (tn_on t'))
            | None => None
            end
          else Some t
      end
  end.

(** lib.rs:162-164 *)
Definition start {S} (s : S) : repl S := Repl s empty_buffer false.

(** lib.rs:173-186: prompt, line and cursor column drawn before each key, without highlighting *)
Definition screen {S} (h : handler S) (r : repl S) : option (list Z * list Z * Z) :=
  match nth_error (bf_lines (rp_buffer r)) (bf_current (rp_buffer r)) with
  | None => None
  | Some line =>
      let prompt := hd_prompt h (rp_state r) (rp_cont r) in
      Some (prompt, chars line, (Z.of_nat (length prompt + bf_cursor (rp_buffer r)) mod 2 ^ 16)%Z)
  end.
