(** A line editor on characters, and what it must show. *)
From Verif Require Import Base Utf8 ReplModel.

(** Finished lines, and the characters before and after the cursor in the last line. *)
Record editor := Editor { ed_done : list (list Z); ed_before : list Z; ed_after : list Z }.

Definition blank : editor := Editor [] [] [].

(** All lines, each but the last followed by a line feed. *)
Definition ed_text (e : editor) : list Z := flat_map (fun l => l ++ [10%Z]) (ed_done e) ++ ed_before e ++ ed_after e.

Definition type_char (e : editor) (c : Z) : editor := Editor (ed_done e) (ed_before e ++ [c]) (ed_after e).

(** Deletes the character before the cursor; at the beginning of a line, joins it to the line before. *)
Inductive rubs_out : editor -> editor -> Prop :=
| RubChar d b c a : rubs_out (Editor d (b ++ [c]) a) (Editor d b a)
| RubLine d l a : rubs_out (Editor (d ++ [l]) [] a) (Editor d l a)
| RubNone a : rubs_out (Editor [] [] a) (Editor [] [] a).

Inductive goes_left : editor -> editor -> Prop :=
| LeftChar d b c a : goes_left (Editor d (b ++ [c]) a) (Editor d b (c :: a))
| LeftNone d a : goes_left (Editor d [] a) (Editor d [] a).

Inductive goes_right : editor -> editor -> Prop :=
| RightChar d b c a : goes_right (Editor d b (c :: a)) (Editor d (b ++ [c]) a)
| RightNone d b : goes_right (Editor d b []) (Editor d b []).

(** One key: handler state and editor before, after; the code handed over; whether the session goes on. *)
Inductive reacts {S} (h : handler S) : S -> editor -> key -> S -> editor -> list (list Z) -> bool -> Prop :=
| ReChar s e c : reacts h s e (KChar c) s (type_char e c) [] true
| ReCtrl s e c : c <> 99%Z -> c <> 100%Z -> reacts h s e (KCtrl c) s (type_char e c) [] true
| ReInterrupt s e : reacts h s e (KCtrl 99) s blank [] true
| ReEof s : reacts h s blank (KCtrl 100) s blank [] false
| ReNoEof s e : e <> blank -> reacts h s e (KCtrl 100) s e [] true
| ReSubmit s e s' : hd_complete h s (encode (ed_text e)) = true -> hd_handle h s (encode (ed_text e)) = (s', false) ->
    reacts h s e KEnter s' blank [ed_text e] true
| ReLeave s e s' : hd_complete h s (encode (ed_text e)) = true -> hd_handle h s (encode (ed_text e)) = (s', true) ->
    reacts h s e KEnter s' e [ed_text e] false
| ReContinue s e : hd_complete h s (encode (ed_text e)) = false ->
    reacts h s e KEnter s (Editor (ed_done e ++ [ed_before e ++ ed_after e]) (repeat 32%Z (hd_indent h s (encode (ed_text e)))) []) [] true
| ReBack s e e' : rubs_out e e' -> reacts h s e KBackspace s e' [] true
| ReLeft s e e' : goes_left e e' -> reacts h s e KLeft s e' [] true
| ReRight s e e' : goes_right e e' -> reacts h s e KRight s e' [] true
| ReOther s e : reacts h s e KOther s e [] true.

(** A session; [ok] must hold of every key and the editor it meets. *)
Inductive session {S} (h : handler S) (ok : editor -> key -> Prop) : S -> editor -> list key -> S -> editor -> list (list Z) -> bool -> Prop :=
| SeNil s e : session h ok s e [] s e [] true
| SeStop s e k ks s' e' out : ok e k -> reacts h s e k s' e' out false -> session h ok s e (k :: ks) s' e' out false
| SeGo s e k ks s1 e1 out1 s' e' out on : ok e k -> reacts h s e k s1 e1 out1 true -> session h ok s1 e1 ks s' e' out on ->
    session h ok s e (k :: ks) s' e' (out1 ++ out) on.

Definition ascii_only (cs : list Z) : Prop := Forall (fun c => (0 <= c < 128)%Z) cs.

(** Where typing and deleting happen, the characters to the left are ASCII. *)
Definition ascii_left (e : editor) (k : key) : Prop :=
  match k with
  | KChar c => is_scalar c /\ ascii_only (ed_before e)
  | KCtrl c => is_scalar c /\ (c = 99%Z \/ c = 100%Z \/ ascii_only (ed_before e))
  | KBackspace => ascii_only (removelast (ed_before e))
  | _ => True
  end.

Definition ascii_key (k : key) : Prop := match k with KChar c | KCtrl c => (0 <= c < 128)%Z | _ => True end.

(** The buffer holds the text and cursor of the editor. *)
Definition holds (b : buffer) (e : editor) : Prop :=
  bf_lines b = map encode (ed_done e ++ [ed_before e ++ ed_after e]) /\ bf_current b = length (ed_done e) /\ bf_cursor b = length (ed_before e).
