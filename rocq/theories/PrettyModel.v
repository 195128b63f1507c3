(** Model of projects/oak-pretty-print/src/document (mod.rs, printer.rs) and of the parts of config/mod.rs
    they use. *)
From Verif Require Import Base Utf8.

(** document/mod.rs:11-30 *)
Inductive doc :=
| Nil
| Text (s : str)
| Concat (ds : list doc)
| Group (d : doc)
| Indent (d : doc)
| Line
| SoftLine
| SoftLineSpace
| HardLine.

(** document/mod.rs:103-115 [Document::join] *)
Fixpoint join_from (i : nat) (docs : list doc) (separator : doc) : list doc :=
  match docs with
  | [] => []
  | d :: r => (if 0 <? i then [separator] else []) ++ d :: join_from (S i) r separator
  end.
Definition join (docs : list doc) (separator : doc) : doc := Concat (join_from 0 docs separator).

(** config/mod.rs:20-28 *)
Inductive line_ending := Unix | Windows | Auto.

(** config/mod.rs:5-10 *)
Inductive indent_style := Spaces (n : nat) | Tabs.

(** config/mod.rs:39-62; the fields the printer reads *)
Record config := Config {
  indent_text : str;
  line_end : line_ending;
  max_width : nat;
  insert_final_newline : bool;
  trim_trailing_whitespace : bool;
  indent_size : nat }.

(** config/mod.rs:91-100 [with_indent_style]; the same match at 66-70 *)
Definition with_indent_style (c : config) (s : indent_style) : config :=
  let '(t, n) := match s with Spaces count => (repeat 32%Z count, count) | Tabs => ([9%Z], 4) end in
  Config t (line_end c) (max_width c) (insert_final_newline c) (trim_trailing_whitespace c) n.

(** config/mod.rs:64-85 [default] *)
Definition default_config : config := Config (repeat 32%Z 4) Auto 100 true true 4.

(** config/mod.rs:115-127 [line_ending_string]; [Auto] as on systems other than Windows *)
Definition line_ending_string (c : config) : str :=
  match line_end c with Unix => [10%Z] | Windows => [13%Z; 10%Z] | Auto => [10%Z] end.

(** printer.rs:5-10, without the configuration *)
Record printer := Printer { output : str; indent_level : nat; column : nat }.

(** The trimming of printer.rs:27 and 86-88: both drop the longest suffix of spaces and tabs. *)
Fixpoint drop_blanks (rev_out : str) : str :=
  match rev_out with
  | c :: r => if ((c =? 32) || (c =? 9))%Z then drop_blanks r else rev_out
  | [] => []
  end.
Definition trim_end_blanks (s : str) : str := rev (drop_blanks (rev s)).

(** [str::ends_with('\n')] *)
Definition ends_with_lf (s : str) : bool :=
  match rev s with c :: _ => (c =? 10)%Z | [] => false end.

Definition is_empty (s : str) : bool := match s with [] => true | _ => false end.

Section Printing.
  Variable cfg : config.

  (** printer.rs:25-32 [finalize] *)
  Definition finalize (out : str) : str :=
    let out := if trim_trailing_whitespace cfg then trim_end_blanks out else out in
    if insert_final_newline cfg && negb (is_empty out) && negb (ends_with_lf out)
    then out ++ line_ending_string cfg else out.

  (** printer.rs:95-99 [write_indent] *)
  Fixpoint write_indent (n : nat) (out : str) : str :=
    match n with O => out | S n' => write_indent n' (out ++ indent_text cfg) end.

  (** printer.rs:84-93 [newline] *)
  Definition newline (p : printer) : printer :=
    let out := if trim_trailing_whitespace cfg then trim_end_blanks (output p) else output p in
    let out := out ++ line_ending_string cfg in
    Printer (write_indent (indent_level p) out) (indent_level p) (indent_level p * indent_size cfg).

  (** printer.rs:107-144 [check_width]: the result and the updated [width] *)
  Fixpoint check_width (d : doc) (width : nat) {struct d} : bool * nat :=
    if max_width cfg <? width then (true, width)
    else
      match d with
      | Nil => (false, width)
      | Text s => (max_width cfg <? width + length s, width + length s)
      | Concat ds =>
          (fix go (ds : list doc) (width : nat) : bool * nat :=
             match ds with
             | [] => (false, width)
             | d :: r => let '(b, w) := check_width d width in if b then (true, w) else go r w
             end) ds width
      | Group d => check_width d width
      | Indent d => check_width d width
      | Line => (max_width cfg <? width + 1, width + 1)
      | SoftLine => (false, width)
      | SoftLineSpace => (max_width cfg <? width + 1, width + 1)
      | HardLine => (true, width)
      end.

  (** printer.rs:102-105 [will_break] *)
  Definition will_break (p : printer) (d : doc) : bool := fst (check_width d (column p)).

  Definition space (p : printer) : printer := Printer (output p ++ [32%Z]) (indent_level p) (column p + 1).

  (** printer.rs:34-82 [render] *)
  Fixpoint render (d : doc) (is_broken : bool) (p : printer) {struct d} : printer :=
    match d with
    | Nil => p
    | Text s => Printer (output p ++ s) (indent_level p) (column p + length s)
    | Concat ds =>
        (fix go (ds : list doc) (p : printer) : printer :=
           match ds with [] => p | d :: r => go r (render d is_broken p) end) ds p
    | Group d => render d (will_break p d) p
    | Indent d =>
        let p := render d is_broken (Printer (output p) (indent_level p + 1) (column p)) in
        Printer (output p) (indent_level p - 1) (column p)
    | Line => if is_broken then newline p else space p
    | SoftLine => if is_broken then newline p else p
    | SoftLineSpace => if is_broken then newline p else space p
    | HardLine => newline p
    end.

  (** printer.rs:14-23 [new], [print]; document/mod.rs:80-82 [Document::render] *)
  Definition print (d : doc) : str := finalize (output (render d false (Printer [] 0 0))).
End Printing.
