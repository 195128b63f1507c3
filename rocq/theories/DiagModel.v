(** Model of projects/oak-diagnostic/src/lib.rs: labels of errors, and the plain, console and LSP emitters.

    Outputs are lists of [char]s; sources are UTF-8 bytes read through a [reader] (LineMapModel.v).  [None]: a panic. *)
From Verif Require Import Base Utf8 RopeModel CursorModel LineMapModel HiModel.

(** oak-core/src/errors/mod.rs:108-227: the kinds that matter here, with their offsets; [EOther] stands for
    the kinds without an offset (custom, theme, format, color, semantic, protocol, ... errors) *)
Inductive error_kind :=
| EIo
| ESyntax (offset : nat)
| EUnexpectedCharacter (offset : nat)
| EUnexpectedToken (offset : nat)
| EUnexpectedEof (offset : nat)
| EExpectedToken (offset : nat)
| EExpectedName (offset : nat)
| ETrailingComma (offset : nat)
| EOther.

(** lib.rs:29-37 *)
Record label := Label { lb_message : option (list Z); lb_start : nat; lb_end : nat; lb_color : option (list Z) }.

(** lib.rs:140-141, 145-146, ...: [min(offset, len)] and [min(start + 1, len)] *)
Definition here (len offset : nat) : label :=
  let start := Nat.min offset len in
  let end_ := Nat.min (start + 1) len in
  Label (Some (lit "here")) start end_ None.

(** lib.rs:129-169 [to_diagnostic]: the labels *)
Definition error_labels (len : nat) (k : error_kind) : list label :=
  match k with
  | EIo => []
  | ESyntax o | EUnexpectedCharacter o => [here len o]
  | EUnexpectedToken o => [here len o]
  | EExpectedToken o => [here len o]
  | EExpectedName o => [here len o]
  | ETrailingComma o => [here len o]
  | _ => []
  end.

(** [str::lines]: the pieces ended by a line feed, without [\n] or [\r\n] *)
Definition strip_cr (l : str) : str :=
  match rev l with c :: r => if (c =? 13)%Z then rev r else l | [] => l end.
Fixpoint lines_from (cur : str) (s : str) : list str :=
  match s with
  | [] => match cur with [] => [] | _ => [rev cur] end
  | c :: r => if (c =? 10)%Z then strip_cr (rev cur) :: lines_from [] r else lines_from (c :: cur) r
  end.
Definition lines (s : str) : list str := lines_from [] s.

(** lib.rs:240-258 *)
Record charset := Charset { ch_vbar : Z; ch_hbar : Z; ch_ltop : Z; ch_lbot : Z }.
Definition charset_of (unicode : bool) : charset :=
  if unicode then Charset 9474 9472 9484 9492 else Charset 124 95 47 124.

(** [full_text.get(a..b).unwrap_or("").chars().count()] *)
Definition get_count (full : str) (a b : nat) : nat :=
  match str_get full a b with Some t => length (chars t) | None => 0 end.

(** lib.rs:263-270, 389-396: lines and columns of a label *)
Record place := Place { pl_start_line : nat; pl_end_line : nat; pl_start_col : nat; pl_end_col : nat }.
Definition locate (m : line_map) (r : reader) (full : str) (l : label) : option place :=
  match offset_to_line_col m r (lb_start l), offset_to_line_col m r (lb_end l) with
  | Some (start_line, _), Some (end_line, _) =>
      let sls := match line_start m start_line with Some x => x | None => 0 end in
      let els := match line_start m end_line with Some x => x | None => 0 end in
      Some (Place start_line end_line
              (get_count full sls (Nat.min (lb_start l) (length full)))
              (get_count full els (Nat.min (lb_end l) (length full))))
  | _, _ => None
  end.

(** [format!("{:>width$}")] *)
Definition pad_left (w : nat) (s : list Z) : list Z := repeat 32%Z (w - length s) ++ s.
Definition nl : list Z := [10%Z].

(** lib.rs:413, 289: [^] repeated *)
Definition underline_len (full : str) (l : label) : nat :=
  Nat.max (get_count full (Nat.min (lb_start l) (length full)) (Nat.min (lb_end l) (length full))) 1.

(** lib.rs:399-407: the lines before the snippet *)
Definition location (u : bool) (uri : option (list Z)) (p : place) : list Z :=
  let ch := charset_of u in
  let w := length (dec (pl_end_line p + 1)) in
  lit "  " ++ [ch_ltop ch] ++ lit " at " ++ (match uri with Some x => x | None => lit "<anonymous>" end) ++ lit ":" ++
    dec (pl_start_line p + 1) ++ lit ":" ++ dec (pl_start_col p + 1) ++ nl ++
  repeat 32%Z w ++ lit " " ++ [ch_vbar ch] ++ nl.

(** lib.rs:425-447: one line of a multi-line label *)
Definition multi_line (u : bool) (lns : list str) (l : label) (p : place) (i : nat) : list Z :=
  let ch := charset_of u in
  let w := length (dec (pl_end_line p + 1)) in
  match nth_error lns i with
  | None => []
  | Some line =>
      if i =? pl_start_line p then
        pad_left w (dec (i + 1)) ++ lit " " ++ [ch_vbar ch] ++ lit " " ++ [ch_ltop ch] ++ chars line ++ nl
      else if i =? pl_end_line p then
        pad_left w (dec (i + 1)) ++ lit " " ++ [ch_vbar ch] ++ lit " " ++ [ch_vbar ch] ++ chars line ++ nl ++
        repeat 32%Z w ++ lit " " ++ [ch_vbar ch] ++ lit " " ++ [ch_lbot ch] ++
          repeat (ch_hbar ch) (pl_end_col p) ++ repeat 94%Z (Nat.max (pl_end_col p) 1) ++
          (match lb_message l with Some msg => lit " " ++ msg ++ nl | None => nl end)
      else
        pad_left w (dec (i + 1)) ++ lit " " ++ [ch_vbar ch] ++ lit " " ++ [ch_vbar ch] ++ chars line ++ nl
  end.

(** lib.rs:387-451 [PlainTextEmitter::render_snippet] *)
Definition snippet_plain (u : bool) (m : line_map) (r : reader) (full : str) (l : label) (uri : option (list Z)) : option (list Z) :=
  let ch := charset_of u in
  match locate m r full l with
  | None => None
  | Some p =>
      let w := length (dec (pl_end_line p + 1)) in
      let body :=
        if pl_start_line p =? pl_end_line p then
          match nth_error (lines full) (pl_start_line p) with
          | Some line =>
              pad_left w (dec (pl_start_line p + 1)) ++ lit " " ++ [ch_vbar ch] ++ lit " " ++ chars line ++ nl ++
              repeat 32%Z w ++ lit " " ++ [ch_vbar ch] ++ lit " " ++ repeat 32%Z (pl_start_col p) ++
                repeat 94%Z (underline_len full l) ++
                (match lb_message l with Some msg => lit " " ++ msg ++ nl | None => nl end)
          | None => []
          end
        else flat_map (multi_line u (lines full) l p)
               (seq (pl_start_line p) (S (pl_end_line p) - pl_start_line p)) in
      Some (location u uri p ++ body ++ repeat 32%Z w ++ lit " " ++ [ch_vbar ch] ++ nl)
  end.

(** "\x1b[34m", "\x1b[31;1m", "\x1b[0m" *)
Definition blue : list Z := [27%Z] ++ lit "[34m".
Definition red_bold : list Z := [27%Z] ++ lit "[31;1m".
Definition reset : list Z := [27%Z] ++ lit "[0m".
Definition bar (u : bool) : list Z := blue ++ [ch_vbar (charset_of u)] ++ reset.

(** lib.rs:303-333 *)
Definition multi_line_console (u : bool) (lns : list str) (l : label) (p : place) (i : nat) : list Z :=
  let ch := charset_of u in
  let w := length (dec (pl_end_line p + 1)) in
  let color := match lb_color l with Some c => c | None => red_bold end in
  match nth_error lns i with
  | None => []
  | Some line =>
      if i =? pl_start_line p then
        pad_left w (dec (i + 1)) ++ lit " " ++ bar u ++ lit " " ++ color ++ [ch_ltop ch] ++ reset ++ lit " " ++ chars line ++ nl
      else if i =? pl_end_line p then
        pad_left w (dec (i + 1)) ++ lit " " ++ bar u ++ lit " " ++ color ++ [ch_vbar ch] ++ reset ++ lit " " ++ chars line ++ nl ++
        repeat 32%Z w ++ lit " " ++ bar u ++ lit " " ++ color ++ [ch_lbot ch] ++
          repeat (ch_hbar ch) (pl_end_col p) ++ repeat 94%Z (Nat.max (pl_end_col p) 1) ++
          (match lb_message l with Some msg => lit " " ++ msg ++ reset ++ nl | None => reset ++ nl end)
      else
        pad_left w (dec (i + 1)) ++ lit " " ++ bar u ++ lit " " ++ color ++ [ch_vbar ch] ++ reset ++ lit " " ++ chars line ++ nl
  end.

(** lib.rs:261-337 [ConsoleEmitter::render_snippet] *)
Definition snippet_console (u : bool) (m : line_map) (r : reader) (full : str) (l : label) (uri : option (list Z)) : option (list Z) :=
  let ch := charset_of u in
  match locate m r full l with
  | None => None
  | Some p =>
      let w := length (dec (pl_end_line p + 1)) in
      let color := match lb_color l with Some c => c | None => red_bold end in
      let body :=
        if pl_start_line p =? pl_end_line p then
          match nth_error (lines full) (pl_start_line p) with
          | Some line =>
              pad_left w (dec (pl_start_line p + 1)) ++ lit " " ++ bar u ++ lit " " ++ chars line ++ nl ++
              repeat 32%Z w ++ lit " " ++ bar u ++ lit " " ++ repeat 32%Z (pl_start_col p) ++ color ++
                repeat 94%Z (underline_len full l) ++ reset ++
                (match lb_message l with Some msg => lit " " ++ msg ++ nl | None => nl end)
          | None => []
          end
        else flat_map (multi_line_console u (lines full) l p)
               (seq (pl_start_line p) (S (pl_end_line p) - pl_start_line p)) in
      Some (lit "  " ++ blue ++ [ch_ltop ch] ++ reset ++ lit " at " ++ (match uri with Some x => x | None => lit "<anonymous>" end) ++
              lit ":" ++ dec (pl_start_line p + 1) ++ lit ":" ++ dec (pl_start_col p + 1) ++ nl ++
            repeat 32%Z w ++ lit " " ++ bar u ++ nl ++
            body ++ repeat 32%Z w ++ lit " " ++ bar u ++ nl)
  end.

Inductive severity := SevError | SevWarning | SevAdvice.
Record diagnostic := Diagnostic { dg_code : option (list Z); dg_message : list Z; dg_severity : severity;
                                  dg_labels : list label; dg_help : option (list Z) }.
Definition severity_name (s : severity) : list Z :=
  match s with SevError => lit "error" | SevWarning => lit "warning" | SevAdvice => lit "advice" end.
Definition severity_color (s : severity) : list Z :=
  [27%Z] ++ match s with SevError => lit "[31;1m" | SevWarning => lit "[33;1m" | SevAdvice => lit "[36;1m" end.

Fixpoint cat_options (l : list (option (list Z))) : option (list Z) :=
  match l with
  | [] => Some []
  | Some a :: r => match cat_options r with Some b => Some (a ++ b) | None => None end
  | None :: _ => None
  end.

(** lib.rs:351-384 [PlainTextEmitter::render_localized] without a localizer *)
Definition render_plain (u : bool) (r : reader) (d : diagnostic) (uri : option (list Z)) : option (list Z) :=
  match from_source r with
  | None => None
  | Some m =>
      let full := rd_text_in r 0 (src_len (rd_src r)) in
      let head := lit "[" ++ (match dg_code d with Some c => c | None => severity_name (dg_severity d) end) ++ lit "] " ++ dg_message d ++ nl in
      let help := match dg_help d with Some h => nl ++ lit "help: " ++ h ++ nl | None => [] end in
      match cat_options (map (fun l => snippet_plain u m r full l uri) (dg_labels d)) with
      | Some s => Some (head ++ s ++ help)
      | None => None
      end
  end.

(** lib.rs:201-237 [ConsoleEmitter::render_localized] without a localizer *)
Definition render_console (u : bool) (r : reader) (d : diagnostic) (uri : option (list Z)) : option (list Z) :=
  match from_source r with
  | None => None
  | Some m =>
      let full := rd_text_in r 0 (src_len (rd_src r)) in
      let head := severity_color (dg_severity d) ++ lit "[" ++
        (match dg_code d with Some c => c | None => severity_name (dg_severity d) end) ++ lit "]" ++ reset ++ lit " " ++ dg_message d ++ nl in
      let help := match dg_help d with Some h => nl ++ [27%Z] ++ lit "[36;1mhelp" ++ reset ++ lit ": " ++ h ++ nl | None => [] end in
      match cat_options (map (fun l => snippet_console u m r full l uri) (dg_labels d)) with
      | Some s => Some (head ++ s ++ help)
      | None => None
      end
  end.

(** lib.rs:573-582 [LspEmitter]: the range, from the first label *)
Definition lsp_range (r : reader) (d : diagnostic) : option ((nat * nat) * (nat * nat)) :=
  match from_source r with
  | None => None
  | Some m =>
      match dg_labels d with
      | l :: _ =>
          match offset_to_line_col m r (lb_start l), offset_to_line_col m r (lb_end l) with
          | Some s, Some e => Some (s, e)
          | _, _ => None
          end
      | [] => Some ((0, 0), (0, 0))
      end
  end.
