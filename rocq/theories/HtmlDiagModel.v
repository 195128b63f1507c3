(** Model of projects/oak-diagnostic/src/lib.rs:455-565: the HTML emitter.

    Outputs are lists of [char]s, as in DiagModel.v; [None]: a panic.  Rendering with a localizer is not modelled. *)
From Verif Require Import Base Utf8 RopeModel CursorModel LineMapModel HiModel DiagModel.

(** lib.rs:526-528, 546-548: the message of a label *)
Definition html_label_msg (l : label) : list Z :=
  match lb_message l with
  | Some msg => lit " <span class=""label-msg"">" ++ html_escape_diag msg ++ lit "</span>"
  | None => []
  end.

(** lib.rs:520, 537, 540, 552: [{: >width$}] in its span, and the bar *)
Definition html_number (w i : nat) : list Z :=
  lit "<span class=""line-num"">" ++ pad_left w (dec (i + 1)) ++ lit "</span> <span class=""vbar"">" ++ [9474%Z] ++ lit "</span>".
(** lib.rs:516, 525, 544, 557: the padding in its span, and the bar *)
Definition html_padding (w : nat) : list Z :=
  lit "<span class=""padding"">" ++ repeat 32%Z w ++ lit "</span> <span class=""vbar"">" ++ [9474%Z] ++ lit "</span>".

(** lib.rs:534-554: one line of a multi-line label *)
Definition html_multi_line (lns : list str) (l : label) (p : place) (i : nat) : list Z :=
  let w := length (dec (pl_end_line p + 1)) in
  match nth_error lns i with
  | None => []
  | Some line =>
      if i =? pl_start_line p then
        html_number w i ++ lit " <span class=""multiline"">" ++ [9484%Z] ++ lit "</span>" ++ html_escape_diag (chars line) ++ nl
      else if i =? pl_end_line p then
        html_number w i ++ lit " <span class=""multiline"">" ++ [9474%Z] ++ lit "</span>" ++ html_escape_diag (chars line) ++ nl ++
        html_padding w ++ lit " <span class=""multiline"">" ++ [9492%Z] ++ lit "</span><span class=""underline"">" ++
          repeat 9472%Z (pl_end_col p) ++ lit "</span>" ++
        lit "<span class=""underline"">" ++ repeat 94%Z (Nat.max (pl_end_col p) 1) ++ lit "</span>" ++
        html_label_msg l ++ nl
      else
        html_number w i ++ lit " <span class=""multiline"">" ++ [9474%Z] ++ lit "</span>" ++ html_escape_diag (chars line) ++ nl
  end.

(** lib.rs:496-560 [HtmlEmitter::render_snippet] *)
Definition html_snippet (m : line_map) (r : reader) (full : str) (l : label) (uri : option (list Z)) : option (list Z) :=
  match locate m r full l with
  | None => None
  | Some p =>
      let w := length (dec (pl_end_line p + 1)) in
      let body :=
        if pl_start_line p =? pl_end_line p then
          match nth_error (lines full) (pl_start_line p) with
          | Some line =>
              html_number w (pl_start_line p) ++ lit " " ++ html_escape_diag (chars line) ++ nl ++
              html_padding w ++ lit " <span class=""underline"">" ++ repeat 32%Z (pl_start_col p) ++
                repeat 94%Z (underline_len full l) ++ lit "</span>" ++
              html_label_msg l ++ nl
          | None => []
          end
        else flat_map (html_multi_line (lines full) l p)
               (seq (pl_start_line p) (S (pl_end_line p) - pl_start_line p)) in
      Some (lit "  <div class=""snippet"">" ++ nl ++
            lit "    <div class=""location"">  " ++ [9484%Z] ++ lit " at " ++
              html_escape_diag (match uri with Some x => x | None => lit "<anonymous>" end) ++ lit ":" ++
              dec (pl_start_line p + 1) ++ lit ":" ++ dec (pl_start_col p + 1) ++ lit "</div>" ++ nl ++
            lit "    <pre><code>" ++
            html_padding w ++ nl ++ body ++ html_padding w ++ nl ++
            lit "</code></pre>" ++ nl ++ lit "  </div>" ++ nl)
  end.

(** lib.rs:459-492 [HtmlEmitter::render_localized] without a localizer *)
Definition render_html (r : reader) (d : diagnostic) (uri : option (list Z)) : option (list Z) :=
  match from_source r with
  | None => None
  | Some m =>
      let full := rd_text_in r 0 (src_len (rd_src r)) in
      let sev_class := severity_name (dg_severity d) in
      let head :=
        lit "<div class=""diagnostic"">" ++ nl ++
        lit "  <div class=""header " ++ sev_class ++ lit """>" ++ nl ++
        (match dg_code d with
         | Some c => lit "    <span class=""code"">[" ++ c ++ lit "]</span> <span class=""message"">" ++ html_escape_diag (dg_message d) ++ lit "</span>" ++ nl
         | None => lit "    <span class=""severity"">[" ++ sev_class ++ lit "]</span> <span class=""message"">" ++ html_escape_diag (dg_message d) ++ lit "</span>" ++ nl
         end) ++
        lit "  </div>" ++ nl in
      let help := match dg_help d with
                  | Some h => lit "  <div class=""help"">help: " ++ html_escape_diag h ++ lit "</div>" ++ nl
                  | None => [] end in
      match cat_options (map (fun l => html_snippet m r full l uri) (dg_labels d)) with
      | Some s => Some (head ++ s ++ help ++ lit "</div>")
      | None => None
      end
  end.
