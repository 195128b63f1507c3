(** Model of projects/oak-highlight/src/highlighter/mod.rs and exporters/mod.rs, and of the [html_escape] of
    projects/oak-diagnostic/src/lib.rs.

    The texts of segments and the outputs of exporters are lists of [char]s; sources are UTF-8 bytes. *)
From Verif Require Import Base Utf8 VfsModel TreeModel.

(** highlighter/mod.rs:22-33 *)
Record style := Style { st_color : option str; st_background : option str; st_bold : bool; st_italic : bool; st_underline : bool }.

(** mod.rs:35-39 *)
Definition style_default : style := Style None None false false false.

(** mod.rs:42-49: the styles; the name is left out *)
Definition theme := list (str * style).

(** [str::rfind('.')] *)
Fixpoint rfind_dot (s : str) : option nat :=
  match s with
  | [] => None
  | c :: r => match rfind_dot r with
              | Some i => Some (S i)
              | None => if (c =? 46)%Z then Some 0 else None
              end
  end.

(** mod.rs:92, 125 *)
Definition fallback (t : theme) : style :=
  match mget str_eqb t (lit "none") with Some s => s | None => style_default end.

(** mod.rs:87-91 *)
Fixpoint resolve_loop (fuel : nat) (t : theme) (cur : str) : option style :=
  match fuel with
  | O => None
  | S f =>
      match cur with
      | [] => None
      | _ => match mget str_eqb t cur with
             | Some s => Some s
             | None => match rfind_dot cur with
                       | Some pos => resolve_loop f t (firstn pos cur)
                       | None => None
                       end
             end
      end
  end.

(** mod.rs:85-94; every round shortens the scope, so its length is enough fuel *)
Definition resolve_style (t : theme) (scope : str) : style :=
  match resolve_loop (S (length scope)) t scope with Some s => s | None => fallback t end.

(** [split('.').count()] *)
Definition segments_count (s : str) : Z := 1 + Z.of_nat (count_occ Z.eq_dec s 46%Z).

(** mod.rs:107-122: the loop for one scope; [best] is [best_depth], [best_style] *)
Fixpoint styles_loop (fuel : nat) (t : theme) (cur : str) (depth : Z) (best : Z * option style) : Z * option style :=
  match fuel with
  | O => best
  | S f =>
      match cur with
      | [] => best
      | _ => match mget str_eqb t cur with
             | Some s => if (fst best <? depth)%Z then (depth, Some s) else best
             | None => match rfind_dot cur with
                       | Some pos => styles_loop f t (firstn pos cur) (depth - 1) best
                       | None => best
                       end
             end
      end
  end.

(** mod.rs:98-126 *)
Definition resolve_styles (t : theme) (scopes : list str) : style :=
  match snd (fold_left (fun best scope => styles_loop (S (length scope)) t scope (segments_count scope) best)
                       scopes ((-1)%Z, None)) with
  | Some s => s
  | None => fallback t
  end.

(** mod.rs:140-170 [get_token_scopes]; [prefix] is the category prefix *)
Definition token_scopes (specific universal language prefix : str) : list str :=
  [specific ++ lit "." ++ language] ++
  (if str_eqb specific universal then [] else [specific]) ++
  [prefix ++ lit "." ++ universal; universal; prefix ++ lit "." ++ language].

(** mod.rs:228-246; [sg_text] as chars *)
Record segment := Segment { sg_start : nat; sg_end : nat; sg_style : style; sg_text : list Z }.

(** mod.rs:271-292: [visit_node] and [visit_token]; [style_of] is the style of a token kind (its scopes resolved in
    the theme); [None]: slicing the source panics *)
Section Visitor.
  Variables (style_of : nat -> style) (source : str).
  Fixpoint highlight_tree (t : green) (off : nat) (segments : list segment) : option (list segment) :=
    match t with
    | GLeaf k n _ =>
        match str_get source off (off + n) with
        | Some text => Some (segments ++ [Segment off (off + n) (style_of k) (chars text)])
        | None => None
        end
    | GNode _ _ ch =>
        (fix go (ch : list green) (off : nat) (segments : list segment) : option (list segment) :=
           match ch with
           | [] => Some segments
           | c :: r => match highlight_tree c off segments with
                       | Some s => go r (off + glen c) s
                       | None => None
                       end
           end) ch off segments
    end.
End Visitor.

(** mod.rs:329-339 [OakHighlighter::highlight]: one segment *)
Definition highlight_plain (t : theme) (source : str) : list segment :=
  [Segment 0 (length source) (resolve_style t (lit "none")) (chars source)].

(** exporters/mod.rs:264-275 *)
Definition html_escape_char (c : Z) : list Z :=
  if (c =? 60)%Z then lit "&lt;" else if (c =? 62)%Z then lit "&gt;" else if (c =? 38)%Z then lit "&amp;"
  else if (c =? 34)%Z then lit "&quot;" else if (c =? 39)%Z then lit "&#39;" else [c].
Definition html_escape (text : list Z) : list Z := flat_map html_escape_char text.

(** [str::replace(char, &str)] *)
Definition replace_char (c : Z) (by_ : list Z) (s : list Z) : list Z :=
  flat_map (fun x => if (x =? c)%Z then by_ else [x]) s.
(** oak-diagnostic/src/lib.rs:563-565 *)
Definition html_escape_diag (s : list Z) : list Z :=
  replace_char 39 (lit "&#39;") (replace_char 34 (lit "&quot;") (replace_char 62 (lit "&gt;")
    (replace_char 60 (lit "&lt;") (replace_char 38 (lit "&amp;") s)))).

(** [join] *)
Fixpoint join (sep : list Z) (parts : list (list Z)) : list Z :=
  match parts with
  | [] => []
  | [p] => p
  | p :: r => p ++ sep ++ join sep r
  end.

(** exporters/mod.rs:96-122 *)
Definition style_attrs (s : style) : list (list Z) :=
  (match st_color s with Some c => [lit "color: " ++ c] | None => [] end) ++
  (match st_background s with Some c => [lit "background-color: " ++ c] | None => [] end) ++
  (if st_bold s then [lit "font-weight: bold"] else []) ++
  (if st_italic s then [lit "font-style: italic"] else []) ++
  (if st_underline s then [lit "text-decoration: underline"] else []).
Definition segment_inline (s : segment) : list Z :=
  let text := html_escape (sg_text s) in
  match style_attrs (sg_style s) with
  | [] => text
  | attrs => lit "<span style=" ++ [34%Z] ++ join (lit "; ") attrs ++ [34%Z] ++ lit ">" ++ text ++ lit "</span>"
  end.

(** exporters/mod.rs:124-142 *)
Definition style_classes (s : style) : list (list Z) :=
  (if st_bold s then [lit "bold"] else []) ++ (if st_italic s then [lit "italic"] else []) ++
  (if st_underline s then [lit "underline"] else []).
Definition segment_class (s : segment) : list Z :=
  let text := html_escape (sg_text s) in
  match style_classes (sg_style s) with
  | [] => text
  | classes => lit "<span class=" ++ [34%Z] ++ join (lit " ") classes ++ [34%Z] ++ lit ">" ++ text ++ lit "</span>"
  end.

(** exporters/mod.rs:69-76 *)
Definition css_block : list Z :=
  lit "<style>" ++ [10%Z] ++
  lit ".highlight { font-family: 'Courier New', monospace; white-space: pre }" ++ [10%Z] ++
  lit ".highlight .bold { font-weight: bold }" ++ [10%Z] ++
  lit ".highlight .italic { font-style: italic }" ++ [10%Z] ++
  lit ".highlight .underline { text-decoration: underline }" ++ [10%Z] ++
  lit "</style>" ++ [10%Z].

(** exporters/mod.rs:65-93 *)
Definition export_html (include_css inline_styles : bool) (segments : list segment) : list Z :=
  (if include_css then css_block else []) ++
  lit "<div class=" ++ [34%Z] ++ lit "highlight" ++ [34%Z] ++ lit ">" ++
  flat_map (if inline_styles then segment_inline else segment_class) segments ++
  lit "</div>".

(** [char::is_control]: the category Cc *)
Definition is_control (c : Z) : bool := ((0 <=? c) && (c <? 32))%Z || ((127 <=? c) && (c <? 160))%Z.

(** [format!("{:x}")] digit *)
Definition hex_digit (d : Z) : Z := if (d <? 10)%Z then 48 + d else 87 + d.
(** [format!("\\u{:04x}", c as u32)]; at least four digits, and exactly four for control characters *)
Definition unicode_escape (c : Z) : list Z :=
  [92; 117; hex_digit (c / 4096 mod 16); hex_digit (c / 256 mod 16); hex_digit (c / 16 mod 16); hex_digit (c mod 16)]%Z.

(** exporters/mod.rs:8-24 *)
Definition json_escape_char (c : Z) : list Z :=
  if (c =? 34)%Z then [92; 34]%Z else if (c =? 92)%Z then [92; 92]%Z else if (c =? 8)%Z then [92; 98]%Z
  else if (c =? 12)%Z then [92; 102]%Z else if (c =? 10)%Z then [92; 110]%Z else if (c =? 13)%Z then [92; 114]%Z
  else if (c =? 9)%Z then [92; 116]%Z else if is_control c then unicode_escape c else [c].
Definition json_escape (s : list Z) : list Z := flat_map json_escape_char s.

(** [usize::to_string] *)
Fixpoint dec_fuel (fuel n : nat) : list Z :=
  match fuel with
  | O => []
  | S f => (if n <? 10 then [] else dec_fuel f (n / 10)) ++ [48 + Z.of_nat (n mod 10)]%Z
  end.
Definition dec (n : nat) : list Z := dec_fuel (S n) n.

Definition quote (s : list Z) : list Z := [34%Z] ++ s ++ [34%Z].
Definition bool_lit (b : bool) : list Z := if b then lit "true" else lit "false".

(** exporters/mod.rs:176-203: one segment *)
Definition segment_json (s : segment) : list Z :=
  lit "{" ++ quote (lit "span") ++ lit ":{" ++ quote (lit "start") ++ lit ":" ++ dec (sg_start s) ++
  lit "," ++ quote (lit "end") ++ lit ":" ++ dec (sg_end s) ++
  lit "}," ++ quote (lit "style") ++ lit ":{" ++
  join (lit ",")
    ([quote (lit "bold") ++ lit ":" ++ bool_lit (st_bold (sg_style s));
      quote (lit "italic") ++ lit ":" ++ bool_lit (st_italic (sg_style s));
      quote (lit "underline") ++ lit ":" ++ bool_lit (st_underline (sg_style s))] ++
     (match st_color (sg_style s) with Some c => [quote (lit "color") ++ lit ":" ++ quote (json_escape c)] | None => [] end) ++
     (match st_background (sg_style s) with Some c => [quote (lit "background_color") ++ lit ":" ++ quote (json_escape c)] | None => [] end)) ++
  lit "}," ++ quote (lit "text") ++ lit ":" ++ quote (json_escape (sg_text s)) ++ lit "}".

(** exporters/mod.rs:171-210; the commas come before every segment but the first *)
Definition export_json (segments : list segment) (source : list Z) : list Z :=
  lit "{" ++ quote (lit "segments") ++ lit ":[" ++ join (lit ",") (map segment_json segments) ++
  lit "]," ++ quote (lit "source") ++ lit ":" ++ quote (json_escape source) ++ lit "}".

(** exporters/mod.rs:245-256 *)
Definition ansi_color (c : str) : list Z :=
  if str_eqb c (lit "#FF0000") || str_eqb c (lit "#F44747") || str_eqb c (lit "#DC322F") || str_eqb c (lit "#FF5555") then lit "31"
  else if str_eqb c (lit "#00FF00") || str_eqb c (lit "#6A9955") || str_eqb c (lit "#859900") then lit "32"
  else if str_eqb c (lit "#FFFF00") || str_eqb c (lit "#F1FA8C") || str_eqb c (lit "#E6DB74") then lit "33"
  else if str_eqb c (lit "#0000FF") || str_eqb c (lit "#569CD6") || str_eqb c (lit "#005CC5") then lit "34"
  else if str_eqb c (lit "#FF00FF") || str_eqb c (lit "#FF79C6") || str_eqb c (lit "#D73A49") then lit "35"
  else if str_eqb c (lit "#00FFFF") || str_eqb c (lit "#9CDCFE") || str_eqb c (lit "#2AA198") then lit "36"
  else lit "37".

(** exporters/mod.rs:227-260 *)
Definition ansi_codes (s : style) : list (list Z) :=
  [lit "0"] ++ (if st_bold s then [lit "1"] else []) ++ (if st_italic s then [lit "3"] else []) ++
  (if st_underline s then [lit "4"] else []) ++
  (match st_color s with Some c => [ansi_color c] | None => [] end).
Definition segment_ansi (s : segment) : list Z :=
  let codes := ansi_codes (sg_style s) in
  if 1 <? length codes then
    [27%Z] ++ lit "[" ++ join (lit ";") codes ++ lit "m" ++ sg_text s ++ [27%Z] ++ lit "[0m"
  else sg_text s.
(** exporters/mod.rs:215-224 *)
Definition export_ansi (segments : list segment) : list Z := flat_map segment_ansi segments.
