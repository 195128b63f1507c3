(** Model of the LLVM IR language: examples/oak-llvm-ir/src/lexer/mod.rs, parser/parse_top_level.rs, builder/mod.rs and the printing of
    globals in ast/mod.rs.  The session is new.  The lexer reads any source, the parser and the builder a [SourceText].  [None] is a
    panic or that the fuel is used up.  [char::is_alphabetic] and [char::is_alphanumeric] (Unicode tables) are the parameters [alpha]
    and [alnum]. *)
From Verif Require Import Base Utf8 RopeModel CursorModel LexModel TreeModel VfsModel ParserModel LangModel IniModel.

(** lexer/token_type.rs:14-63, parser/element_type.rs:9-69: numbered as they are declared; the conversion (81-85) keeps the number *)
Definition LvRoot := 0. Definition LvIdentifier := 1. Definition LvNumber := 2. Definition LvString := 3. Definition LvComment := 4.
Definition LvWhitespace := 5. Definition LvNewline := 6. Definition LvError := 7. Definition LvEof := 8. Definition LvLocalVar := 9.
Definition LvGlobalVar := 10. Definition LvMetadata := 11. Definition LvEqual := 12. Definition LvComma := 13. Definition LvLParen := 14.
Definition LvRParen := 15. Definition LvLBracket := 16. Definition LvRBracket := 17. Definition LvLBrace := 18. Definition LvRBrace := 19.
Definition LvStar := 20. Definition LvColon := 21. Definition LvKeyword := 22. Definition LvItem := 23. Definition LvGlobal := 24.
Definition LvFunction := 25. Definition LvParameter := 26. Definition LvBlock := 27. Definition LvInstruction := 28.

(** lexer/token_type.rs:67 [END_OF_STREAM] *)
Definition ll_end : nat := LvError.
(** lexer/token_type.rs:69-74 *)
Definition ll_ignored (k : nat) : bool := (k =? LvWhitespace) || (k =? LvComment).

(** lexer/mod.rs:37-44, 84-123: the arms of one character *)
Definition ll_single (c : Z) : option nat :=
  (if (c =? 32) || (c =? 9) then Some LvWhitespace else if (c =? 10) || (c =? 13) then Some LvNewline
   else if c =? 61 then Some LvEqual else if c =? 44 then Some LvComma else if c =? 40 then Some LvLParen else if c =? 41 then Some LvRParen
   else if c =? 91 then Some LvLBracket else if c =? 93 then Some LvRBracket else if c =? 123 then Some LvLBrace else if c =? 125 then Some LvRBrace
   else if c =? 42 then Some LvStar else if c =? 58 then Some LvColon else None)%Z.
(** lexer/mod.rs:54-83: the arms of variables and metadata *)
Definition ll_variable (c : Z) : option nat :=
  (if c =? 37 then Some LvLocalVar else if c =? 64 then Some LvGlobalVar else if c =? 33 then Some LvMetadata else None)%Z.

Section Lexer.
  Variables alpha alnum : Z -> bool.
  Variable src : source.

  (** lexer/mod.rs:57, 67, 77, 152 *)
  Definition ll_name (c : Z) : bool := alnum c || ((c =? 46) || (c =? 95) || (c =? 45))%Z.
  (** lexer/mod.rs:148 *)
  Definition ll_start (c : Z) : bool := alpha c || ((c =? 95) || (c =? 46))%Z.

  (** lexer/mod.rs:134-145: to the end of a string *)
  Fixpoint ll_string (fuel : nat) (l : lexer) : option lexer :=
    match fuel with
    | O => None
    | S f =>
        match lx_current src l with
        | (None, l1) => Some l1
        | (Some ch, l1) =>
            if (ch =? 34)%Z then Some (lx_advance src l1 1)
            else
              let l2 := if (ch =? 92)%Z then lx_advance src l1 1 else l1 in
              let '(next, l3) := lx_current src l2 in
              ll_string f (lx_advance src l3 (match next with Some c => char_len c | None => 0 end))
        end
    end.

  (** lexer/mod.rs:35-163: the arm for the current character [ch]; the kind of the token and the state at its end *)
  Definition ll_arm (ch : Z) (l : lexer) : option (nat * lexer) :=
    match ll_single ch with
    | Some k => Some (k, lx_advance src l 1)
    | None =>
        match ll_variable ch with
        | Some k => option_map (pair k) (lx_take_while src (scan_fuel src) ll_name (lx_advance src l 1))
        | None =>
            if (ch =? 59)%Z then option_map (pair LvComment) (lx_take_while src (scan_fuel src) (fun c => negb ((c =? 10) || (c =? 13))%Z) (lx_advance src l 1))
            else if ascii_digit_c ch || (ch =? 45)%Z then
              option_map (pair LvNumber) (lx_take_while src (scan_fuel src) (fun c => ascii_digit_c c || (c =? 46)%Z) (lx_advance src l 1))
            else if (ch =? 34)%Z then option_map (pair LvString) (ll_string (scan_fuel src) (lx_advance src l 1))
            else if ll_start ch then option_map (pair LvKeyword) (lx_take_while src (scan_fuel src) ll_name (lx_advance src l 1))
            else Some (LvError, lx_advance src l (char_len ch))
        end
    end.
  Definition ll_round (ch : Z) (l l1 : lexer) : option lexer :=
    match ll_arm ch l1 with
    | None => None
    | Some (k, l2) => Some (advance_if_dead_lock src (lx_pos l) (add_token l2 k (lx_pos l) (lx_pos l2)))
    end.
  (** lexer/mod.rs:29-173 [run] *)
  Fixpoint ll_run (fuel : nat) (l : lexer) : option lexer :=
    match fuel with
    | O => None
    | S f =>
        if not_at_end src l then
          match lx_current src l with
          | (None, l1) => Some l1
          | (Some ch, l1) => match ll_round ch l l1 with None => None | Some l2 => ll_run f l2 end
          end
        else Some l
    end.
  (** lexer/mod.rs:15-22 [lex] *)
  Definition ll_lex : option (list token) := option_map (fun l => lx_toks (add_eof l ll_end)) (ll_run (scan_fuel src) (new_lexer src)).
End Lexer.

Section Parser.
  Variable text : str.

  Definition ll_bump (s : pstate) : pstate := bump ll_ignored s.
  Definition ll_expect (k : nat) : step := fun s => Some (expect ll_ignored k s).
  (** [source.get_text_in(token.span)] of the current token *)
  Definition ll_word (s : pstate) : str := match ps_current s with Some t => flat_text_in text (tk_start t) (tk_end t) | None => [] end.
  Definition at_word (s : pstate) (w : str) : bool := at_kind s LvKeyword && str_eqb (ll_word s) w.
  Definition at_gap (s : pstate) : bool := at_kind s LvWhitespace || at_kind s LvNewline || at_kind s LvComment.

  (** [while state.not_at_end() && go { body }]; every body below takes a token, so the tokens to come are enough fuel *)
  Fixpoint ll_while (go : pstate -> bool) (body : pstate -> pstate) (fuel : nat) (s : pstate) : pstate :=
    match fuel with
    | O => s
    | S f => if ps_not_at_end s && go s then ll_while go body f (body s) else s
    end.
  Definition ll_loop (go : pstate -> bool) (body : pstate -> pstate) (s : pstate) : pstate := ll_while go body (length (ps_toks s) - ps_index s) s.

  (** parse_top_level.rs:174-178 *)
  Definition ll_skip (s : pstate) : pstate := ll_loop at_gap ll_bump s.
  (** [finish_at] *)
  Definition ll_finish (cp : nat * nat) (k : nat) (s : pstate) : option (bool * pstate) :=
    match finish_at s cp k with Some (_, s') => Some (true, s') | None => None end.

  (** parse_top_level.rs:56-66: to the word global or constant *)
  Definition at_storage (s : pstate) : bool := at_word s (lit "global") || at_word s (lit "constant").
  Definition ll_modifiers (s : pstate) : pstate :=
    let s1 := ll_loop (fun s => negb (at_storage s)) (fun s => ll_skip (ll_bump s)) s in
    if ps_not_at_end s1 then ll_bump s1 else s1.
  (** parse_top_level.rs:47-79 *)
  Definition ll_global : step := fun s =>
    let cp := checkpoint s in
    andthen (ll_expect LvGlobalVar) (fun s => andthen (ll_expect LvEqual) (fun s =>
      let s1 := ll_skip (ll_modifiers (ll_skip s)) in
      let tcp := checkpoint s1 in
      let s2 := ll_loop (fun s => negb (at_kind s LvNewline) && negb (at_kind s LvComment)) ll_bump s1 in
      andthen (ll_finish tcp LvIdentifier) (ll_finish cp LvGlobal) s2) (ll_skip s)) s.

  (** parse_top_level.rs:101-114: the parameters between the parentheses *)
  Definition ll_parameter : step := fun s =>
    let cp := checkpoint s in
    let s1 := ll_loop (fun s => negb (at_kind s LvComma) && negb (at_kind s LvRParen)) ll_bump s in
    andthen (ll_finish cp LvParameter) (fun s => Some (true, if at_kind s LvComma then ll_skip (ll_bump s) else s)) s1.
  Fixpoint ll_parameters (fuel : nat) (s : pstate) : option (bool * pstate) :=
    match fuel with
    | O => None
    | S f => if ps_not_at_end s && negb (at_kind s LvRParen) then andthen ll_parameter (ll_parameters f) s else Some (true, s)
    end.

  (** parse_top_level.rs:127-157: the loop over the body; [block]: the checkpoint of the block and whether there is one *)
  Fixpoint ll_body (fuel : nat) (block : (nat * nat) * bool) (s : pstate) : option (((nat * nat) * bool) * pstate) :=
    match fuel with
    | O => None
    | S f =>
        if ps_not_at_end s && negb (at_kind s LvRBrace) then
          let is_label := at_kind s LvKeyword && match nth_error (ps_toks s) (S (ps_index s)) with Some t => tk_kind t =? LvColon | None => false end in
          if is_label then
            match (if snd block then ll_finish (fst block) LvBlock s else Some (true, s)) with
            | None => None
            | Some (_, s1) => ll_body f (checkpoint s1, true) (ll_skip (ll_bump (ll_bump s1)))
            end
          else if at_kind s LvLocalVar || at_kind s LvKeyword then
            let block' := if snd block then block else (checkpoint s, true) in
            let cp := checkpoint s in
            let s1 := ll_loop (fun s => negb (at_kind s LvNewline) && negb (at_kind s LvRBrace)) ll_bump s in
            match ll_finish cp LvInstruction s1 with
            | None => None
            | Some (_, s2) => ll_body f block' (ll_skip s2)
            end
          else ll_body f block (ll_skip (ll_bump s))
        else Some (block, s)
    end.

  (** parse_top_level.rs:81-172 *)
  Definition ll_function : step := fun s =>
    let cp := checkpoint s in
    andthen (ll_expect LvKeyword) (fun s =>
      let s1 := ll_skip s in
      let rcp := checkpoint s1 in
      let s2 := ll_loop (fun s => negb (at_kind s LvGlobalVar)) (fun s => ll_skip (ll_bump s)) s1 in
      andthen (ll_finish rcp LvIdentifier) (andthen (ll_expect LvGlobalVar) (fun s =>
        let s3 := ll_skip s in
        andthen (fun s =>
            if at_kind s LvLParen then
              let pcp := checkpoint s in
              andthen (fun s => ll_parameters (S (length (ps_toks s))) s) (andthen (ll_expect LvRParen) (ll_finish pcp LvParameter)) (ll_bump s)
            else Some (true, s))
          (fun s =>
            let s4 := ll_skip s in
            andthen (fun s =>
                if at_kind s LvLBrace then
                  let s5 := ll_skip (ll_bump s) in
                  match ll_body (S (length (ps_toks s))) (checkpoint s5, false) s5 with
                  | None => None
                  | Some (block, s6) => andthen (fun s => if snd block then ll_finish (fst block) LvBlock s else Some (true, s)) (ll_expect LvRBrace) s6
                  end
                else Some (true, s))
              (ll_finish cp LvFunction) s4) s3)) s2) s.

  (** parse_top_level.rs:20-45; where the text ends after the gap no node is made *)
  Definition ll_item : step := fun s =>
    let cp := checkpoint s in
    let s1 := ll_skip s in
    if negb (ps_not_at_end s1) then Some (true, s1)
    else andthen (fun s =>
        if at_kind s LvGlobalVar then ll_global s
        else if at_word s (lit "define") then ll_function s
        else Some (true, ps_advance ll_ignored s))
      (ll_finish cp LvItem) s1.
  (** parse_top_level.rs:9-17 *)
  Fixpoint ll_items (fuel : nat) (s : pstate) : option (bool * pstate) :=
    match fuel with
    | O => None
    | S f => if ps_not_at_end s then andthen ll_item (ll_items f) s else Some (true, s)
    end.
  (** the root, or none after an error, and the diagnostics *)
  Definition ll_root (toks : list token) : option (option green * list (nat * nat)) :=
    let s := ps_new ll_ignored toks (length text) [] in
    match ll_items (S (length toks)) s with
    | None => None
    | Some (false, s1) => Some (None, ps_errs s1)
    | Some (true, s1) => match finish_at s1 (checkpoint s) LvRoot with None => None | Some ((_, root), s2) => Some (Some root, ps_errs s2) end
    end.
End Parser.

(** parser/mod.rs:26-29 of a [SourceText] *)
Definition ll_parse (alpha alnum : Z -> bool) (text : str) : option (option green * list (nat * nat)) :=
  match ll_lex alpha alnum (flat_source text) with None => None | Some toks => ll_root text toks end.

(** ** The builder; texts are lists of characters from here on *)
(** ast/mod.rs:79-90, 131-136, 152-157, 190-196, 233-240; the spans are left out *)
Record lparam := LParam { lp_ty : str; lp_name : str }.
Record linst := LInst { li_result : option str; li_opcode : str; li_operands : list str }.
Record lblock := LBlock { lb_label : option str; lb_insts : list linst }.
Record lglobal := LGlobal { lg_name : str; lg_ty : str; lg_value : str; lg_constant : bool }.
Record lfunction := LFunction { lf_name : str; lf_ret : str; lf_params : list lparam; lf_blocks : list lblock }.
Inductive litem := LItemGlobal (g : lglobal) | LItemFunction (f : lfunction).

(** [str::trim_start_matches], [trim], [trim_matches] of one character *)
Fixpoint ll_strip (p : Z -> bool) (s : str) : str := match s with c :: r => if p c then ll_strip p r else s | [] => [] end.
Definition ll_trim (p : Z -> bool) (s : str) : str := rev (ll_strip p (rev (ll_strip p s))).
(** [str::split_whitespace]; [word] is what was read of the current word *)
Fixpoint ll_words (word s : str) : list str :=
  match s with
  | [] => match word with [] => [] | _ => [word] end
  | c :: r => if char_is_whitespace c then (match word with [] => [] | _ => [word] end) ++ ll_words [] r else ll_words (word ++ [c]) r
  end.
(** [parts[1..].join(" ")] *)
Fixpoint ll_join (ws : list str) : str := match ws with [] => [] | [w] => w | w :: r => w ++ [32%Z] ++ ll_join r end.
(** [inst_text.splitn(2, '=')]: what is before the first equals sign, and after it if there is one *)
Fixpoint ll_split (s : str) : str * option str :=
  match s with
  | [] => ([], None)
  | c :: r => if (c =? 61)%Z then ([], Some r) else let '(a, b) := ll_split r in (c :: a, b)
  end.

Section Builder.
  Variable text : str.
  Definition ll_text (offset : nat) (g : green) : str := chars (flat_text_in text offset (offset + glen g)).
  (** the children with their offsets *)
  Fixpoint ll_placed (offset : nat) (gs : list green) : list (nat * green) :=
    match gs with [] => [] | g :: r => (offset, g) :: ll_placed (offset + glen g) r end.
  Definition ll_children (g : green) : list green := match g with GNode _ _ ch => ch | GLeaf _ _ _ => [] end.

  (** builder/mod.rs:69-113 *)
  Definition ll_global_part (v : lglobal) (p : nat * green) : lglobal :=
    let '(o, g) := p in
    match g with
    | GLeaf k _ _ =>
        if k =? LvGlobalVar then LGlobal (ll_strip (Z.eqb 64) (ll_text o g)) (lg_ty v) (lg_value v) (lg_constant v)
        else if (k =? LvKeyword) && str_eqb (ll_text o g) (lit "constant") then LGlobal (lg_name v) (lg_ty v) (lg_value v) true
        else v
    | GNode k _ _ =>
        if k =? LvIdentifier then
          match ll_words [] (ll_text o g) with
          | [] => v
          | [ty] => LGlobal (lg_name v) ty (lg_value v) (lg_constant v)
          | ty :: rest => LGlobal (lg_name v) ty (ll_join rest) (lg_constant v)
          end
        else v
    end.
  Definition ll_build_global (o : nat) (g : green) : lglobal :=
    let v := fold_left ll_global_part (ll_placed o (ll_children g)) (LGlobal [] [] [] false) in
    match lg_name v with [] => LGlobal (lit "unknown") (lg_ty v) (lg_value v) (lg_constant v) | _ => v end.

  (** builder/mod.rs:143-162 *)
  Definition ll_build_parameter (p : nat * green) : list lparam :=
    match snd p with
    | GNode k _ _ =>
        if k =? LvParameter then
          let t := ll_trim char_is_whitespace (ll_text (fst p) (snd p)) in
          match t with
          | [] => []
          | _ => match ll_words [] t with ty :: name :: _ => [LParam ty (ll_strip (Z.eqb 37) name)] | _ => [LParam t []] end
          end
        else []
    | GLeaf _ _ _ => []
    end.
  (** builder/mod.rs:189-212 *)
  Definition ll_operation (result : option str) (t : str) : list linst :=
    match ll_words [] t with [] => [] | op :: rest => [LInst result op (map (ll_trim (Z.eqb 44)) rest)] end.
  Definition ll_build_instruction (t : str) : list linst :=
    match ll_split t with
    | (a, Some b) => ll_operation (Some (ll_strip (Z.eqb 37) (ll_trim char_is_whitespace a))) (ll_trim char_is_whitespace b)
    | (_, None) => ll_operation None t
    end.
  (** builder/mod.rs:164-218 *)
  Definition ll_block_part (b : lblock) (p : nat * green) : lblock :=
    match snd p with
    | GLeaf k _ _ =>
        match lb_label b with
        | None => if k =? LvKeyword then LBlock (Some (ll_text (fst p) (snd p))) (lb_insts b) else b
        | Some _ => b
        end
    | GNode k _ _ =>
        if k =? LvInstruction then LBlock (lb_label b) (lb_insts b ++ ll_build_instruction (ll_trim char_is_whitespace (ll_text (fst p) (snd p)))) else b
    end.
  (** builder/mod.rs:115-223 *)
  Definition ll_function_part (f : lfunction) (p : nat * green) : lfunction :=
    let '(o, g) := p in
    match g with
    | GLeaf k _ _ => if k =? LvGlobalVar then LFunction (ll_strip (Z.eqb 64) (ll_text o g)) (lf_ret f) (lf_params f) (lf_blocks f) else f
    | GNode k _ _ =>
        if (k =? LvIdentifier) && match lf_ret f with [] => true | _ => false end then LFunction (lf_name f) (ll_trim char_is_whitespace (ll_text o g)) (lf_params f) (lf_blocks f)
        else if k =? LvParameter then LFunction (lf_name f) (lf_ret f) (lf_params f ++ flat_map ll_build_parameter (ll_placed o (ll_children g))) (lf_blocks f)
        else if k =? LvBlock then LFunction (lf_name f) (lf_ret f) (lf_params f) (lf_blocks f ++ [fold_left ll_block_part (ll_placed o (ll_children g)) (LBlock None [])])
        else f
    end.
  Definition ll_build_function (o : nat) (g : green) : lfunction :=
    fold_left ll_function_part (ll_placed o (ll_children g)) (LFunction [] [] [] []).

  (** builder/mod.rs:38-67 *)
  Definition ll_build_child (p : nat * green) : list litem :=
    match snd p with
    | GNode k _ _ =>
        if k =? LvGlobal then [LItemGlobal (ll_build_global (fst p) (snd p))]
        else if k =? LvFunction then [LItemFunction (ll_build_function (fst p) (snd p))]
        else []
    | GLeaf _ _ _ => []
    end.
  Definition ll_build_item (p : nat * green) : list litem :=
    match snd p with
    | GNode k _ ch => if k =? LvItem then flat_map ll_build_child (ll_placed (fst p) ch) else []
    | GLeaf _ _ _ => []
    end.
  Definition ll_build_root (g : green) : list litem := flat_map ll_build_item (ll_placed 0 (ll_children g)).
End Builder.

(** builder/mod.rs:21-36: the value, or none after an error, and the diagnostics *)
Definition ll_build (alpha alnum : Z -> bool) (text : str) : option (option (list litem) * list (nat * nat)) :=
  option_map (fun r => (option_map (ll_build_root text) (fst r), snd r)) (ll_parse alpha alnum text).

(** ast/mod.rs:242-256 *)
Definition ll_print_global (g : lglobal) : str :=
  lit "@" ++ lg_name g ++ lit " = " ++ (if lg_constant g then lit "constant " else lit "global ") ++ lg_ty g ++ lit " " ++ lg_value g.
(** ast/mod.rs:98-116, 138-144, 159-170, 198-213 *)
Definition ll_print_inst (i : linst) : str :=
  (match li_result i with Some r => lit "%" ++ r ++ lit " = " | None => [] end) ++ li_opcode i ++ lit " " ++
  (fix go (l : list str) : str := match l with [] => [] | [o] => o | o :: r => o ++ lit ", " ++ go r end) (li_operands i).
Definition ll_print_block (b : lblock) : str :=
  (match lb_label b with Some l => l ++ lit ":" ++ [10%Z] | None => [] end) ++ flat_map (fun i => lit "  " ++ ll_print_inst i ++ [10%Z]) (lb_insts b).
Definition ll_print_function (f : lfunction) : str :=
  lit "define " ++ lf_ret f ++ lit " @" ++ lf_name f ++ lit "(" ++
  (fix go (l : list lparam) : str :=
     match l with [] => [] | [p] => lp_ty p ++ lit " %" ++ lp_name p | p :: r => lp_ty p ++ lit " %" ++ lp_name p ++ lit ", " ++ go r end) (lf_params f) ++
  lit ") {" ++ [10%Z] ++ flat_map ll_print_block (lf_blocks f) ++ lit "}" ++ [10%Z].
(** ast/mod.rs:23-32, 50-57 *)
Definition ll_print_item (i : litem) : str := match i with LItemGlobal g => ll_print_global g | LItemFunction f => ll_print_function f end.
Fixpoint ll_print (is : list litem) : str := match is with [] => [] | [i] => ll_print_item i | i :: r => ll_print_item i ++ [10%Z] ++ ll_print r end.
