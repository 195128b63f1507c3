(** Model of projects/oak-testing/src: lexing.rs, parsing.rs, building.rs.

    The file system is a map from paths to contents that only the tester changes; reading and writing succeed
    (files are UTF-8 text).  A path is a directory and a file name.  [serde_json] is a pair of functions [show]
    and [read]. *)
From Verif Require Import Base Utf8 CursorModel RopeModel LexModel TreeModel HiModel VfsModel.

Definition path : Type := str * str.
Definition path_eqb (a b : path) : bool := str_eqb (fst a) (fst b) && str_eqb (snd a) (snd b).
Definition files : Type := list (path * str).

(** std [Path::file_stem], [Path::extension] of a file name: cut at the last dot, unless it is the first character *)
Fixpoint split_last (s : str) : option (str * str) :=
  match s with
  | [] => None
  | c :: r => match split_last r with
              | Some (a, b) => Some (c :: a, b)
              | None => if (c =? 46)%Z then Some ([], r) else None
              end
  end.
Definition stem_ext (name : str) : str * option str :=
  match split_last name with
  | Some ([], _) | None => (name, None)
  | Some (a, b) => (a, Some b)
  end.
(** std [Path::with_extension], for a non-empty extension *)
Definition with_extension (p : path) (e : str) : path := (fst p, fst (stem_ext (snd p)) ++ lit "." ++ e).

Definition ends_with (s p : str) : bool := prefixb (rev p) (rev s).

(** lexing.rs:99-123, parsing.rs:96-120, building.rs:95-119 [find_test_files]; the files in the order of the walk *)
Definition is_output (name : str) : bool :=
  ends_with name (lit ".parsed.json") || ends_with name (lit ".lexed.json") || ends_with name (lit ".built.json") || ends_with name (lit ".expected.json").
Definition selected (exts : list str) (p : path) : bool :=
  match snd (stem_ext (snd p)) with
  | Some e => existsb (str_eqb e) exts && negb (is_output (snd p))
  | None => false
  end.
Definition find_test_files (exts : list str) (fs : files) : list path := filter (selected exts) (map fst fs).

(** What the three testers differ in: the name of the record, and whether writing a record that was missing is an
    error (parsing.rs:192-197) or not (lexing.rs:235-241, building.rs:189-195). *)
Record tester := Tester { t_suffix : str; t_strict : bool }.
Definition lexer_tester : tester := Tester (lit ".lexed.json") false.
Definition parser_tester : tester := Tester (lit ".parsed.json") true.
Definition builder_tester : tester := Tester (lit ".built.json") false.

(** lexing.rs:217, parsing.rs:169, building.rs:172; lexing.rs:221, parsing.rs:173, building.rs:176 *)
Definition record_of (t : tester) (p : path) : path :=
  with_extension p (match snd (stem_ext (snd p)) with Some e => e | None => [] end ++ t_suffix t).
Definition legacy_of (p : path) : path := with_extension p (lit "expected.json").

(** What the lexer, parser or builder does in its thread: an answer after some time, a panic, or no end. *)
Inductive behaviour (R : Type) := Done (t : nat) (r : R) | Panics (t : nat) | Loops.
Arguments Done {R}. Arguments Panics {R}. Arguments Loops {R}.

Inductive verdict := Passed (regenerated : bool) | Mismatch | Regenerated | BadRecord | TimedOut | Unreadable.

(** How a call of the tester ends: it returns after some time, it panics, or never. *)
Inductive ended := Returned (t : nat) (v : verdict) (fs : files) | Crashed | Hanging.

Section Tester.
  Context {R : Type} (subject : str -> behaviour R) (show : R -> str) (read : str -> option R) (eqb : R -> R -> bool).
  Variable (t : tester) (force : bool) (timeout : nat).

  Definition get (fs : files) (p : path) : option str := mget path_eqb fs p.

  (** lexing.rs:220-225, parsing.rs:172-177, building.rs:175-180 *)
  Definition migrate (fs : files) (p : path) : files :=
    match get fs (record_of t p) with
    | Some _ => fs
    | None => match get fs (legacy_of p) with
              | Some c => minsert path_eqb (mremove path_eqb fs (legacy_of p)) (record_of t p) c
              | None => fs
              end
    end.

  (** lexing.rs:227-243, parsing.rs:179-199, building.rs:182-196 *)
  Definition judge (fs : files) (p : path) (r : R) : verdict * files :=
    let fs := migrate fs p in
    match get fs (record_of t p), force with
    | Some c, false => match read c with
                       | None => (BadRecord, fs)
                       | Some r' => (if eqb r r' then Passed false else Mismatch, fs)
                       end
    | _, _ => (if t_strict t && negb force then Regenerated else Passed true, minsert path_eqb fs (record_of t p) (show r))
    end.

  (** lexing.rs:125-244, parsing.rs:122-210, building.rs:121-203 [test_single_file].  The work is done in a thread of
      [std::thread::scope], which is given up after [timeout]; but the scope does not end before its threads, and it
      panics when a thread it has not joined has panicked.  Polling every 10 ms (lexing.rs:154-168) is taken to be
      continuous. *)
  Definition test_single_file (fs : files) (p : path) : ended :=
    match get fs p with
    | None => Returned 0 Unreadable fs
    | Some text =>
        match subject text with
        | Loops => Hanging
        | Panics _ => Crashed
        | Done n r => if timeout <? n then Returned n TimedOut fs else let '(v, fs') := judge fs p r in Returned n v fs'
        end
    end.

  (** lexing.rs:85-88, parsing.rs:82-85, building.rs:81-84: the loop of [run_tests]; [any] is [regenerated_any] *)
  Fixpoint run_all (ps : list path) (any : bool) (fs : files) : ended :=
    match ps with
    | [] => Returned 0 (Passed any) fs
    | p :: r =>
        match test_single_file fs p with
        | Returned n (Passed b) fs' =>
            match run_all r (any || b) fs' with
            | Returned m v fs'' => Returned (n + m) v fs''
            | e => e
            end
        | e => e
        end
    end.

  (** lexing.rs:75-97, parsing.rs:72-94, building.rs:71-93 *)
  Definition run_tests (exts : list str) (fs : files) : ended := run_all (find_test_files exts fs) false fs.
End Tester.

(** ** What is recorded *)

(** lexing.rs:38-43, 49-55 *)
Record lexed := Lexed { ld_success : bool; ld_count : nat; ld_tokens : list (str * str * nat * nat); ld_errors : list str }.

(** lexing.rs:186-214; [name] is the [Debug] name of a kind, [result] the tokens or the error *)
Definition lexed_record (ign : nat -> bool) (name : nat -> str) (text : str) (result : list token + str) (diagnostics : list str) : lexed :=
  let diagnostics := match result with inl _ => diagnostics | inr e => diagnostics ++ [e] end in
  let toks := match result with inl ts => ts | inr _ => [] end in
  let data := map (fun k => let a := Nat.min (tk_start k) (length text) in let b := Nat.max (Nat.min (tk_end k) (length text)) a in
                            (name (tk_kind k), flat_text_in text a b, tk_start k, tk_end k))
                  (filter (fun k => negb (ign (tk_kind k))) toks) in
  Lexed (match diagnostics with [] => true | _ => false end) (length data) data diagnostics.

(** parsing.rs:46-51 *)
Inductive ast := Ast (kind : str) (children : list ast) (len : nat) (leaf : bool).

(** parsing.rs:212-233 [to_ast]; only called for nodes *)
Fixpoint to_ast (name : nat -> str) (t : green) : ast :=
  match t with
  | GLeaf _ _ _ => Ast [] [] 0 true
  | GNode k n ch =>
      let sub := flat_map (fun c => match c with GNode _ _ _ => [to_ast name c] | GLeaf _ _ _ => [] end) ch in
      let lens := flat_map (fun c => match c with GNode _ _ _ => [] | GLeaf _ n _ => [n] end) ch in
      Ast (name k) (sub ++ match lens with [] => [] | _ => [Ast (lit "Leaves(" ++ dec (length lens) ++ lit ")") [] (list_sum lens) true] end) n false
  end.

(** parsing.rs:235-237 [count_nodes] *)
Fixpoint count_nodes (a : ast) : nat := match a with Ast _ ch _ _ => S (list_sum (map count_nodes ch)) end.
