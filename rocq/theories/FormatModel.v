(** Model of projects/oak-pretty-print/src/rules/mod.rs, formatter/mod.rs and builtin_rules/mod.rs (with the
    expansion of [define_rules!], oak-macros/src/define_rules.rs:13-134).

    Rules are values with the methods of the trait.  A rule may call [format_children] only on the node it is
    given (as the built-in rules do), so it receives the result of that call. *)
From Verif Require Import Base Utf8 PrettyModel TreeModel.

(** [FormatResult], with panics *)
Inductive res (A : Type) := Ok (a : A) | Err (message : str) | Panic.
Arguments Ok {A}. Arguments Err {A}. Arguments Panic {A}.

(** formatter/mod.rs:35-47: the fields rules can observe; [path] is the chain of [PathNode]s, innermost first *)
Record context := Context { cx_depth : nat; cx_path : list nat }.

(** formatter/mod.rs:58-61 [enter] *)
Definition enter (c : context) (kind : nat) : context := Context (S (cx_depth c)) (kind :: cx_path c).

(** formatter/mod.rs:64-73 [is_inside] *)
Fixpoint path_has (p : list nat) (kind : nat) : bool :=
  match p with [] => false | k :: parent => if k =? kind then true else path_has parent kind end.
Definition is_inside (c : context) (kind : nat) : bool := path_has (cx_path c) kind.

(** formatter/mod.rs:76-78 [parent_kind] *)
Definition parent_kind (c : context) : option nat :=
  match cx_path c with _ :: k :: _ => Some k | _ => None end.

(** A [RedNode] (kind, children, offset) and a [RedLeaf] (kind, span). *)
Record rnode := Node { n_kind : nat; n_children : list green; n_offset : nat }.
Record rleaf := Leaf { l_kind : nat; l_start : nat; l_end : nat }.

(** rules/mod.rs:10-40 [FormatRule]; [r_id] stands for the identity of the rule object *)
Record rule := Rule {
  r_id : nat;
  r_name : str;
  r_priority : nat;
  r_on_node : rnode -> bool;
  r_on_token : rleaf -> bool;
  r_node : rnode -> context -> str -> res doc -> res (option doc);
  r_token : rleaf -> context -> str -> res (option doc) }.

Section RuleSets.
  (** [conflicts_with], rules/mod.rs:37-39 *)
  Variable conflicts : rule -> rule -> bool.

  (** [sort_by(|a, b| b.priority().cmp(&a.priority()))], rules/mod.rs:70: a stable sort, descending *)
  Fixpoint insert_rule (r : rule) (l : list rule) : list rule :=
    match l with
    | [] => [r]
    | x :: l' => if r_priority x <=? r_priority r then r :: l else x :: insert_rule r l'
    end.
  Fixpoint sort_rules (l : list rule) : list rule :=
    match l with [] => [] | r :: l' => insert_rule r (sort_rules l') end.

  (** rules/mod.rs:59-73 [add_rule]; the flag is [Ok] *)
  Definition add_rule (rules : list rule) (r : rule) : bool * list rule :=
    if existsb (fun e => conflicts r e || conflicts e r) rules then (false, rules)
    else (true, sort_rules (rules ++ [r])).

  (** rules/mod.rs:76-81 [add_rules]: stops at the first error *)
  Fixpoint add_rules (rules : list rule) (rs : list rule) : bool * list rule :=
    match rs with
    | [] => (true, rules)
    | r :: rs' => let '(ok, rules') := add_rule rules r in if ok then add_rules rules' rs' else (false, rules')
    end.
End RuleSets.

(** rules/mod.rs:84-86, 94-101 [applicable_rules_for_node], [apply_node_rules] *)
Fixpoint first_doc (apply : rule -> res (option doc)) (rules : list rule) : res (option doc) :=
  match rules with
  | [] => Ok None
  | r :: rest => match apply r with
                 | Ok (Some d) => Ok (Some d)
                 | Ok None => first_doc apply rest
                 | Err e => Err e
                 | Panic => Panic
                 end
  end.
Definition apply_node_rules (rules : list rule) (n : rnode) (c : context) (src : str) (children : res doc) : res (option doc) :=
  first_doc (fun r => r_node r n c src children) (filter (fun r => r_on_node r n) rules).

(** rules/mod.rs:89-91, 104-111 [applicable_rules_for_token], [apply_token_rules] *)
Definition apply_token_rules (rules : list rule) (t : rleaf) (c : context) (src : str) : res (option doc) :=
  first_doc (fun r => r_token r t c src) (filter (fun r => r_on_token r t) rules).

(** formatter/mod.rs:143-152 [format_token]; slicing off a boundary or out of range panics *)
Definition format_token (rules : list rule) (t : rleaf) (c : context) (src : str) : res doc :=
  match apply_token_rules rules t c src with
  | Ok (Some d) => Ok d
  | Ok None => match str_get src (l_start t) (l_end t) with Some s => Ok (Text s) | None => Panic end
  | Err e => Err e
  | Panic => Panic
  end.

(** formatter/mod.rs:116-140 [format_node], with the closure [format_children] (121-130); [children()] yields
    the children with their offsets (red_tree.rs:322-340). *)
Fixpoint format_tree (rules : list rule) (src : str) (c : context) (t : green) (off : nat) {struct t} : res doc :=
  match t with
  | GLeaf k n _ => format_token rules (Leaf k off (off + n)) c src
  | GNode k _ ch =>
      let c' := enter c k in
      let children :=
        match (fix go (ch : list green) (off : nat) : res (list doc) :=
                 match ch with
                 | [] => Ok []
                 | x :: r => match format_tree rules src c' x off with
                             | Ok d => match go r (off + glen x) with Ok ds => Ok (d :: ds) | Err e => Err e | Panic => Panic end
                             | Err e => Err e
                             | Panic => Panic
                             end
                 end) ch off with
        | Ok ds => Ok (Concat ds)
        | Err e => Err e
        | Panic => Panic
        end in
      match apply_node_rules rules (Node k ch off) c' src children with
      | Ok (Some d) => Ok d
      | Ok None => children
      | Err e => Err e
      | Panic => Panic
      end
  end.

Fixpoint str_same (a b : str) : bool :=
  match a, b with
  | [], [] => true
  | x :: a', y :: b' => (x =? y)%Z && str_same a' b'
  | _, _ => false
  end.

(** formatter/mod.rs:107-113 [format]: the content and the [changed] flag; the root starts at 0
    (red_tree.rs:180-182 [RedNode::new(green, 0)]) *)
Definition format (cfg : config) (rules : list rule) (root : green) (src : str) : res (str * bool) :=
  match format_tree rules src (Context 0 []) root 0 with
  | Ok d => let content := print cfg d in Ok (content, negb (str_same content src))
  | Err e => Err e
  | Panic => Panic
  end.

(** builtin_rules/mod.rs:6-43; [container], [statement] and [punctuation] are the language's roles *)
Section Builtin.
  Variables (container statement : nat -> bool) (punctuation : nat -> bool).

  Definition no_node (n : rnode) (c : context) (src : str) (ch : res doc) : res (option doc) := Ok None.
  Definition no_token (t : rleaf) (c : context) (src : str) : res (option doc) := Ok None.

  (** builtin_rules/mod.rs:9-19 *)
  Definition rule_indent : rule := Rule 0 (lit "indent") 10 (fun n => container (n_kind n)) (fun _ => false)
    (fun n c src ch => match ch with
                       | Ok d => Ok (Some (Group (Indent (Concat [Line; d]))))
                       | Err e => Err e
                       | Panic => Panic
                       end) no_token.
  (** builtin_rules/mod.rs:22-28 *)
  Definition rule_statement : rule := Rule 1 (lit "statement_newline") 5 (fun n => statement (n_kind n)) (fun _ => false)
    (fun n c src ch => match ch with
                       | Ok d => Ok (Some (Concat [d; Line]))
                       | Err e => Err e
                       | Panic => Panic
                       end) no_token.
  (** builtin_rules/mod.rs:31-41 *)
  Definition rule_comma : rule := Rule 2 (lit "comma_spacing") 6 (fun _ => false) (fun t => punctuation (l_kind t))
    no_node
    (fun t c src => match str_get src (l_start t) (l_end t) with
                    | Some text => if str_same text [44%Z] then Ok (Some (Concat [Text [44%Z]; SoftLineSpace])) else Ok None
                    | None => Panic
                    end).

  (** formatter/mod.rs:91-100 [Formatter::new]; no built-in rule conflicts with another *)
  Definition builtin : list rule :=
    snd (add_rules (fun _ _ => false) [] [rule_indent; rule_statement; rule_comma]).
End Builtin.

(** comment/mod.rs:196-201: the flags of a [CommentProcessor] *)
Record comment_processor := CommentProcessor { preserve_comments : bool; format_comments : bool }.

(** formatter/mod.rs:51-55 [FormatContext::new]: the processor made for a configuration *)
Definition context_processor (config_format_comments : bool) : comment_processor :=
  CommentProcessor config_format_comments config_format_comments.

(** comment/mod.rs:232-248 [process_comments]; a comment is the part of it the code reads, its content without
    markers; [formatted_text] is abstract *)
Definition process_comments (formatted_text : str -> str) (p : comment_processor) (contents : list str) : list str :=
  if preserve_comments p
  then map (fun c => if format_comments p then formatted_text c else c) contents
  else [].
