(** Model of JSON values: examples/oak-json/src/builder/mod.rs, ast/mod.rs and [parse] of lib.rs.

    [F] stands for [f64], [parse_f64] for [str::parse::<f64>] ([None] is its error) and [show] for
    [f64::to_string].  The errors of the builder are shown as [Err] without their message. *)
From Verif Require Import Base Utf8 RopeModel TreeModel ParserModel JsonModel.

Inductive answer (A : Type) := Ok (a : A) | Err.
Arguments Ok {A}. Arguments Err {A}.

Definition KValue := 1. Definition KElement := 9.

(** ast/mod.rs:14-17, 29-42, 246-252, 279-287, 313-319, 339-345, 360-366, 379-385, 398-402: values with their spans; a field has
    a name with its span, a value and a span. *)
Definition span := (nat * nat)%type.
Inductive ast (F : Type) :=
| ANull (s : span)
| ABool (b : bool) (s : span)
| ANumber (f : F) (s : span)
| AString (v : str) (s : span)
| AArray (l : list (ast F)) (s : span)
| AObject (l : list (str * span * ast F * span)) (s : span).
Arguments ANull {F}. Arguments ABool {F}. Arguments ANumber {F}. Arguments AString {F}. Arguments AArray {F}. Arguments AObject {F}.

(** [trim_matches] with the quote character, which is a single byte *)
Fixpoint trim_start (s : str) : str :=
  match s with c :: r => if (c =? 34)%Z then trim_start r else s | [] => [] end.
Definition trim_quotes (s : str) : str := rev (trim_start (rev (trim_start s))).

Section Build.
  Variable (F : Type) (parse_f64 : str -> option F) (text : str).
  Notation node_builder := (green -> nat -> answer (ast F)).

  (** builder/mod.rs:135-187: the loop over the children of an entry.  [name] and [value] are what was
      found so far.  [bv] is [build_value]. *)
  Definition build_entry (bv : node_builder) : list green -> nat -> bool -> option (str * span) -> option (ast F) -> answer (str * span * ast F) :=
    fix go l off colon name value :=
      match l with
      | [] => match name, value with Some n, Some v => Ok (n, v) | _, _ => Err end
      | (GNode k n ch as t) :: r =>
          let next := go r (off + n) colon in
          if colon then
            match value with
            | Some _ => next name value
            | None =>
                if existsb (Nat.eqb k) [KValue; KObject; KArray; KString; KNumber; KBoolean; KNull] then
                  match bv t off with Ok v => next name (Some v) | Err => Err end
                else next name value
            end
          else if k =? KString then next (Some (trim_quotes (flat_text_in text off (off + n)), (off, off + n))) value
          else next name value
      | GLeaf k n _ :: r =>
          if k =? KColon then go r (off + n) true name value
          else if negb colon && ((k =? KStringLit) || (k =? KBareKey)) then
            let t := flat_text_in text off (off + n) in
            go r (off + n) colon (Some (if k =? KStringLit then trim_quotes t else t, (off, off + n))) value
          else go r (off + n) colon name value
      end.

  (** builder/mod.rs:65-80 *)
  Definition build_fields (bv : node_builder) : list green -> nat -> answer (list (str * span * ast F * span)) :=
    fix go l off :=
      match l with
      | [] => Ok []
      | GNode k n ch :: r =>
          if k =? KEntry then
            match build_entry bv ch off false None None with
            | Err => Err
            | Ok f => match go r (off + n) with Ok fs => Ok ((f, (off, off + n)) :: fs) | Err => Err end
            end
          else go r (off + n)
      | GLeaf _ n _ :: r => go r (off + n)
      end.

  (** builder/mod.rs:83-102 *)
  Definition build_elements (bv : node_builder) : list green -> nat -> answer (list (ast F)) :=
    fix go l off :=
      match l with
      | [] => Ok []
      | (GNode k n ch as t) :: r =>
          if existsb (Nat.eqb k) [KElement; KValue; KObject; KArray; KString; KNumber; KBoolean; KNull] then
            match bv t off with
            | Err => Err
            | Ok v => match go r (off + n) with Ok vs => Ok (v :: vs) | Err => Err end
            end
          else go r (off + n)
      | GLeaf _ n _ :: r => go r (off + n)
      end.

  (** builder/mod.rs:120-129: the first node among the children *)
  Definition build_first (bv : node_builder) : list green -> nat -> answer (ast F) :=
    fix go l off :=
      match l with
      | [] => Err
      | (GNode _ _ _ as t) :: _ => bv t off
      | GLeaf _ n _ :: r => go r (off + n)
      end.

  (** builder/mod.rs:59-133; it is only called with nodes *)
  Fixpoint build_value (t : green) (off : nat) : answer (ast F) :=
    match t with
    | GLeaf _ _ _ => Err
    | GNode k n ch =>
        let sp := (off, off + n) in
        if k =? KObject then match build_fields build_value ch off with Ok l => Ok (AObject l sp) | Err => Err end
        else if k =? KArray then match build_elements build_value ch off with Ok l => Ok (AArray l sp) | Err => Err end
        else if k =? KString then Ok (AString (trim_quotes (flat_text_in text off (off + n))) sp)
        else if k =? KNumber then match parse_f64 (flat_text_in text off (off + n)) with Some f => Ok (ANumber f sp) | None => Err end
        else if k =? KBoolean then Ok (ABool (if list_eq_dec Z.eq_dec (flat_text_in text off (off + n)) (lit "true") then true else false) sp)
        else if k =? KNull then Ok (ANull sp)
        else if (k =? KValue) || (k =? KElement) || (k =? KRoot) then build_first build_value ch off
        else Err
    end.

  (** builder/mod.rs:49-57 *)
  Definition build_root (root : green) : answer (ast F) :=
    match root with
    | GNode _ _ (GNode k n ch :: _) => build_value (GNode k n ch) 0
    | _ => Err
    end.
End Build.

(** lib.rs:61-69 with builder/mod.rs:22-45: parsing a text to a value, in the standard language and without a
    previous parse.  The diagnostics are not looked at. *)
Definition oak_json_parse {F} (alpha alnum : Z -> bool) (parse_f64 : str -> option F) (text : str) : option (answer (ast F)) :=
  match json_parse alpha alnum standard text None with
  | None => None
  | Some (root, _) => Some (build_root F parse_f64 text root)
  end.

Section Print.
  Variable (F : Type) (show : F -> str).

  (** [Vec::join] *)
  Fixpoint join (sep : str) (l : list str) : str :=
    match l with [] => [] | [x] => x | x :: r => x ++ sep ++ join sep r end.
  Definition quote (s : str) : str := lit """" ++ s ++ lit """".
  Definition show_bool (b : bool) : str := if b then lit "true" else lit "false".

  (** ast/mod.rs:91-107 *)
  Fixpoint to_string (v : ast F) : str :=
    match v with
    | ANull _ => lit "null"
    | ABool b _ => show_bool b
    | ANumber f _ => show f
    | AString s _ => quote s
    | AArray l _ => lit "[" ++ join (lit ",") (map to_string l) ++ lit "]"
    | AObject l _ => lit "{" ++ join (lit ",") (map (fun f => quote (fst (fst (fst f))) ++ lit ":" ++ to_string (snd (fst f))) l) ++ lit "}"
    end.

  (** ast/mod.rs:20-22, 218-227, 262-271, 290-294, 322-331, 348-352, 369-371, 388-390, 405-407: [to_source];
      what is pushed into the buffer, with whether a comma is due *)
  Fixpoint push_all (l : list str) (comma : bool) (buffer : str) : str :=
    match l with [] => buffer | x :: r => push_all r true ((if comma then buffer ++ lit "," else buffer) ++ x) end.
  Fixpoint to_source (v : ast F) : str :=
    match v with
    | ANull _ => lit "null"
    | ABool b _ => show_bool b
    | ANumber f _ => show f
    | AString s _ => (lit """" ++ s) ++ lit """"
    | AArray l _ => push_all (map to_source l) false (lit "[") ++ lit "]"
    | AObject l _ => push_all (map (fun f => ((lit """" ++ fst (fst (fst f))) ++ lit """") ++ lit ":" ++ to_source (snd (fst f))) l) false (lit "{") ++ lit "}"
    end.

  (** ast/mod.rs:256-258, 84-89 *)
  Definition object_get (l : list (str * span * ast F * span)) (key : str) : option (ast F) :=
    option_map (fun f => snd (fst f)) (find (fun f => if list_eq_dec Z.eq_dec (fst (fst (fst f))) key then true else false) l).
  Definition value_get (v : ast F) (key : str) : option (ast F) :=
    match v with AObject l _ => object_get l key | _ => None end.
End Print.
