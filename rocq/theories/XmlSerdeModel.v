(** Model of the conversion between Rust values and XML values: examples/oak-xml/src/serde.rs, and [to_string] and
    [from_str] of lib.rs.  The universe of types and values is that of [SerdeModel]; what is said there about it holds here.
    [struct_name] gives the name of a structure, which [val] does not have, from the names of its fields.  In writing
    [None] is a panic; the printing to the terminal (serde.rs:703) is left out. *)
From Verif Require Import Base Utf8 RopeModel CursorModel VfsModel TreeModel ParserModel JsonModel JsonAstModel SerdeModel IniModel XmlModel.

(** The span [(0..0).into()] of every element written *)
Definition xspan : nat * nat := (0, 0).
Definition element_of (name : str) (children : list xvalue) : xvalue := VElement name [] children xspan.
(** The character that marks the names of attributes, U+21AF *)
Definition mark : str := encode [8623]%Z.

Section Write.
  Variable (F : Type) (of_int : Z -> F) (show : F -> str) (show_int : Z -> str) (struct_name : list str -> str).
  Definition writing A := option (answer A).
  Definition wbind {A B} (x : writing A) (f : A -> writing B) : writing B := match x with Some (Ok a) => f a | Some Err => Some Err | None => None end.
  Definition done {A} (a : A) : writing A := Some (Ok a).

  (** serde.rs:333-430 [StringSerializer] *)
  Fixpoint xml_key (v : val F) : answer str :=
    match v with
    | RBool b => Ok (show_bool b)
    | RInt z => Ok (show_int z)
    | RFloat f => Ok (show f)
    | RChar c => Ok (encode [c])
    | RString s => Ok s
    | RUnit | RNone => Ok []
    | RSome v | RNewtype v => xml_key v
    | RVariant name (PaUnit | PaNewtype _) => Ok name
    | _ => Err
    end.

  (** serde.rs:288-300: an element of a fragment under a key *)
  Definition under (key : str) (v : xvalue) : xvalue :=
    match v with
    | VElement _ attrs kids sp => VElement key attrs kids sp
    | _ => element_of key [v]
    end.
  (** serde.rs:266-312 [serialize_value]; attributes and children of the object *)
  Definition add_entry (key : str) (v : xvalue) (object : list xattr * list xvalue) : writing (list xattr * list xvalue) :=
    let '(attrs, kids) := object in
    if prefixb mark key then
      match str_get_from key 1 with
      | None => None
      | Some name =>
          match v with
          | VText t => done (attrs ++ [XAttr name t xspan], kids)
          | VFragment _ => Some Err
          | _ => done (attrs ++ [XAttr name [] xspan], kids)
          end
      end
    else if str_eqb key (lit "$value") then
      match v with VFragment fs => done (attrs, kids ++ fs) | _ => done (attrs, kids ++ [v]) end
    else
      match v with VFragment fs => done (attrs, kids ++ map (under key) fs) | _ => done (attrs, kids ++ [under key v]) end.

  (** The elements pushed one after the other: serde.rs:184-187, 225-228 *)
  Definition xml_all (w : val F -> writing xvalue) : list (val F) -> writing (list xvalue) :=
    fix go l := match l with [] => done [] | v :: r => wbind (w v) (fun x => wbind (go r) (fun xs => done (x :: xs))) end.
  (** serde.rs:261-264: the entries of a map *)
  Definition xml_entries (w : val F -> writing xvalue) : list (val F * val F) -> list xattr * list xvalue -> writing (list xattr * list xvalue) :=
    fix go l object :=
      match l with
      | [] => done object
      | (k, v) :: r => match xml_key k with Err => Some Err | Ok key => wbind (w v) (fun x => wbind (add_entry key x object) (go r)) end
      end.
  (** serde.rs:323-326: the fields of a structure *)
  Definition xml_fields (w : val F -> writing xvalue) : list (str * val F) -> list xattr * list xvalue -> writing (list xattr * list xvalue) :=
    fix go l object := match l with [] => done object | (n, v) :: r => wbind (w v) (fun x => wbind (add_entry n x object) (go r)) end.
  (** serde.rs:239-243: the fields of a variant *)
  Definition xml_variant_fields (w : val F -> writing xvalue) : list (str * val F) -> writing (list xvalue) :=
    fix go l := match l with [] => done [] | (n, v) :: r => wbind (w v) (fun x => wbind (go r) (fun xs => done (element_of n [x] :: xs))) end.

  (** serde.rs:41-43, 49-174 [to_value] *)
  Fixpoint xml_to_value (v : val F) : writing xvalue :=
    match v with
    | RBool b => done (VText (show_bool b))
    | RInt z => done (VText (show (of_int z)))
    | RFloat f => done (VText (show f))
    | RChar c => done (VText (encode [c]))
    | RString s => done (VText s)
    | RUnit | RNone => done (VText [])
    | RSome v | RNewtype v => xml_to_value v
    | RSeq l | RTuple l => wbind (xml_all xml_to_value l) (fun xs => done (VFragment xs))
    | RMap l => wbind (xml_entries xml_to_value l ([], [])) (fun o => done (VElement (lit "root") (fst o) (snd o) xspan))
    | RStruct l => wbind (xml_fields xml_to_value l ([], [])) (fun o => done (VElement (struct_name (map fst l)) (fst o) (snd o) xspan))
    | RVariant name PaUnit => done (VText name)
    | RVariant name (PaNewtype v) => wbind (xml_to_value v) (fun x => done (element_of name [x]))
    | RVariant name (PaTuple l) => wbind (xml_all xml_to_value l) (fun xs => done (element_of name xs))
    | RVariant name (PaStruct l) => wbind (xml_variant_fields xml_to_value l) (fun xs => done (element_of name xs))
    end.
End Write.

Section Read.
  Variable F : Type.

  (** serde.rs:670-690: [entries.iter_mut().find(…)], pushing where the key is, or a new entry *)
  Fixpoint group_push (key : str) (v : xvalue) (entries : list (str * list xvalue)) : list (str * list xvalue) :=
    match entries with
    | [] => [(key, [v])]
    | (k, vs) :: r => if str_eqb k key then (k, vs ++ [v]) :: r else (k, vs) :: group_push key v r
    end.
  Definition group_child (entries : list (str * list xvalue)) (c : xvalue) : list (str * list xvalue) :=
    match c with
    | VElement name _ _ _ => group_push name c entries
    | VText _ => group_push (lit "$value") c entries
    | _ => entries
    end.
  (** serde.rs:692-706: one value is itself, more are a fragment *)
  Definition entry_value (vs : list xvalue) : xvalue := match vs with [v] => v | _ => VFragment vs end.
  (** serde.rs:661-711 [MapDeserializer::new] *)
  Definition map_entries (attrs : list xattr) (kids : list xvalue) : list (str * xvalue) :=
    map (fun e => (fst e, entry_value (snd e))) (fold_left group_child kids (map (fun a => (mark ++ xa_name a, [VText (xa_value a)])) attrs)).

  (** What a visitor does; without a method it answers an error *)
  Record xvisitor := XVisitor { xv_string : str -> answer (val F); xv_seq : list xvalue -> answer (val F); xv_map : list (str * xvalue) -> answer (val F) }.
  Definition x_none : xvisitor := XVisitor (fun _ => Err) (fun _ => Err) (fun _ => Err).
  Definition x_string f := XVisitor f (fun _ => Err) (fun _ => Err).
  Definition x_map f := XVisitor (fun _ => Err) (fun _ => Err) f.
  Definition x_both f g := XVisitor (fun _ => Err) f g.

  (** serde.rs:435-445; the methods in serde.rs:475-653 that only go here are not repeated *)
  Definition x_any (x : xvalue) (v : xvisitor) : answer (val F) :=
    match x with
    | VText t => xv_string v t
    | VElement _ attrs kids _ => xv_map v (map_entries attrs kids)
    | VFragment fs => xv_seq v fs
    | _ => Err
    end.
  (** serde.rs:447-455 *)
  Definition x_option (x : xvalue) (none : answer (val F)) (some : xvalue -> answer (val F)) : answer (val F) :=
    match x with VText [] => none | _ => some x end.
  (** serde.rs:457-466, 764-786 *)
  Definition x_enum (x : xvalue) : answer (str * option xvalue) :=
    match x with
    | VText t => Ok (t, None)
    | VElement name _ _ _ => Ok (name, Some x)
    | _ => Err
    end.
  (** serde.rs:547-576 [deserialize_str]; 578-583 [deserialize_string] is the same *)
  Definition is_text (x : xvalue) : bool := match x with VText _ => true | _ => false end.
  Definition text_part (x : xvalue) : str := match x with VText t => t | _ => [] end.
  Definition x_str (x : xvalue) (v : xvisitor) : answer (val F) :=
    match x with
    | VText t => xv_string v t
    | VElement _ attrs kids _ =>
        match attrs with
        | [] => if forallb is_text kids then xv_string v (concat (map text_part kids)) else x_any x v
        | _ => x_any x v
        end
    | VFragment fs => xv_string v (concat (map xml_to_string fs))
    | _ => x_any x v
    end.
  (** serde.rs:608-617 [deserialize_seq]; [deserialize_tuple] and [deserialize_tuple_struct] are the same *)
  Definition x_seq {A} (x : xvalue) (visit : list xvalue -> answer A) : answer A :=
    match x with
    | VElement _ _ kids _ => visit kids
    | VFragment fs => visit fs
    | _ => Err
    end.
  (** serde.rs:792-828 [VariantDeserializer] *)
  Definition x_newtype_variant (value : option xvalue) (seed : xvalue -> answer (val F)) : answer (val F) := match value with Some x => seed x | None => Err end.
  Definition x_tuple_variant {A} (value : option xvalue) (visit : list xvalue -> answer A) : answer A :=
    match value with Some (VElement _ _ kids _) => visit kids | _ => Err end.
  Definition x_struct_variant {A} (value : option xvalue) (visit : list (str * xvalue) -> answer A) : answer A :=
    match value with Some (VElement _ attrs kids _) => visit (map_entries attrs kids) | _ => Err end.

  (** serde.rs:740-762 as a sequence visitor, and as a tuple visitor, uses it *)
  Definition x_read_all (rd : xvalue -> answer (val F)) : list xvalue -> answer (list (val F)) :=
    fix go l := match l with [] => Ok [] | a :: r => bind (rd a) (fun v => bind (go r) (fun vs => Ok (v :: vs))) end.
  Fixpoint x_read_each (rds : list (xvalue -> answer (val F))) (l : list xvalue) : answer (list (val F)) :=
    match rds, l with
    | [], _ => Ok []
    | _ :: _, [] => Err
    | rd :: rds', a :: r => bind (rd a) (fun v => bind (x_read_each rds' r) (fun vs => Ok (v :: vs)))
    end.
  (** serde.rs:717-727: a key is read from a [StrDeserializer] of serde, which has strings only: options and newtypes do
      not take one *)
  Definition key_from (t : ty) (name : str) : answer (val F) :=
    match t with
    | TyChar => match decode1 name with Some (c, []) => Ok (RChar c) | _ => Err end
    | TyString => Ok (RString name)
    | TyEnum l => match find (fun v => if list_eq_dec Z.eq_dec (fst v) name then true else false) l with Some (n, ShUnit) => Ok (RVariant n PaUnit) | _ => Err end
    | _ => Err
    end.
  (** serde.rs:714-738 as the visitor of a map uses it *)
  Fixpoint x_read_entries (kt : ty) (rv : xvalue -> answer (val F)) (l : list (str * xvalue)) (acc : list (val F * val F)) : answer (list (val F * val F)) :=
    match l with
    | [] => Ok acc
    | (name, a) :: r => bind (key_from kt name) (fun k => bind (rv a) (fun v => x_read_entries kt rv r (map_insert F acc k v)))
    end.
  (** … and as the derived visitor of a structure uses it; fields with other names are skipped: what they hold is made of
      texts, elements and fragments of elements, for which [deserialize_ignored_any] has no error *)
  Fixpoint x_read_struct (rd : str -> option (xvalue -> answer (val F))) (l : list (str * xvalue)) (acc : list (str * val F)) : answer (list (str * val F)) :=
    match l with
    | [] => Ok acc
    | (name, a) :: r =>
        match rd name with
        | None => x_read_struct rd r acc
        | Some f => match known F name acc with Some _ => Err | None => bind (f a) (fun v => x_read_struct rd r (acc ++ [(name, v)])) end
        end
    end.

  (** serde.rs:45-47 [from_value] for the types of [ty] *)
  Fixpoint xml_from (t : ty) : xvalue -> answer (val F) :=
    let named := fix go (l : list (str * ty)) (name : str) : option (xvalue -> answer (val F)) :=
      match l with
      | [] => None
      | (n, t) :: r => if list_eq_dec Z.eq_dec n name then Some (xml_from t) else go r name
      end in
    let readers := fix go (l : list ty) := match l with [] => [] | t :: r => xml_from t :: go r end in
    let field_readers := fix go (l : list (str * ty)) := match l with [] => [] | (_, t) :: r => xml_from t :: go r end in
    match t with
    | TyBool | TyInt | TyFloat | TyUnit => fun x => x_any x x_none (* their visitors take neither strings nor sequences nor maps *)
    | TyChar => fun x => x_any x (x_string (fun s => match decode1 s with Some (c, []) => Ok (RChar c) | _ => Err end))
    | TyString => fun x => x_str x (x_string (fun s => Ok (RString s)))
    | TyOption t => fun x => x_option x (Ok RNone) (fun x => bind (xml_from t x) (fun v => Ok (RSome v)))
    | TySeq t => fun x => x_seq x (fun l => bind (x_read_all (xml_from t) l) (fun vs => Ok (RSeq vs)))
    | TyTuple ts => fun x => x_seq x (fun l => bind (x_read_each (readers ts) l) (fun vs => Ok (RTuple vs)))
    | TyMap k v => fun x => x_any x (x_map (fun l => bind (x_read_entries k (xml_from v) l []) (fun m => Ok (RMap m))))
    | TyStruct fs => fun x =>
        x_any x (x_both
          (fun l => bind (x_read_each (field_readers fs) l) (fun vs => Ok (RStruct (combine (map fst fs) vs))))
          (fun l => bind (x_read_struct (named fs) l []) (fun acc => bind (finish_struct F fs acc) (fun vs => Ok (RStruct vs)))))
    | TyNewtype t => fun x => bind (xml_from t x) (fun v => Ok (RNewtype v)) (* serde.rs:468-473 *)
    | TyEnum vs => fun x =>
        bind (x_enum x) (fun p =>
          (fix go (l : list (str * shape)) : answer (val F) :=
             match l with
             | [] => Err
             | (n, sh) :: r =>
                 if list_eq_dec Z.eq_dec n (fst p) then
                   match sh with
                   | ShUnit => Ok (RVariant n PaUnit) (* serde.rs:795-797 *)
                   | ShNewtype t => bind (x_newtype_variant (snd p) (xml_from t)) (fun v => Ok (RVariant n (PaNewtype v)))
                   | ShTuple ts => bind (x_tuple_variant (snd p) (x_read_each (readers ts))) (fun vs => Ok (RVariant n (PaTuple vs)))
                   | ShStruct fs =>
                       bind (x_struct_variant (snd p) (fun l => bind (x_read_struct (named fs) l []) (finish_struct F fs)))
                         (fun vs => Ok (RVariant n (PaStruct vs)))
                   end
                 else go r
             end) vs)
    end.
End Read.

(** lib.rs:50-54 [to_string] *)
Definition xml_write {F} (of_int : Z -> F) (show : F -> str) (show_int : Z -> str) (struct_name : list str -> str) (v : val F) : writing str :=
  wbind (xml_to_value F of_int show show_int struct_name v) (fun x => done (xml_to_string x)).
(** lib.rs:56-60 [from_str] *)
Definition xml_read {F} (t : ty) (text : str) : option (answer (val F)) :=
  match xml_value text with
  | None => None
  | Some None => Some Err
  | Some (Some x) => Some (xml_from F t x)
  end.
