(** Model of the conversion between Rust values and JSON values: examples/oak-json/src/serde.rs, and [to_string]
    and [from_str] of lib.rs.

    The conversion is driven by the implementations of [Serialize] and [Deserialize] of a type, which are not part
    of the repository.  [ty] is the universe of types modelled: those implementations are the ones of the serde
    crate for standard types and the derived ones for structures and enumerations without attributes.  What such a
    type calls on the serializer, and which [visit_] methods its visitors have, is written here from serde's
    documented data model.  Types are finite (no recursive types), [f32], [i128] and borrowed types are left out.
    [F] stands for [f64]; [of_int] for the casts from integers to it, [show] for [f64::to_string] and [show_int] for the
    [to_string] of integers.  Maps are lists of entries in the order of iteration; reading one adds entries in the
    order in which they are read, as a map that keeps insertion order does.  Errors carry no message. *)
From Coq Require Floats.SpecFloat.
From Verif Require Import Base Utf8 RopeModel TreeModel ParserModel JsonModel JsonAstModel.

Inductive ty :=
| TyBool
| TyInt            (* i8 … u64 *)
| TyFloat          (* f64 *)
| TyChar
| TyString
| TyUnit           (* (), unit structures *)
| TyOption (t : ty)
| TySeq (t : ty)   (* Vec and other sequences *)
| TyTuple (l : list ty)   (* tuples, arrays, tuple structures with other than one field *)
| TyMap (k v : ty)
| TyStruct (l : list (str * ty))
| TyNewtype (t : ty)      (* structures with one unnamed field *)
| TyEnum (l : list (str * shape))
with shape := ShUnit | ShNewtype (t : ty) | ShTuple (l : list ty) | ShStruct (l : list (str * ty)).

Inductive val (F : Type) :=
| RBool (b : bool)
| RInt (z : Z)
| RFloat (f : F)
| RChar (c : Z)
| RString (s : str)
| RUnit
| RNone
| RSome (v : val F)
| RSeq (l : list (val F))
| RTuple (l : list (val F))
| RMap (l : list (val F * val F))
| RStruct (l : list (str * val F))
| RNewtype (v : val F)
| RVariant (name : str) (p : payload F)
with payload (F : Type) := PaUnit | PaNewtype (v : val F) | PaTuple (l : list (val F)) | PaStruct (l : list (str * val F)).
Arguments RBool {F}. Arguments RInt {F}. Arguments RFloat {F}. Arguments RChar {F}. Arguments RString {F}. Arguments RUnit {F}.
Arguments RNone {F}. Arguments RSome {F}. Arguments RSeq {F}. Arguments RTuple {F}. Arguments RMap {F}. Arguments RStruct {F}.
Arguments RNewtype {F}. Arguments RVariant {F}. Arguments PaUnit {F}. Arguments PaNewtype {F}. Arguments PaTuple {F}. Arguments PaStruct {F}.

(** The span [(0..0).into()] of every value written. *)
Definition nospan : span := (0, 0).

Section Write.
  Variable (F : Type) (of_int : Z -> F) (show : F -> str) (show_int : Z -> str).

  (** serde.rs:257-354, [KeySerializer] *)
  Fixpoint key_string (v : val F) : answer str :=
    match v with
    | RBool b => Ok (show_bool b)
    | RInt z => Ok (show_int z)
    | RFloat f => Ok (show f)
    | RChar c => Ok (encode [c])
    | RString s => Ok s
    | RVariant name PaUnit => Ok name
    | RNewtype v => key_string v
    | _ => Err
    end.

  (** One [JsonField], e.g. serde.rs:197, 211 *)
  Definition field_of (name : str) (a : ast F) : str * span * ast F * span := (name, nospan, a, nospan).

  (** The elements pushed one after the other: serde.rs:137-179, 229-232 *)
  Definition write_all (w : val F -> answer (ast F)) : list (val F) -> answer (list (ast F)) :=
    fix go l := match l with
                | [] => Ok []
                | v :: r => match w v with Err => Err | Ok a => match go r with Ok as_ => Ok (a :: as_) | Err => Err end end
                end.
  (** serde.rs:206-218, 245-248: the fields of a structure; [f] is what is pushed for one *)
  Definition write_fields {A} (f : str -> ast F -> A) (w : val F -> answer (ast F)) : list (str * val F) -> answer (list A) :=
    fix go l := match l with
                | [] => Ok []
                | (n, v) :: r => match w v with Err => Err | Ok a => match go r with Ok as_ => Ok (f n a :: as_) | Err => Err end end
                end.
  (** serde.rs:186-204: the entries of a map; the key first *)
  Definition write_entries (w : val F -> answer (ast F)) : list (val F * val F) -> answer (list (str * span * ast F * span)) :=
    fix go l := match l with
                | [] => Ok []
                | (k, v) :: r =>
                    match key_string k with
                    | Err => Err
                    | Ok n => match w v with Err => Err | Ok a => match go r with Ok as_ => Ok (field_of n a :: as_) | Err => Err end end
                    end
                end.

  (** serde.rs:10-12, 18-135: [to_value]; the variants are serde.rs:94-96, 102-106, 120-122, 132-134, 220-255 *)
  Fixpoint to_value (v : val F) : answer (ast F) :=
    match v with
    | RBool b => Ok (ABool b nospan)
    | RInt z => Ok (ANumber (of_int z) nospan)
    | RFloat f => Ok (ANumber f nospan)
    | RChar c => Ok (AString (encode [c]) nospan)
    | RString s => Ok (AString s nospan)
    | RUnit => Ok (ANull nospan)
    | RNone => Ok (ANull nospan)
    | RSome v => to_value v
    | RSeq l => match write_all to_value l with Ok l => Ok (AArray l nospan) | Err => Err end
    | RTuple l => match write_all to_value l with Ok l => Ok (AArray l nospan) | Err => Err end
    | RMap l => match write_entries to_value l with Ok l => Ok (AObject l nospan) | Err => Err end
    | RStruct l => match write_fields field_of to_value l with Ok l => Ok (AObject l nospan) | Err => Err end
    | RNewtype v => to_value v
    | RVariant name PaUnit => Ok (AString name nospan)
    | RVariant name (PaNewtype v) => match to_value v with Ok a => Ok (AObject [field_of name a] nospan) | Err => Err end
    | RVariant name (PaTuple l) =>
        match write_all to_value l with Ok l => Ok (AObject [field_of name (AArray l nospan)] nospan) | Err => Err end
    | RVariant name (PaStruct l) =>
        match write_fields (fun n a => AObject [field_of n a] nospan) to_value l with
        | Ok l => Ok (AObject [field_of name (AArray l nospan)] nospan)
        | Err => Err
        end
    end.
End Write.

Section Read.
  Variable (F : Type).
  Notation fields := (list (str * span * ast F * span)).

  (** What a visitor does; without a method it answers an error *)
  Record visitor := Visitor {
    visit_unit : answer (val F);
    visit_bool : bool -> answer (val F);
    visit_f64 : F -> answer (val F);
    visit_string : str -> answer (val F);
    visit_seq : list (ast F) -> answer (val F);
    visit_map : fields -> answer (val F) }.
  Definition no_visitor : visitor := Visitor Err (fun _ => Err) (fun _ => Err) (fun _ => Err) (fun _ => Err) (fun _ => Err).
  Definition on_unit v := Visitor v (fun _ => Err) (fun _ => Err) (fun _ => Err) (fun _ => Err) (fun _ => Err).
  Definition on_bool f := Visitor Err f (fun _ => Err) (fun _ => Err) (fun _ => Err) (fun _ => Err).
  Definition on_f64 f := Visitor Err (fun _ => Err) f (fun _ => Err) (fun _ => Err) (fun _ => Err).
  Definition on_string f := Visitor Err (fun _ => Err) (fun _ => Err) f (fun _ => Err) (fun _ => Err).
  Definition on_seq f := Visitor Err (fun _ => Err) (fun _ => Err) (fun _ => Err) f (fun _ => Err).
  Definition on_map f := Visitor Err (fun _ => Err) (fun _ => Err) (fun _ => Err) (fun _ => Err) f.
  Definition on_both f g := Visitor Err (fun _ => Err) (fun _ => Err) (fun _ => Err) f g.

  (** serde.rs:359-371; the methods in serde.rs:407-556 all go here *)
  Definition deserialize_any (a : ast F) (v : visitor) : answer (val F) :=
    match a with
    | ANull _ => visit_unit v
    | ABool b _ => visit_bool v b
    | ANumber f _ => visit_f64 v f
    | AString s _ => visit_string v s
    | AArray l _ => visit_seq v l
    | AObject l _ => visit_map v l
    end.

  (** serde.rs:373-381 *)
  Definition deserialize_option (a : ast F) (none : answer (val F)) (some : ast F -> answer (val F)) : answer (val F) :=
    match a with ANull _ => none | _ => some a end.

  (** serde.rs:383-398, 621-643: the name of the variant and what belongs to it *)
  Definition deserialize_enum (a : ast F) : answer (str * option (ast F)) :=
    match a with
    | AString s _ => Ok (s, None)
    | AObject [(name, _, value, _)] _ => Ok (name, Some value)
    | _ => Err
    end.

  (** serde.rs:645-688: what the access to a variant gives for each shape *)
  Definition unit_variant (value : option (ast F)) : answer unit := match value with Some _ => Err | None => Ok tt end.
  Definition newtype_variant (value : option (ast F)) (seed : ast F -> answer (val F)) : answer (val F) :=
    match value with Some a => seed a | None => Err end.
  Definition tuple_variant {A} (value : option (ast F)) (visit : list (ast F) -> answer A) : answer A :=
    match value with Some (AArray l _) => visit l | _ => Err end.
  Definition struct_variant {A} (value : option (ast F)) (visit : fields -> answer A) : answer A :=
    match value with Some (AObject l _) => visit l | _ => Err end.

  (** serde.rs:559-581 as a sequence visitor uses it: all elements *)
  Definition read_all (rd : ast F -> answer (val F)) : list (ast F) -> answer (list (val F)) :=
    fix go l := match l with
                | [] => Ok []
                | a :: r => match rd a with Err => Err | Ok v => match go r with Ok vs => Ok (v :: vs) | Err => Err end end
                end.
  (** … and as a tuple visitor uses it: one element per reader, an error if there is none; it does not ask for more *)
  Fixpoint read_each (rds : list (ast F -> answer (val F))) (l : list (ast F)) : answer (list (val F)) :=
    match rds, l with
    | [], _ => Ok []
    | _ :: _, [] => Err
    | rd :: rds', a :: r => match rd a with Err => Err | Ok v => match read_each rds' r with Ok vs => Ok (v :: vs) | Err => Err end end
    end.

  (** Equality of keys; only these can be read from strings *)
  Fixpoint key_eqb (x y : val F) : bool :=
    match x, y with
    | RChar c, RChar d => (c =? d)%Z
    | RString s, RString t => if list_eq_dec Z.eq_dec s t then true else false
    | RSome x, RSome y => key_eqb x y
    | RNewtype x, RNewtype y => key_eqb x y
    | RVariant n PaUnit, RVariant m PaUnit => if list_eq_dec Z.eq_dec n m then true else false
    | _, _ => false
    end.
  (** Adding to a map: a key already there keeps its place *)
  Fixpoint map_insert (l : list (val F * val F)) (k v : val F) : list (val F * val F) :=
    match l with
    | [] => [(k, v)]
    | (k', v') :: r => if key_eqb k' k then (k', v) :: r else (k', v') :: map_insert r k v
    end.
  (** serde.rs:583-619 as the visitor of a map uses it; keys are given as strings *)
  Fixpoint read_entries (rk rv : ast F -> answer (val F)) (l : fields) (acc : list (val F * val F)) : answer (list (val F * val F)) :=
    match l with
    | [] => Ok acc
    | (name, sp, a, _) :: r =>
        match rk (AString name sp) with
        | Err => Err
        | Ok k => match rv a with Err => Err | Ok v => read_entries rk rv r (map_insert acc k v) end
        end
    end.

  Definition known (name : str) (l : list (str * val F)) : option (val F) :=
    option_map snd (find (fun p => if list_eq_dec Z.eq_dec (fst p) name then true else false) l).
  (** … and as the derived visitor of a structure uses it: fields with other names are skipped, a field that
      comes twice is an error.  [rd] reads the field with a name, if there is one. *)
  Fixpoint read_struct (rd : str -> option (ast F -> answer (val F))) (l : fields) (acc : list (str * val F)) : answer (list (str * val F)) :=
    match l with
    | [] => Ok acc
    | (name, _, a, _) :: r =>
        match rd name with
        | None => read_struct rd r acc
        | Some f =>
            match known name acc with
            | Some _ => Err
            | None => match f a with Err => Err | Ok v => read_struct rd r (acc ++ [(name, v)]) end
            end
        end
    end.
  (** serde's [missing_field]: only options may be missing *)
  Definition missing (t : ty) : answer (val F) := match t with TyOption _ => Ok RNone | _ => Err end.
  Fixpoint finish_struct (l : list (str * ty)) (acc : list (str * val F)) : answer (list (str * val F)) :=
    match l with
    | [] => Ok []
    | (n, t) :: r =>
        match (match known n acc with Some v => Ok v | None => missing t end) with
        | Err => Err
        | Ok v => match finish_struct r acc with Ok vs => Ok ((n, v) :: vs) | Err => Err end
        end
    end.

  Definition bind {A B} (x : answer A) (f : A -> answer B) : answer B := match x with Ok a => f a | Err => Err end.

  (** serde.rs:14-16: [from_value] for the types of [ty] *)
  Fixpoint from_value (t : ty) : ast F -> answer (val F) :=
    let named := fix go (l : list (str * ty)) (name : str) : option (ast F -> answer (val F)) :=
      match l with
      | [] => None
      | (n, t) :: r => if list_eq_dec Z.eq_dec n name then Some (from_value t) else go r name
      end in
    let readers := fix go (l : list ty) := match l with [] => [] | t :: r => from_value t :: go r end in
    let field_readers := fix go (l : list (str * ty)) := match l with [] => [] | (_, t) :: r => from_value t :: go r end in
    match t with
    | TyBool => fun a => deserialize_any a (on_bool (fun b => Ok (RBool b)))
    | TyInt => fun a => deserialize_any a no_visitor (* the visitors of integers accept integers only *)
    | TyFloat => fun a => deserialize_any a (on_f64 (fun f => Ok (RFloat f)))
    | TyChar => fun a => deserialize_any a (on_string (fun s => match decode1 s with Some (c, []) => Ok (RChar c) | _ => Err end))
    | TyString => fun a => deserialize_any a (on_string (fun s => Ok (RString s)))
    | TyUnit => fun a => deserialize_any a (on_unit (Ok RUnit))
    | TyOption t => fun a => deserialize_option a (Ok RNone) (fun a => bind (from_value t a) (fun v => Ok (RSome v)))
    | TySeq t => fun a => deserialize_any a (on_seq (fun l => bind (read_all (from_value t) l) (fun vs => Ok (RSeq vs))))
    | TyTuple ts => fun a => deserialize_any a (on_seq (fun l => bind (read_each (readers ts) l) (fun vs => Ok (RTuple vs))))
    | TyMap k v => fun a => deserialize_any a (on_map (fun l => bind (read_entries (from_value k) (from_value v) l []) (fun m => Ok (RMap m))))
    | TyStruct fs => fun a =>
        deserialize_any a (on_both
          (fun l => bind (read_each (field_readers fs) l) (fun vs => Ok (RStruct (combine (map fst fs) vs))))
          (fun l => bind (read_struct (named fs) l []) (fun acc => bind (finish_struct fs acc) (fun vs => Ok (RStruct vs)))))
    | TyNewtype t => fun a => bind (from_value t a) (fun v => Ok (RNewtype v)) (* serde.rs:400-405 *)
    | TyEnum vs => fun a =>
        bind (deserialize_enum a) (fun p =>
          (fix go (l : list (str * shape)) : answer (val F) :=
             match l with
             | [] => Err
             | (n, sh) :: r =>
                 if list_eq_dec Z.eq_dec n (fst p) then
                   match sh with
                   | ShUnit => bind (unit_variant (snd p)) (fun _ => Ok (RVariant n PaUnit))
                   | ShNewtype t => bind (newtype_variant (snd p) (from_value t)) (fun v => Ok (RVariant n (PaNewtype v)))
                   | ShTuple ts => bind (tuple_variant (snd p) (read_each (readers ts))) (fun vs => Ok (RVariant n (PaTuple vs)))
                   | ShStruct fs =>
                       bind (struct_variant (snd p) (fun l => bind (read_struct (named fs) l []) (finish_struct fs)))
                         (fun vs => Ok (RVariant n (PaStruct vs)))
                   end
                 else go r
             end) vs)
    end.
End Read.

(** lib.rs:50-53: [to_string] *)
Definition serde_to_string {F} (of_int : Z -> F) (show : F -> str) (show_int : Z -> str) (v : val F) : answer str :=
  match to_value F of_int show show_int v with Ok a => Ok (to_string F show a) | Err => Err end.

(** lib.rs:56-59: [from_str]; [None] when [parse] does not answer *)
Definition serde_from_str {F} (alpha alnum : Z -> bool) (parse_f64 : str -> option F)
  (t : ty) (text : str) : option (answer (val F)) :=
  match oak_json_parse alpha alnum parse_f64 text with
  | None => None
  | Some Err => Some Err
  | Some (Ok a) => Some (from_value F t a)
  end.

(** serde.rs:34-57: [v as f64] of an integer, in the IEEE 754 formalisation of Coq's standard library: rounding to
    the nearest number with 53 bits, ties to even *)
Definition int_as_f64 (z : Z) : SpecFloat.spec_float := SpecFloat.binary_normalize 53 1024 z 0 false.
