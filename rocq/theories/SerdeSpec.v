(** Which values survive being written as JSON and read again. *)
From Coq Require Import Floats.SpecFloat.
From Verif Require Import Base Utf8 JsonAstModel SerdeModel.

(** The values of a type.  A map has every key once. *)
Section Types.
  Variable F : Type.

  Fixpoint has_type (t : ty) (v : val F) : Prop :=
    match t, v with
    | TyBool, RBool _ => True
    | TyInt, RInt _ => True
    | TyFloat, RFloat _ => True
    | TyChar, RChar c => is_scalar c
    | TyString, RString s => valid s
    | TyUnit, RUnit => True
    | TyOption _, RNone => True
    | TyOption t, RSome v => has_type t v
    | TySeq t, RSeq l => Forall (has_type t) l
    | TyTuple ts, RTuple l => (fix all ts l := match ts, l with [], [] => True | t :: ts', v :: l' => has_type t v /\ all ts' l' | _, _ => False end) ts l
    | TyMap k v, RMap l => Forall (fun e => has_type k (fst e) /\ has_type v (snd e)) l /\ NoDup (map fst l)
    | TyStruct fs, RStruct l =>
        (fix all fs l := match fs, l with [], [] => True | (n, t) :: fs', (m, v) :: l' => n = m /\ has_type t v /\ all fs' l' | _, _ => False end) fs l
    | TyNewtype t, RNewtype v => has_type t v
    | TyEnum vs, RVariant n p =>
        (fix some vs := match vs with
                        | [] => False
                        | (m, sh) :: vs' =>
                            m = n /\ match sh, p with
                                     | ShUnit, PaUnit => True
                                     | ShNewtype t, PaNewtype v => has_type t v
                                     | ShTuple ts, PaTuple l => (fix all ts l := match ts, l with [], [] => True | t :: ts', v :: l' => has_type t v /\ all ts' l' | _, _ => False end) ts l
                                     | ShStruct fs, PaStruct l =>
                                         (fix all fs l := match fs, l with [], [] => True | (n, t) :: fs', (m, v) :: l' => n = m /\ has_type t v /\ all fs' l' | _, _ => False end) fs l
                                     | _, _ => False
                                     end \/ some vs'
                        end) vs
    | _, _ => False
    end.
End Types.

(** What Rust demands of declarations: the fields of a structure and the variants of an enumeration have different
    names.  Names are text, and no enumeration is empty (such a type has no values). *)
Fixpoint declared (t : ty) : Prop :=
  let fields_ok (l : list (str * ty)) := NoDup (map fst l) /\ (fix all l := match l with [] => True | (_, t) :: r => declared t /\ all r end) l in
  let all_ok := fix all (l : list ty) := match l with [] => True | t :: r => declared t /\ all r end in
  match t with
  | TyOption t | TySeq t | TyNewtype t => declared t
  | TyTuple l => all_ok l
  | TyMap k v => declared k /\ declared v
  | TyStruct l => fields_ok l
  | TyEnum l => l <> [] /\ NoDup (map fst l) /\
      (fix all l := match l with
                    | [] => True
                    | (n, sh) :: r =>
                        valid n /\ match sh with ShUnit => True | ShNewtype t => declared t | ShTuple l => all_ok l | ShStruct l => fields_ok l end /\ all r
                    end) l
  | _ => True
  end.

(** Types with a value written as [null]. *)
Fixpoint nullable (t : ty) : Prop :=
  match t with TyUnit | TyOption _ => True | TyNewtype t => nullable t | _ => False end.
(** Types whose values can be keys and come back from strings. *)
Fixpoint textual (t : ty) : Prop :=
  match t with
  | TyChar | TyString => True
  | TyNewtype t => textual t
  | TyEnum l => Forall (fun v => snd v = ShUnit) l
  | _ => False
  end.
(** Types without integers, options of types with a value written as [null], maps with other keys, and variants with
    named fields. *)
Fixpoint survives (t : ty) : Prop :=
  let all_fields := fix all (l : list (str * ty)) := match l with [] => True | (_, t) :: r => survives t /\ all r end in
  let all_types := fix all (l : list ty) := match l with [] => True | t :: r => survives t /\ all r end in
  match t with
  | TyBool | TyFloat | TyChar | TyString | TyUnit => True
  | TyInt => False
  | TyOption t => survives t /\ ~ nullable t
  | TySeq t | TyNewtype t => survives t
  | TyTuple l => all_types l
  | TyMap k v => textual k /\ survives v
  | TyStruct l => all_fields l
  | TyEnum l => (fix all l := match l with
                              | [] => True
                              | (_, sh) :: r => match sh with ShUnit => True | ShNewtype t => survives t | ShTuple l => all_types l | ShStruct _ => False end /\ all r
                              end) l
  end.

(** A binary floating point number is an integer. *)
Definition is_int (f : spec_float) (z : Z) : Prop :=
  match f with
  | S754_zero _ => z = 0%Z
  | S754_finite s m e => let v := if s then Zneg m else Zpos m in (0 <= e /\ v * 2 ^ e = z \/ e < 0 /\ v = z * 2 ^ (- e))%Z
  | _ => False
  end.

(** What a structure is read from: every field comes once and is read, or does not come and is optional.
    Entries with other names do not matter. *)
Definition values_named {F} (n : str) (l : list (str * span * ast F * span)) : list (ast F) :=
  map (fun e => snd (fst e)) (filter (fun e => if list_eq_dec Z.eq_dec (fst (fst (fst e))) n then true else false) l).
Definition field_from {F} (l : list (str * span * ast F * span)) (f : str * ty) (e : str * val F) : Prop :=
  fst e = fst f /\
  ((exists a, values_named (fst f) l = [a] /\ from_value F (snd f) a = Ok (snd e)) \/
   (values_named (fst f) l = [] /\ (exists t, snd f = TyOption t) /\ snd e = RNone)).

(** What a value of an enumeration is read from. *)
Inductive variant_from {F} : list (str * shape) -> ast F -> val F -> Prop :=
| VfUnit vs n s : In (n, ShUnit) vs -> variant_from vs (AString n s) (RVariant n PaUnit)
| VfNewtype vs n s1 s2 s a t v : In (n, ShNewtype t) vs -> from_value F t a = Ok v -> variant_from vs (AObject [(n, s1, a, s2)] s) (RVariant n (PaNewtype v))
| VfTuple vs n s1 s2 s l s' ts r : In (n, ShTuple ts) vs -> from_value F (TyTuple ts) (AArray l s') = Ok (RTuple r) ->
    variant_from vs (AObject [(n, s1, AArray l s', s2)] s) (RVariant n (PaTuple r))
| VfStruct vs n s1 s2 s l s' fs r : In (n, ShStruct fs) vs -> from_value F (TyStruct fs) (AObject l s') = Ok (RStruct r) ->
    variant_from vs (AObject [(n, s1, AObject l s', s2)] s) (RVariant n (PaStruct r)).

(** What a map from strings has for a name: the last entry of that name counts. *)
Definition entry_of {F} (m : list (val F * val F)) (n : str) : list (val F) :=
  map snd (filter (fun e => match fst e with RString k => if list_eq_dec Z.eq_dec k n then true else false | _ => false end) m).
