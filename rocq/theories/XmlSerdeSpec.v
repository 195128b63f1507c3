(** Which values survive being written as XML values and read again, and what can come out of an XML text. *)
From Verif Require Import Base Utf8 SerdeModel XmlModel.

(** Names that are neither marked as attributes (U+21AF) nor the special name for the content *)
Definition plain_name (n : str) : Prop := n <> lit "$value" /\ forall r, n <> encode [8623%Z] ++ r.
Definition plain_key {F} (k : val F) : Prop :=
  match k with
  | RChar c => plain_name (encode [c])
  | RString s => plain_name s
  | RVariant n PaUnit => plain_name n
  | _ => False
  end.

(** Written as an empty text *)
Inductive blank {F} : val F -> Prop :=
| BlString : blank (RString [])
| BlUnit : blank RUnit
| BlNone : blank RNone
| BlSome v : blank v -> blank (RSome v)
| BlNewtype v : blank v -> blank (RNewtype v)
| BlVariant : blank (RVariant [] PaUnit).
(** Written as an element *)
Inductive elementish {F} : val F -> Prop :=
| ElMap l : elementish (RMap l)
| ElStruct l : elementish (RStruct l)
| ElVariant n p : p <> PaUnit -> elementish (RVariant n p)
| ElSome v : elementish v -> elementish (RSome v)
| ElNewtype v : elementish v -> elementish (RNewtype v).
(** Strings, possibly in options and in structures with one unnamed field *)
Inductive stringish {F} : val F -> Prop :=
| StString s : stringish (RString s)
| StSome v : stringish v -> stringish (RSome v)
| StNewtype v : stringish v -> stringish (RNewtype v).

(** Values that survive by themselves, as a field of a structure or a value of a map, and as one of several elements of
    a sequence in such a place. *)
Inductive whole {F} : val F -> Prop :=
| WhChar c : whole (RChar c)
| WhString s : whole (RString s)
| WhNone : whole RNone
| WhSome v : whole v -> ~ blank v -> whole (RSome v)
| WhNewtype v : whole v -> whole (RNewtype v)
| WhSeq l : Forall whole l -> whole (RSeq l)
| WhTuple l : Forall whole l -> whole (RTuple l)
| WhMap l : Forall (fun e => plain_key (fst e) /\ field (snd e)) l -> whole (RMap l)
| WhStruct l : Forall (fun e => plain_name (fst e) /\ field (snd e)) l -> whole (RStruct l)
| WhUnit n : whole (RVariant n PaUnit)
| WhPaNewtype n v : stringish v -> whole (RVariant n (PaNewtype v))
| WhPaTuple n l : Forall whole l -> whole (RVariant n (PaTuple l))
| WhPaStruct n l : Forall (fun e => stringish (snd e)) l -> whole (RVariant n (PaStruct l))
with field {F} : val F -> Prop :=
| FiSingle v : single v -> field v
| FiSome v : field v -> field (RSome v)
| FiNewtype v : field v -> field (RNewtype v)
| FiOne v : whole v -> ~ elementish v -> field (RSeq [v])
| FiMany v w l : Forall single (v :: w :: l) -> field (RSeq (v :: w :: l))
| FiTupleOne v : whole v -> ~ elementish v -> field (RTuple [v])
| FiTuple v w l : Forall single (v :: w :: l) -> field (RTuple (v :: w :: l))
with single {F} : val F -> Prop :=
| SiString s : single (RString s)
| SiSome v : single v -> single (RSome v)
| SiNewtype v : single v -> single (RNewtype v)
| SiMap l : Forall (fun e => plain_key (fst e) /\ field (snd e)) l -> single (RMap l)
| SiStruct l : Forall (fun e => plain_name (fst e) /\ field (snd e)) l -> single (RStruct l).

(** Values without content: no number, no character, no string but the empty one and markup.  The keys of maps are
    names of elements. *)
Inductive hollow {F} : val F -> Prop :=
| HoString s : s = [] \/ (exists r, s = lit "<" ++ r) -> hollow (RString s)
| HoNone : hollow RNone
| HoSome v : hollow v -> hollow (RSome v)
| HoNewtype v : hollow v -> hollow (RNewtype v)
| HoSeq l : Forall hollow l -> hollow (RSeq l)
| HoTuple l : Forall hollow l -> hollow (RTuple l)
| HoMap l : Forall (fun e => hollow (snd e)) l -> hollow (RMap l)
| HoStruct l : Forall (fun e => hollow (snd e)) l -> hollow (RStruct l)
| HoUnit n : hollow (RVariant n PaUnit)
| HoPaNewtype n v : hollow v -> hollow (RVariant n (PaNewtype v))
| HoPaTuple n l : Forall hollow l -> hollow (RVariant n (PaTuple l))
| HoPaStruct n l : Forall (fun e => hollow (snd e)) l -> hollow (RVariant n (PaStruct l)).

(** Values made of characters and strings: no truth value, no number and no unit anywhere. *)
Inductive wordy {F} : val F -> Prop :=
| WoChar c : wordy (RChar c)
| WoString s : wordy (RString s)
| WoNone : wordy RNone
| WoSome v : wordy v -> wordy (RSome v)
| WoNewtype v : wordy v -> wordy (RNewtype v)
| WoSeq l : Forall wordy l -> wordy (RSeq l)
| WoTuple l : Forall wordy l -> wordy (RTuple l)
| WoMap l : Forall (fun e => wordy (fst e) /\ wordy (snd e)) l -> wordy (RMap l)
| WoStruct l : Forall (fun e => wordy (snd e)) l -> wordy (RStruct l)
| WoUnit n : wordy (RVariant n PaUnit)
| WoPaNewtype n v : wordy v -> wordy (RVariant n (PaNewtype v))
| WoPaTuple n l : Forall wordy l -> wordy (RVariant n (PaTuple l))
| WoPaStruct n l : Forall (fun e => wordy (snd e)) l -> wordy (RVariant n (PaStruct l)).
