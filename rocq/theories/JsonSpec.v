(** JSON texts and their values (RFC 8259), over lists of characters. *)
From Verif Require Import Base Utf8.

Inductive json :=
| JNull | JBool (b : bool)
| JNumber (text : list Z)               (* as written *)
| JString (s : list Z)                  (* decoded *)
| JArray (l : list json)
| JObject (l : list (list Z * json)).

(** RFC 8259, 2: ws *)
Definition is_ws (c : Z) : Prop := c = 32%Z \/ c = 9%Z \/ c = 10%Z \/ c = 13%Z.
Definition ws (s : list Z) : Prop := Forall is_ws s.

(** RFC 8259, 6: numbers *)
Definition is_digit (c : Z) : Prop := (48 <= c <= 57)%Z.
Inductive jint : list Z -> Prop :=
| JIZero : jint [48%Z]
| JIPos c r : (49 <= c <= 57)%Z -> Forall is_digit r -> jint (c :: r).
Inductive jfrac : list Z -> Prop :=
| JFNone : jfrac []
| JFSome d r : is_digit d -> Forall is_digit r -> jfrac (46%Z :: d :: r).
Inductive jexp : list Z -> Prop :=
| JENone : jexp []
| JESome e sign d r : (e = 101%Z \/ e = 69%Z) -> (sign = [] \/ sign = [43%Z] \/ sign = [45%Z]) ->
    is_digit d -> Forall is_digit r -> jexp (e :: sign ++ d :: r).
Inductive jnumber : list Z -> Prop :=
| JNum minus i f e : (minus = [] \/ minus = [45%Z]) -> jint i -> jfrac f -> jexp e -> jnumber (minus ++ i ++ f ++ e).

(** RFC 8259, 7: strings *)
Inductive hex4 : list Z -> Z -> Prop :=
| Hex4 a b c d va vb vc vd : hexval a va -> hexval b vb -> hexval c vc -> hexval d vd ->
    hex4 [a; b; c; d] (4096 * va + 256 * vb + 16 * vc + vd)
with hexval : Z -> Z -> Prop :=
| HDigit c : (48 <= c <= 57)%Z -> hexval c (c - 48)
| HLower c : (97 <= c <= 102)%Z -> hexval c (c - 87)
| HUpper c : (65 <= c <= 70)%Z -> hexval c (c - 55).

Definition short_escapes : list (Z * Z) :=
  [(34, 34); (92, 92); (47, 47); (98, 8); (102, 12); (110, 10); (114, 13); (116, 9)]%Z.

(** The characters between the quotes and what they stand for. *)
Inductive jchars : list Z -> list Z -> Prop :=
| JCEnd : jchars [] []
| JCPlain c r d : is_scalar c -> (32 <= c)%Z -> c <> 34%Z -> c <> 92%Z -> jchars r d -> jchars (c :: r) (c :: d)
| JCShort e v r d : In (e, v) short_escapes -> jchars r d -> jchars (92%Z :: e :: r) (v :: d)
| JCHex h v r d : hex4 h v -> is_scalar v -> jchars r d -> jchars (92%Z :: 117%Z :: h ++ r) (v :: d)
| JCPair h1 h2 v1 v2 r d : hex4 h1 v1 -> hex4 h2 v2 -> (0xD800 <= v1 <= 0xDBFF)%Z -> (0xDC00 <= v2 <= 0xDFFF)%Z ->
    jchars r d -> jchars (92%Z :: 117%Z :: h1 ++ 92%Z :: 117%Z :: h2 ++ r)
                         ((0x10000 + (v1 - 0xD800) * 1024 + (v2 - 0xDC00))%Z :: d).

Definition jstring (s d : list Z) : Prop := exists b, s = 34%Z :: b ++ [34%Z] /\ jchars b d.

(** RFC 8259, 3-5: values; [jtext] allows whitespace around *)
Inductive jvalue : list Z -> json -> Prop :=
| VNull : jvalue (lit "null") JNull
| VTrue : jvalue (lit "true") (JBool true)
| VFalse : jvalue (lit "false") (JBool false)
| VNumber s : jnumber s -> jvalue s (JNumber s)
| VString s d : jstring s d -> jvalue s (JString d)
| VArray0 w : ws w -> jvalue (lit "[" ++ w ++ lit "]") (JArray [])
| VArray s l : jelements s l -> jvalue (lit "[" ++ s ++ lit "]") (JArray l)
| VObject0 w : ws w -> jvalue (lit "{" ++ w ++ lit "}") (JObject [])
| VObject s l : jmembers s l -> jvalue (lit "{" ++ s ++ lit "}") (JObject l)
with jtext : list Z -> json -> Prop :=
| TText w1 s w2 v : ws w1 -> jvalue s v -> ws w2 -> jtext (w1 ++ s ++ w2) v
with jelements : list Z -> list json -> Prop :=
| EOne s v : jtext s v -> jelements s [v]
| EMore s v r l : jtext s v -> jelements r l -> jelements (s ++ lit "," ++ r) (v :: l)
with jmembers : list Z -> list (list Z * json) -> Prop :=
| MOne s k v : jmember s k v -> jmembers s [(k, v)]
| MMore s k v r l : jmember s k v -> jmembers r l -> jmembers (s ++ lit "," ++ r) ((k, v) :: l)
with jmember : list Z -> list Z -> json -> Prop :=
| MMember w1 q k w2 s v : ws w1 -> jstring q k -> ws w2 -> jtext s v -> jmember (w1 ++ q ++ w2 ++ lit ":" ++ s) k v.
