(** What the values of JSON texts are expected to be. *)
From Verif Require Import Base Utf8 JsonSpec JsonAstModel.

(** A value of the program stands for a value of RFC 8259; [parse_f64] says which number a text is. *)
Section Denotes.
  Variable (F : Type) (parse_f64 : str -> option F).

  Fixpoint denotes (a : ast F) (v : json) : Prop :=
    match a, v with
    | ANull _, JNull => True
    | ABool b _, JBool c => b = c
    | ANumber f _, JNumber s => parse_f64 (encode s) = Some f
    | AString s _, JString d => s = encode d
    | AArray l _, JArray m =>
        (fix all l m := match l, m with
                        | [], [] => True
                        | a :: l', v :: m' => denotes a v /\ all l' m'
                        | _, _ => False
                        end) l m
    | AObject l _, JObject m =>
        (fix all l m := match l, m with
                        | [], [] => True
                        | (k, _, a, _) :: l', (d, v) :: m' => k = encode d /\ denotes a v /\ all l' m'
                        | _, _ => False
                        end) l m
    | _, _ => False
    end.

  (** The spans say where the values are in the text; whitespace may follow. *)
  Definition at_span (text : str) (s : span) (t : str) : Prop := substr text (fst s) (snd s) = t /\ fst s <= snd s <= length text.
  Definition span_of (a : ast F) : span :=
    match a with ANull s | ABool _ s | ANumber _ s | AString _ s | AArray _ s | AObject _ s => s end.
  Fixpoint in_sequence (a : nat) (l : list span) (b : nat) : Prop :=
    match l with [] => a <= b | s :: r => a <= fst s /\ fst s <= snd s /\ in_sequence (snd s) r b end.
  Definition encloses (text : str) (o : str) (s : span) (l : list span) : Prop :=
    (exists t, at_span text s (o ++ t)) /\ in_sequence (S (fst s)) l (snd s).
  Fixpoint placed (text : str) (a : ast F) : Prop :=
    match a with
    | ANull s => exists w, ws w /\ at_span text s (lit "null" ++ w)
    | ABool b s => exists w, ws w /\ at_span text s ((if b then lit "true" else lit "false") ++ w)
    | ANumber f s => exists t, at_span text s t /\ parse_f64 t = Some f
    | AString v s => at_span text s (lit """" ++ v ++ lit """")
    | AArray l s => encloses text (lit "[") s (map span_of l) /\ (fix all l := match l with [] => True | a :: r => placed text a /\ all r end) l
    | AObject l s => encloses text (lit "{") s (map snd l) /\
        (fix all l := match l with
                      | [] => True
                      | (k, ks, a, fs) :: r => at_span text ks (lit """" ++ k ++ lit """") /\ in_sequence (fst fs) [ks; span_of a] (snd fs) /\ placed text a /\ all r
                      end) l
    end.
End Denotes.

(** The value without its spans. *)
Fixpoint erase {F} (a : ast F) : ast F :=
  match a with
  | ANull _ => ANull (0, 0)
  | ABool b _ => ABool b (0, 0)
  | ANumber f _ => ANumber f (0, 0)
  | AString s _ => AString s (0, 0)
  | AArray l _ => AArray (map erase l) (0, 0)
  | AObject l _ => AObject (map (fun f => (fst (fst (fst f)), (0, 0), erase (snd (fst f)), (0, 0))) l) (0, 0)
  end.

(** JSON texts without whitespace in front of them and directly after [true], numbers and strings that are
    values, and without escapes. *)
Definition plain_char (c : Z) : Prop := is_scalar c /\ (32 <= c)%Z /\ c <> 34%Z /\ c <> 92%Z.
Definition quoted (b : list Z) : list Z := lit """" ++ b ++ lit """".

Inductive tidy : list Z -> json -> Prop :=
| TNull w : ws w -> tidy (lit "null" ++ w) JNull
| TTrue : tidy (lit "true") (JBool true)
| TFalse w : ws w -> tidy (lit "false" ++ w) (JBool false)
| TNumber s : jnumber s -> tidy s (JNumber s)
| TString s : Forall plain_char s -> tidy (quoted s) (JString s)
| TArray0 w1 w2 : ws w1 -> ws w2 -> tidy (lit "[" ++ w1 ++ lit "]" ++ w2) (JArray [])
| TArray w1 s l w2 : ws w1 -> tidy_elements s l -> ws w2 -> tidy (lit "[" ++ w1 ++ s ++ lit "]" ++ w2) (JArray l)
| TObject0 w1 w2 : ws w1 -> ws w2 -> tidy (lit "{" ++ w1 ++ lit "}" ++ w2) (JObject [])
| TObject w1 s l w2 : ws w1 -> tidy_members s l -> ws w2 -> tidy (lit "{" ++ w1 ++ s ++ lit "}" ++ w2) (JObject l)
with tidy_elements : list Z -> list json -> Prop :=
| TEOne s v : tidy s v -> tidy_elements s [v]
| TEMore s v w r l : tidy s v -> ws w -> tidy_elements r l -> tidy_elements (s ++ lit "," ++ w ++ r) (v :: l)
with tidy_members : list Z -> list (list Z * json) -> Prop :=
| TMOne k w1 w2 s v : Forall plain_char k -> ws w1 -> ws w2 -> tidy s v -> tidy_members (quoted k ++ w1 ++ lit ":" ++ w2 ++ s) [(k, v)]
| TMMore k w1 w2 s v w r l : Forall plain_char k -> ws w1 -> ws w2 -> tidy s v -> ws w -> tidy_members r l ->
    tidy_members ((quoted k ++ w1 ++ lit ":" ++ w2 ++ s) ++ lit "," ++ w ++ r) ((k, v) :: l).

(** Values whose strings need no escapes, or are escaped already, and whose numbers print as JSON numbers
    that are read back. *)
Section Printable.
  Variable (F : Type) (parse_f64 : str -> option F) (show : F -> str).

  (** The inside of a string literal: no quote without a backslash, no backslash left over, and not a quote at the end. *)
  Inductive escaped_body : list Z -> Prop :=
  | EBNil : escaped_body []
  | EBPlain c r : c <> 34%Z -> c <> 92%Z -> escaped_body r -> escaped_body (c :: r)
  | EBEscape c r : escaped_body r -> escaped_body (92%Z :: c :: r).
  Definition printable_string (s : str) : Prop := exists b, s = encode b /\ Forall is_scalar b /\ escaped_body b /\ last b 0%Z <> 34%Z.
  Definition printable_number (f : F) : Prop := jnumber (show f) /\ parse_f64 (show f) = Some f.

  Fixpoint printable (a : ast F) : Prop :=
    match a with
    | ANull _ | ABool _ _ => True
    | ANumber f _ => printable_number f
    | AString s _ => printable_string s
    | AArray l _ => (fix all l := match l with [] => True | a :: r => printable a /\ all r end) l
    | AObject l _ => (fix all l := match l with [] => True | (k, _, a, _) :: r => printable_string k /\ printable a /\ all r end) l
    end.
End Printable.
