(** What the VON lexer, parser, builder and printer are compared with.  Only the numbers of the kinds and the types of
    trees and values are taken from the models. *)
From Verif Require Import Base Utf8 LexModel LexSpec TreeModel JsonLangSpec LangSpec VonModel.
From Verif Require XmlSpec.

(** ** Pieces of a text *)
Definition blank (c : Z) : Prop := c = 32%Z \/ c = 9%Z.
Definition eol (c : Z) : Prop := c = 10%Z \/ c = 13%Z.
Definition digit (c : Z) : Prop := (48 <= c <= 57)%Z.
Definition letter (c : Z) : Prop := (97 <= c <= 122)%Z \/ (65 <= c <= 90)%Z.
Definition start (c : Z) : Prop := letter c \/ c = 95%Z.
Definition word (c : Z) : Prop := start c \/ digit c.
Definition figure (c : Z) : Prop := digit c \/ c = 95%Z.
Definition quote (c : Z) : Prop := c = 34%Z \/ c = 39%Z.

(** The next character, if any, is not one of those *)
Definition ends (P : Z -> Prop) (r : list Z) : Prop := forall c, hd_error r = Some c -> ~ P c.
(** A run of characters that is not cut short *)
Definition run_of (P : Z -> Prop) (s r : list Z) : Prop := Forall P s /\ ends P r.

(** *** Numbers: [-]figures[.figures][e[+-]figures]; figures are digits and underscores *)
Definition minus (s : list Z) : Prop := s = [] \/ s = lit "-".
Definition figures (s : list Z) : Prop := exists d t, s = d :: t /\ digit d /\ Forall figure t.
(** underscores, then a digit, then figures *)
Definition spaced_figures (s : list Z) : Prop := exists u d t, s = u ++ d :: t /\ Forall (eq 95%Z) u /\ digit d /\ Forall figure t.
Definition fraction (s : list Z) : Prop := exists t, s = lit "." ++ t /\ spaced_figures t.
Definition exponent (s : list Z) : Prop := exists e g t, s = e :: g ++ t /\ (e = 101%Z \/ e = 69%Z) /\ (g = [] \/ g = lit "+" \/ g = lit "-") /\
  (figures t \/ exists t', t = lit "_" ++ t' /\ figures t').
Definition maybe (P : list Z -> Prop) (s : list Z) : Prop := s = [] \/ P s.
(** whole, fraction and exponent of the number [s]; without a whole part the fraction begins with a digit *)
Inductive numeral : list Z -> list Z -> list Z -> list Z -> Prop :=
| NuWhole m i f e : minus m -> figures i -> maybe fraction f -> maybe exponent e -> numeral (m ++ i ++ f ++ e) i f e
| NuPoint f e : figures f -> maybe exponent e -> numeral (lit "." ++ f ++ e) [] (lit "." ++ f) e.
(** It ends where no figure and no letter follows and, if it has neither fraction nor exponent, no fraction follows. *)
Definition number (s r : list Z) : Prop := exists i f e, numeral s i f e /\ ends word r /\
  (f = [] -> e = [] -> forall x y, r = x ++ y -> ~ fraction x).

(** *** Strings: a number of quotes, the content, and as many quotes again; two quotes alone are an empty string. *)
Definition raw (p : list Z) : Prop := p = [] \/ p = lit "raw".
(** the only place in the content and the closing quotes where that many quotes stand together is the end *)
Definition ended (q : Z) (n : nat) (b : list Z) : Prop := XmlSpec.closed_by (repeat q n) (b ++ repeat q n).
Definition endless (q : Z) (n : nat) (b : list Z) : Prop := XmlSpec.without (repeat q n) b.
(** with one quote and without [raw] a backslash takes the next character with it *)
Definition escapes (p : list Z) (n : nat) : Prop := p = [] /\ n = 1.
Definition dangling (q : Z) (b : list Z) : Prop := literal_body q (Some 92%Z) b \/ exists b', b = b' ++ [92%Z] /\ literal_body q (Some 92%Z) b'.

Definition marks : list (list Z * nat) :=
  [(lit "[", NLeftBracket); (lit "]", NRightBracket); (lit "{", NLeftBrace); (lit "}", NRightBrace); (lit ",", NComma); (lit ":", NColon); (lit "=", NEq)].
Definition word_kind (s : list Z) (k : nat) : Prop :=
  (s = lit "true" \/ s = lit "false") /\ k = NBool \/ s = lit "null" /\ k = NNull \/ (s <> lit "true" /\ s <> lit "false" /\ s <> lit "null") /\ k = NIdentifier.
Definition opens_raw (s : list Z) : Prop := exists q x, quote q /\ s = lit "raw" ++ q :: x.

(** [s] is a piece of kind [k] when [r] follows. *)
Inductive von_piece : option nat -> list Z -> list Z -> Prop :=
| PBlank s r : run_of blank s r -> von_piece (Some NWhitespace) s r
| PLine r : von_piece (Some NNewline) [10%Z] r
| PReturn r : ends (eq 10%Z) r -> von_piece (Some NNewline) [13%Z] r
| PReturnLine r : von_piece (Some NNewline) [13; 10]%Z r
| PComment s r : run_of (fun c => ~ eol c) s r -> von_piece (Some NComment) (lit "#" ++ s) r
| PWord c s r k : start c -> run_of word s r -> ~ opens_raw (c :: s ++ r) -> word_kind (c :: s) k -> von_piece (Some k) (c :: s) r
| PNumber s r : number s r -> von_piece (Some NNumber) s r
| PEmpty p q r : raw p -> quote q -> ends (eq q) r -> von_piece (Some NString) (p ++ [q; q]) r
| PString p q n b r : raw p -> quote q -> n <> 0 -> n <> 2 -> ~ escapes p n -> b <> [] -> ends (eq q) b -> ended q n b ->
    von_piece (Some NString) (p ++ repeat q n ++ b ++ repeat q n) r
| PEscaped q b r : quote q -> b <> [] -> literal_body q (Some 92%Z) b -> von_piece (Some NString) (q :: b ++ [q]) r
| PEndless p q n b : raw p -> quote q -> n <> 0 -> n <> 2 -> ~ escapes p n -> ends (eq q) b -> endless q n b ->
    von_piece (Some NError) (p ++ repeat q n ++ b) []
| PEscapedEndless q b : quote q -> dangling q b -> von_piece (Some NError) (q :: b) []
| PMark s k r : In (s, k) marks -> von_piece (Some k) s r
| POther c r : ~ blank c -> ~ eol c -> c <> 35%Z -> ~ start c -> ~ quote c -> (forall s k, In (s, k) marks -> [c] <> s) ->
    (forall s x, c :: r = s ++ x -> ~ number s x) -> von_piece (Some NError) [c] r.

(** ** Values as sequences of pieces, with their trees and meanings *)
Definition len (ps : list piece) : nat := length (encode (text_of_pieces ps)).
Definition trivia (p : piece) : Prop := fst p = Some NWhitespace \/ fst p = Some NNewline \/ fst p = Some NComment.
(** A token of kind [k] with the text [s], and the blanks and comments after it *)
Definition tok (k : nat) (s : list Z) (e : list piece) : Prop := exists w, e = (Some k, s) :: w /\ Forall trivia w.
Definition leaves (e : list piece) : list green := map (fun p => leaf (match fst p with Some k => k | None => 0 end) (snd p)) e.
Definition next_is (ks : list nat) (r : list piece) : Prop := exists k s r', r = (Some k, s) :: r' /\ In k ks.

(** The content of a string literal *)
Inductive content : list Z -> list Z -> Prop :=
| CoEmpty p q : raw p -> quote q -> content (p ++ [q; q]) []
| CoFull p q n b : raw p -> quote q -> n <> 0 -> n <> 2 -> b <> [] -> ends (eq q) b -> content (p ++ repeat q n ++ b ++ repeat q n) b.
(** The name that a key stands for: all double quotes around it are taken away. *)
Definition named (s n : list Z) : Prop :=
  exists a b, s = a ++ n ++ b /\ Forall (eq 34%Z) a /\ Forall (eq 34%Z) b /\ hd_error n <> Some 34%Z /\ (forall n', n <> n' ++ [34%Z]).
Definition without_underscores (s : list Z) : list Z := filter (fun c => negb (c =? 95)%Z) s.

Section Values.
  Variable F : Type.
  Variable parse : str -> option F.

  (** [value o e r t v]: the pieces [e], at the offset [o] and followed by [r], are a value with the tree [t] and the
      meaning [v]. *)
  Inductive value : nat -> list piece -> list piece -> green -> vvalue F -> Prop :=
  | VaString o e r s b : tok NString s e -> content s b ->
      value o e r (gnode NValue (leaves e)) (VString (encode b) (o, o + length (encode s)))
  | VaNumber o e r s x : tok NNumber s e -> parse (encode (without_underscores s)) = Some x ->
      value o e r (gnode NValue (leaves e)) (VNumber x (o, o + length (encode s)))
  | VaBool o e r s b : tok NBool s e -> (b = true <-> s = lit "true") ->
      value o e r (gnode NValue (leaves e)) (VBoolean b (o, o + length (encode s)))
  | VaNull o e r s : tok NNull s e ->
      value o e r (gnode NValue (leaves e)) (VNull (o, o + length (encode s)))
  | VaUnit o e r n : tok NIdentifier n e -> ~ next_is [NLeftBrace; NLeftBracket] r ->
      value o e r (gnode NValue [gnode NEnum (leaves e)]) (VEnum (encode n) None (o, o + len e))
  | VaPayload o e p r n t v : tok NIdentifier n e -> next_is [NLeftBrace; NLeftBracket] p -> value (o + len e) p r t v ->
      value o (e ++ p) r (gnode NValue [gnode NEnum (leaves e ++ [t])]) (VEnum (encode n) (Some v) (o, o + len (e ++ p)))
  | VaObject o a b z r s s' ts fs : tok NLeftBrace s a -> tok NRightBrace s' z -> entries (o + len a) b (z ++ r) ts fs ->
      value o (a ++ b ++ z) r (gnode NValue [gnode NObject (leaves a ++ ts ++ leaves z)]) (VObject fs (o, o + len (a ++ b ++ z)))
  | VaArray o a b z r s s' ts vs : tok NLeftBracket s a -> tok NRightBracket s' z -> elements (o + len a) b (z ++ r) ts vs ->
      value o (a ++ b ++ z) r (gnode NValue [gnode NArray (leaves a ++ ts ++ leaves z)]) (VArray vs (o, o + len (a ++ b ++ z)))
  (** entries with at most one comma between them and at most one after them *)
  with entries : nat -> list piece -> list piece -> list green -> list (str * vvalue F * (nat * nat)) -> Prop :=
  | EnNone o r : entries o [] r [] []
  | EnSome o e m r t f ts fs : entry o e (m ++ r) t f -> more_entries (o + len e) m r ts fs -> entries o (e ++ m) r (t :: ts) (f :: fs)
  with more_entries : nat -> list piece -> list piece -> list green -> list (str * vvalue F * (nat * nat)) -> Prop :=
  | MoNone o r : ~ next_is [NComma; NIdentifier; NString] r -> more_entries o [] r [] []
  | MoComma o c r s : tok NComma s c -> ~ next_is [NIdentifier; NString] r -> more_entries o c r (leaves c) []
  | MoNext o c e m r t f ts fs : (c = [] \/ exists s, tok NComma s c) -> entry (o + len c) e (m ++ r) t f -> more_entries (o + len (c ++ e)) m r ts fs ->
      more_entries o (c ++ e ++ m) r (leaves c ++ t :: ts) (f :: fs)
  with entry : nat -> list piece -> list piece -> green -> str * vvalue F * (nat * nat) -> Prop :=
  | EnEntry o k q v r s s' n t x : tok NIdentifier s k \/ tok NString s k -> tok NEq s' q -> named s n -> value (o + len (k ++ q)) v r t x ->
      entry o (k ++ q ++ v) r (gnode NEntry (leaves k ++ leaves q ++ [t])) (encode n, x, (o, o + len (k ++ q ++ v)))
  with elements : nat -> list piece -> list piece -> list green -> list (vvalue F) -> Prop :=
  | ElNone o r : elements o [] r [] []
  | ElSome o e m r t v ts vs : value o e (m ++ r) t v -> more_elements (o + len e) m r ts vs -> elements o (e ++ m) r (gnode NElement [t] :: ts) (v :: vs)
  with more_elements : nat -> list piece -> list piece -> list green -> list (vvalue F) -> Prop :=
  | MeNone o r : more_elements o [] r [] []
  | MeComma o c r s : tok NComma s c -> more_elements o c r (leaves c) []
  | MeNext o c e m r t v ts vs : (c = [] \/ exists s, tok NComma s c) -> value (o + len c) e (m ++ r) t v -> more_elements (o + len (c ++ e)) m r ts vs ->
      more_elements o (c ++ e ++ m) r (leaves c ++ gnode NElement [t] :: ts) (v :: vs).

  (** The pieces of a text that count, from the offset [o]: a value that does not begin with a name, or entries
      beginning with a name.  [r] is what is left over. *)
  Inductive document : nat -> list piece -> list piece -> green -> vvalue F -> Prop :=
  | DoValue o e r t v : ~ next_is [NIdentifier] e -> value o e r t v -> document o e r t v
  | DoEntries o e r ts fs : next_is [NIdentifier] e -> entries o e r ts fs -> document o e r (gnode NObject ts) (VObject fs (o, o + len e)).
End Values.
Arguments value {F}. Arguments entries {F}. Arguments more_entries {F}. Arguments entry {F}. Arguments elements {F}. Arguments more_elements {F}. Arguments document {F}.

(** The next piece, if any, is neither blank nor a comment. *)
Definition settled (ps : list piece) : Prop := forall p, hd_error ps = Some p -> ~ trivia p.

(** ** Values that survive being written and read *)
(** without the spans *)
Fixpoint bare {F} (v : vvalue F) : vvalue F :=
  match v with
  | VObject fs _ => VObject (map (fun f => (fst (fst f), bare (snd (fst f)), (0, 0))) fs) (0, 0)
  | VArray vs _ => VArray (map bare vs) (0, 0)
  | VTuple vs _ => VTuple (map bare vs) (0, 0)
  | VString s _ => VString s (0, 0)
  | VNumber x _ => VNumber x (0, 0)
  | VBoolean b _ => VBoolean b (0, 0)
  | VNull _ => VNull (0, 0)
  | VUndefined _ => VUndefined (0, 0)
  | VInf _ => VInf (0, 0)
  | VNan _ => VNan (0, 0)
  | VEnum n p _ => VEnum n (option_map bare p) (0, 0)
  end.

Definition plain_name (n : str) : Prop := exists c s, n = c :: s /\ start c /\ Forall word s /\ n <> lit "true" /\ n <> lit "false" /\ n <> lit "null".
Section Printable.
  Context {F : Type}.
  Variables (parse : str -> option F) (show : F -> str).
  (** A number whose text is read as that number *)
  Definition shown (x : F) : Prop := number (show x) [] /\ parse (without_underscores (show x)) = Some x.
  Inductive printable : vvalue F -> Prop :=
  | PrObject fs sp : Forall (fun f => plain_name (fst (fst f)) /\ printable (snd (fst f))) fs -> printable (VObject fs sp)
  | PrArray vs sp : Forall printable vs -> printable (VArray vs sp)
  | PrString b sp : Forall is_scalar b -> literal_body 34%Z (Some 92%Z) b -> printable (VString (encode b) sp)
  | PrNumber x sp : shown x -> printable (VNumber x sp)
  | PrBoolean b sp : printable (VBoolean b sp)
  | PrNull sp : printable (VNull sp)
  | PrUnit n sp : plain_name n -> printable (VEnum n None sp)
  | PrPayload n v sp : plain_name n -> printable v -> collection v -> printable (VEnum n (Some v) sp)
  with collection : vvalue F -> Prop :=
  | ClObject fs sp : collection (VObject fs sp)
  | ClArray vs sp : collection (VArray vs sp).
  Definition at_root (v : vvalue F) : Prop := match v with VEnum _ _ _ => False | _ => True end.
End Printable.
