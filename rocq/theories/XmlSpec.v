(** What the XML lexer, parser and builder are compared with.  Only the numbers of the kinds, the white space class of
    Unicode and the types of trees and values are taken from the models. *)
From Verif Require Import Base Utf8 LexModel TreeModel JsonLangSpec LangSpec XmlModel.

(** ** Pieces of a text *)
Definition space (c : Z) : Prop := char_is_whitespace c = true.
Definition digit (c : Z) : Prop := (48 <= c <= 57)%Z.
Definition letter (c : Z) : Prop := (97 <= c <= 122)%Z \/ (65 <= c <= 90)%Z.
Definition hex (c : Z) : Prop := digit c \/ (97 <= c <= 102)%Z \/ (65 <= c <= 70)%Z.
Definition name_start (c : Z) : Prop := letter c \/ c = 95%Z \/ c = 58%Z.
Definition name_char (c : Z) : Prop := name_start c \/ digit c \/ c = 45%Z \/ c = 46%Z.
Definition special (c : Z) : Prop := In c [32; 9; 10; 13; 60; 62; 61; 34; 39; 33; 63; 38; 59]%Z.

(** The next character, if any, is not one of those *)
Definition ends (P : Z -> Prop) (r : list Z) : Prop := forall c, hd_error r = Some c -> ~ P c.
(** A run of characters that is not cut short *)
Definition run_of (P : Z -> Prop) (s r : list Z) : Prop := Forall P s /\ ends P r.

(** [e] does not occur in [b]; the only occurrence of [e] in [b] is at its end *)
Definition without (e b : list Z) : Prop := forall x y, b <> x ++ e ++ y.
Definition closed_by (e b : list Z) : Prop := (exists b0, b = b0 ++ e) /\ forall x y, b = x ++ e ++ y -> y = [].

(** A capital or small letter for each of those *)
Definition either_case (w u : list Z) : Prop := Forall2 (fun c d => c = d \/ (c = d + 32)%Z) w u.
(** The number of brackets open after reading *)
Fixpoint depth (b : list Z) : Z :=
  match b with
  | [] => 0
  | c :: r => (if c =? 91 then 1 else if c =? 93 then -1 else 0) + depth r
  end%Z.
Definition no_end (b : list Z) : Prop := forall x y, b = x ++ 62%Z :: y -> depth x <> 0%Z.
Definition doctype_word (w : list Z) : Prop := exists v, w = lit "<!" ++ v /\ either_case v (lit "DOCTYPE").

(** The delimiters that hold anything, with the kinds of the closed and of the unclosed piece *)
Definition delimited : list (list Z * list Z * nat * nat) :=
  [(lit "<!--", lit "-->", XComment, XComment); (lit "<![CDATA[", lit "]]>", XCData, XError); (lit "<?", lit "?>", XInstruction, XError);
   (lit """", lit """", XStringLit, XStringLit); (lit "'", lit "'", XStringLit, XStringLit)].
Definition references : list (list Z * (Z -> Prop) * nat) :=
  [(lit "&#x", hex, XCharRef); (lit "&#", digit, XCharRef); (lit "&", fun c => letter c \/ digit c, XEntity)].
Definition punctuation : list (list Z * nat) :=
  [(lit "</", XLeftAngleSlash); (lit "/>", XSlashRightAngle); (lit ">", XRightAngle); (lit "=", XEquals); (lit "!", XExclamation); (lit "?", XQuestion); (lit ";", XSemicolon)].

(** [s] is a piece of kind [k] when [r] follows. *)
Inductive xml_piece : option nat -> list Z -> list Z -> Prop :=
| PSpace s r : run_of space s r -> xml_piece (Some XWhitespace) s r
| PClosed o e k k' b r : In (o, e, k, k') delimited -> closed_by e b -> xml_piece (Some k) (o ++ b) r
| POpen o e k k' b : In (o, e, k, k') delimited -> without e b -> xml_piece (Some k') (o ++ b) []
| PDoctype w b r : doctype_word w -> no_end b -> depth b = 0%Z -> xml_piece (Some XDoctype) (w ++ b ++ lit ">") r
| PDoctypeOpen w b : doctype_word w -> no_end b -> xml_piece (Some XError) (w ++ b) []
| PReference o P k n r : In (o, P, k) references -> n <> [] -> Forall P n -> xml_piece (Some k) (o ++ n ++ lit ";") r
| PBadReference o P k n r : In (o, P, k) references -> run_of P n r -> (n = [] \/ forall x, r <> lit ";" ++ x) ->
    (forall o' P' k' x, In (o', P', k') references -> o ++ n ++ r = o' ++ x -> List.length o' <= List.length o) -> xml_piece (Some XError) (o ++ n) r
| PName c s r : name_start c -> run_of name_char s r -> xml_piece (Some XIdentifier) (c :: s) r
| PPunct s k r : In (s, k) punctuation -> xml_piece (Some k) s r
| PLess r : (forall x, r <> lit "/" ++ x) -> (forall o e k k' x, In (o, e, k, k') delimited -> lit "<" ++ r <> o ++ x) ->
    (forall w x, doctype_word w -> lit "<" ++ r <> w ++ x) -> xml_piece (Some XLeftAngle) (lit "<") r
| PText c s r : ~ space c -> ~ name_start c -> (forall x, c :: s ++ r <> lit "/>" ++ x) -> run_of (fun c => ~ special c) (c :: s) r ->
    xml_piece (Some XText) (c :: s) r.

(** ** Documents as sequences of pieces, with their trees *)
Definition pkind (p : piece) (k : nat) : Prop := fst p = Some k.
Definition pleaf (p : piece) : green := leaf (match fst p with Some k => k | None => 0 end) (snd p).

(** Elements with what is between them.  No piece but a tag or an element leaves a trace in the tree. *)
Inductive element : list piece -> green -> Prop :=
| ElEmpty a n z : pkind a XLeftAngle -> pkind n XIdentifier -> pkind z XSlashRightAngle ->
    element [a; n; z] (gnode XElement [pleaf a; pleaf n; gnode XSelfClosing [pleaf z]])
| ElFull a n z body kids a' n' z' : pkind a XLeftAngle -> pkind n XIdentifier -> pkind z XRightAngle -> content body kids ->
    pkind a' XLeftAngleSlash -> pkind n' XIdentifier -> pkind z' XRightAngle ->
    element (a :: n :: z :: body ++ [a'; n'; z'])
      (gnode XElement (gnode XStartTag [pleaf a; pleaf n; pleaf z] :: kids ++ [gnode XEndTag [pleaf a'; pleaf n'; pleaf z']]))
with content : list piece -> list green -> Prop :=
| CoNil : content [] []
| CoElement e t r ts : element e t -> content r ts -> content (e ++ r) (t :: ts)
| CoSkip p r ts : ~ pkind p XLeftAngle -> ~ pkind p XLeftAngleSlash -> content r ts -> content (p :: r) ts.
Inductive document : list piece -> list green -> Prop :=
| DoNil : document [] []
| DoElement e t r ts : element e t -> document r ts -> document (e ++ r) (t :: ts)
| DoSkip p r ts : ~ pkind p XLeftAngle -> document r ts -> document (p :: r) ts.

(** ** Elements and nothing else *)
Inductive tags := Empty (name : str) | Full (name : str) (kids : list tags) (close : str).

Definition xml_name (n : str) : Prop := exists c s, n = c :: s /\ name_start c /\ Forall name_char s.
Inductive named : tags -> Prop :=
| NEmpty n : xml_name n -> named (Empty n)
| NFull n ks m : xml_name n -> xml_name m -> Forall named ks -> named (Full n ks m).

Fixpoint written (t : tags) : str :=
  match t with
  | Empty n => lit "<" ++ n ++ lit "/>"
  | Full n ks m => lit "<" ++ n ++ lit ">" ++ concat (map written ks) ++ lit "</" ++ m ++ lit ">"
  end.

(** The pieces and the tree of such a text; [shown] is the name that the value has. *)
Fixpoint pieces_of (t : tags) : list piece :=
  match t with
  | Empty n => [(Some XLeftAngle, lit "<"); (Some XIdentifier, n); (Some XSlashRightAngle, lit "/>")]
  | Full n ks m =>
      [(Some XLeftAngle, lit "<"); (Some XIdentifier, n); (Some XRightAngle, lit ">")] ++ concat (map pieces_of ks) ++
      [(Some XLeftAngleSlash, lit "</"); (Some XIdentifier, m); (Some XRightAngle, lit ">")]
  end.
Fixpoint tree_of (t : tags) : green :=
  match t with
  | Empty n => gnode XElement [leaf XLeftAngle (lit "<"); leaf XIdentifier n; gnode XSelfClosing [leaf XSlashRightAngle (lit "/>")]]
  | Full n ks m =>
      gnode XElement (gnode XStartTag [leaf XLeftAngle (lit "<"); leaf XIdentifier n; leaf XRightAngle (lit ">")] :: map tree_of ks ++
        [gnode XEndTag [leaf XLeftAngleSlash (lit "</"); leaf XIdentifier m; leaf XRightAngle (lit ">")]])
  end.
Definition shown (t : tags) : str := match t with Empty _ => [] | Full n _ _ => n end.

(** The value: every element with its own name, its children one after another and its place in the text, but for
    elements without content, whose name is lost. *)
Fixpoint value_at (off : nat) (t : tags) : xvalue :=
  VElement (shown t) []
    (match t with
     | Empty _ => []
     | Full n ks _ => (fix all (off : nat) (ks : list tags) : list xvalue :=
                         match ks with [] => [] | k :: r => value_at off k :: all (off + List.length (written k)) r end)
                      (off + List.length (lit "<" ++ n ++ lit ">")) ks
     end)
    (off, off + List.length (written t)).

(** Values without attributes, texts and the like *)
Inductive bare : xvalue -> Prop :=
| Bare n ks sp : Forall bare ks -> bare (VElement n [] ks sp).
(** … all of whose names can be written *)
Inductive writable : xvalue -> Prop :=
| Writable n ks sp : xml_name n -> Forall writable ks -> writable (VElement n [] ks sp).

(** The kinds of the nodes of a tree *)
Fixpoint node_kinds (g : green) : list nat := match g with GLeaf _ _ _ => [] | GNode k _ ch => k :: concat (map node_kinds ch) end.
