(** What the TOML lexer is compared with. *)
From Verif Require Import Base Utf8 TomlModel.

(** Classes of characters *)
Definition is_space (c : Z) : Prop := c = 32%Z \/ c = 9%Z \/ c = 10%Z \/ c = 13%Z.
Definition is_eol (c : Z) : Prop := c = 10%Z \/ c = 13%Z.
Definition is_digit (c : Z) : Prop := (48 <= c <= 57)%Z.
Definition is_sign (c : Z) : Prop := c = 43%Z \/ c = 45%Z.
Definition is_letter (c : Z) : Prop := (97 <= c <= 122)%Z \/ (65 <= c <= 90)%Z \/ c = 95%Z.
Definition is_key (c : Z) : Prop := is_letter c \/ is_digit c \/ c = 45%Z.
Definition puncts : list (Z * nat) := [(123%Z, TLBrace); (125%Z, TRBrace); (44%Z, TComma); (46%Z, TDot); (61%Z, TEqual)].

(** The next character is not one of those *)
Definition ends (P : Z -> Prop) (r : list Z) : Prop := forall c, hd_error r = Some c -> ~ P c.

(** The inside of a basic string: a backslash takes the next character along. *)
Inductive basic_body : list Z -> Prop :=
| BNil : basic_body []
| BChar c s : c <> 34%Z -> c <> 92%Z -> basic_body s -> basic_body (c :: s)
| BEscape c s : basic_body s -> basic_body (92%Z :: c :: s).

(** An optional sign *)
Definition signed (s : list Z) : Prop := s = [] \/ exists c, s = [c] /\ is_sign c.

(** [toml_token k s r]: where [s ++ r] is left, [s] becomes a token of kind [k]. *)
Inductive toml_token : option nat -> list Z -> list Z -> Prop :=
| TkSpace s r : Forall is_space s -> ends is_space r -> toml_token (Some TWhitespace) s r
| TkComment s r : Forall (fun c => ~ is_eol c) s -> (forall c, hd_error r = Some c -> is_eol c) -> toml_token (Some TComment) (35%Z :: s) r
| TkBasic s r : basic_body s -> toml_token (Some TBasic) (34%Z :: s ++ [34%Z]) r
| TkBasicOpen s : basic_body s -> toml_token (Some TBasic) (34%Z :: s) []
| TkBasicCut s : basic_body s -> toml_token (Some TBasic) (34%Z :: s ++ [92%Z]) []
| TkLiteral s r : Forall (fun c => c <> 39%Z) s -> toml_token (Some TLiteral) (39%Z :: s ++ [39%Z]) r
| TkLiteralOpen s : Forall (fun c => c <> 39%Z) s -> toml_token (Some TLiteral) (39%Z :: s) []
| TkInteger s d r : signed s -> Forall is_digit d -> s ++ d <> [] -> ends (fun c => is_digit c \/ c = 46%Z) r -> toml_token (Some TInteger) (s ++ d) r
| TkFloat s d e r : signed s -> Forall is_digit d -> s ++ d <> [] -> Forall is_digit e -> ends is_digit r -> toml_token (Some TFloat) (s ++ d ++ 46%Z :: e) r
| TkOpen r : ends (eq 91%Z) r -> toml_token (Some TLBracket) [91%Z] r
| TkOpen2 r : toml_token (Some TLL) [91%Z; 91%Z] r
| TkClose r : ends (eq 93%Z) r -> toml_token (Some TRBracket) [93%Z] r
| TkClose2 r : toml_token (Some TRR) [93%Z; 93%Z] r
| TkPunct c k r : In (c, k) puncts -> toml_token (Some k) [c] r
| TkWord c s r : is_letter c -> Forall is_key s -> ends is_key r ->
    toml_token (Some (if list_eq_dec Z.eq_dec (c :: s) (lit "true") then TBoolean else if list_eq_dec Z.eq_dec (c :: s) (lit "false") then TBoolean else TBareKey)) (c :: s) r
| TkStray c r : ~ is_space c -> ~ is_digit c -> ~ is_sign c -> ~ is_letter c -> ~ In c [34; 35; 39; 91; 93]%Z -> ~ In c (map fst puncts) -> toml_token None [c] r.
