(** What the LLVM IR builder is compared with. *)
From Verif Require Import Base Utf8 LexModel LlModel LlSpec.

Definition vletter (c : Z) : Prop := (65 <= c <= 90)%Z \/ (97 <= c <= 122)%Z.
(** The tables of letters and digits, as far as ASCII goes *)
Definition tables (alpha alnum : Z -> bool) : Prop := forall c, (c < 128)%Z -> (alpha c = true <-> vletter c) /\ (alnum c = true <-> vletter c \/ vdigit c).

(** A character of a type or a value: no white space, no quote, no semicolon, no letter beyond ASCII *)
Definition vplain (alpha : Z -> bool) (c : Z) : Prop := is_scalar c /\ char_is_whitespace c = false /\ c <> 34%Z /\ c <> 59%Z /\ (alpha c = true -> (c < 128)%Z).
Definition vword (alpha : Z -> bool) (w : list Z) : Prop := w <> [] /\ Forall (vplain alpha) w.
(** Words with one blank between them *)
Fixpoint spaced (ws : list (list Z)) : list Z := match ws with [] => [] | [w] => w | w :: r => w ++ 32%Z :: spaced r end.

Definition good_global (alpha alnum : Z -> bool) (g : lglobal) : Prop :=
  lg_name g <> [] /\ Forall (fun c => is_scalar c /\ vname alnum c) (lg_name g) /\ vword alpha (lg_ty g) /\ exists ws, lg_value g = spaced ws /\ Forall (vword alpha) ws.

(** ** Functions *)
(** A word without certain characters *)
Definition vword_but (alpha : Z -> bool) (no : list Z) (w : list Z) : Prop := vword alpha w /\ forall c, In c w -> ~ In c no.
(** A name, and a name that begins with a letter *)
Definition vname_of (alpha alnum : Z -> bool) (w : list Z) : Prop := Forall (fun c => vplain alpha c /\ vname alnum c) w.
Definition vlabel (alpha alnum : Z -> bool) (w : list Z) : Prop := vname_of alpha alnum w /\ exists c r, w = c :: r /\ vletter c.

(** An operand has no closing brace, and does not begin or end with a comma. *)
Definition voperand (alpha : Z -> bool) (w : list Z) : Prop := vword alpha w /\ ~ In 125%Z w /\ hd_error w <> Some 44%Z /\ hd_error (rev w) <> Some 44%Z.
(** The type of a parameter has no comma or closing parenthesis. *)
Definition good_param (alpha alnum : Z -> bool) (p : lparam) : Prop := vword_but alpha [44; 41]%Z (lp_ty p) /\ vname_of alpha alnum (lp_name p).
(** Where there is no result, no operand has an equals sign. *)
Definition good_inst (alpha alnum : Z -> bool) (i : linst) : Prop :=
  match li_result i with Some r => vname_of alpha alnum r | None => Forall (fun o => ~ In 61%Z o) (li_operands i) end /\ vlabel alpha alnum (li_opcode i) /\ Forall (voperand alpha) (li_operands i).
(** All blocks but the first have a label; the first has one or an instruction. *)
Definition good_blocks (alpha alnum : Z -> bool) (bs : list lblock) : Prop :=
  Forall (fun b => Forall (good_inst alpha alnum) (lb_insts b) /\ match lb_label b with Some l => vlabel alpha alnum l | None => lb_insts b <> [] end) bs /\
  Forall (fun b => lb_label b <> None) (tl bs).
Definition good_function (alpha alnum : Z -> bool) (f : lfunction) : Prop :=
  vname_of alpha alnum (lf_name f) /\ vword_but alpha [64]%Z (lf_ret f) /\ Forall (good_param alpha alnum) (lf_params f) /\ good_blocks alpha alnum (lf_blocks f).
Definition good_item (alpha alnum : Z -> bool) (i : litem) : Prop := match i with LItemGlobal g => good_global alpha alnum g | LItemFunction f => good_function alpha alnum f end.
