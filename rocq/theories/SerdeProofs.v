(** Lemmas about writing Rust values as JSON values and reading them. *)
From Coq Require Import Floats.SpecFloat.
From Verif Require Import Base Utf8 Utf8Facts RopeModel TreeModel ParserModel JsonModel JsonAstModel JsonAstSpec SerdeModel SerdeSpec.

Section TyInd.
  Variable P : ty -> Prop.
  Definition shape_all (sh : shape) : Prop :=
    match sh with ShUnit => True | ShNewtype t => P t | ShTuple l => Forall P l | ShStruct l => Forall (fun f => P (snd f)) l end.
  Hypothesis (HBool : P TyBool) (HInt : P TyInt) (HFloat : P TyFloat) (HChar : P TyChar) (HString : P TyString) (HUnit : P TyUnit).
  Hypothesis (HOption : forall t, P t -> P (TyOption t)) (HSeq : forall t, P t -> P (TySeq t)) (HTuple : forall l, Forall P l -> P (TyTuple l)).
  Hypothesis (HMap : forall k v, P k -> P v -> P (TyMap k v)) (HStruct : forall l, Forall (fun f => P (snd f)) l -> P (TyStruct l)).
  Hypothesis (HNewtype : forall t, P t -> P (TyNewtype t)) (HEnum : forall l, Forall (fun v => shape_all (snd v)) l -> P (TyEnum l)).
  Fixpoint ty_induct (t : ty) : P t :=
    let types := fix go (l : list ty) : Forall P l := match l with [] => Forall_nil _ | x :: r => Forall_cons _ (ty_induct x) (go r) end in
    let fields := fix go (l : list (str * ty)) : Forall (fun f => P (snd f)) l := match l with [] => Forall_nil _ | x :: r => Forall_cons _ (ty_induct (snd x)) (go r) end in
    match t with
    | TyBool => HBool | TyInt => HInt | TyFloat => HFloat | TyChar => HChar | TyString => HString | TyUnit => HUnit
    | TyOption t => HOption t (ty_induct t) | TySeq t => HSeq t (ty_induct t) | TyTuple l => HTuple l (types l)
    | TyMap k v => HMap k v (ty_induct k) (ty_induct v) | TyStruct l => HStruct l (fields l)
    | TyNewtype t => HNewtype t (ty_induct t)
    | TyEnum l => HEnum l ((fix go (l : list (str * shape)) : Forall (fun v => shape_all (snd v)) l :=
        match l with
        | [] => Forall_nil _
        | x :: r => @Forall_cons _ (fun v => shape_all (snd v)) x r (match snd x as s return shape_all s with ShUnit => I | ShNewtype t => ty_induct t | ShTuple l => types l | ShStruct l => fields l end) (go r)
        end) l)
    end.
End TyInd.

(** ** The inner loops as list predicates *)
Section Unfold.
  Variable F : Type.
  Notation has_type := (has_type F).

  Lemma types_tuple ts l :
    (fix all ts l := match ts, l with [], [] => True | t :: ts', v :: l' => has_type t v /\ all ts' l' | _, _ => False end) ts l <-> Forall2 has_type ts l.
  Proof. revert l. induction ts as [| t ts IH]; intros [| v l]; (split; [intros H | intros H; inversion H; subst]); try contradiction; try constructor; try easy. - now apply IH. - now apply IH. Qed.

  Lemma types_fields (fs : list (str * ty)) (l : list (str * val F)) :
    (fix all (fs : list (str * ty)) (l : list (str * val F)) := match fs, l with [], [] => True | (n, t) :: fs', (m, v) :: l' => n = m /\ has_type t v /\ all fs' l' | _, _ => False end) fs l
    <-> Forall2 (fun f e => fst f = fst e /\ has_type (snd f) (snd e)) fs l.
  Proof.
    revert l. induction fs as [| [n t] fs IH]; intros [| [m v] l]; split; intros H; try contradiction; try (inversion H; fail); try constructor; try (now destruct H as (A & B & C)).
    - now apply IH.
    - inversion H as [| ? ? ? ? A B]; subst. apply A.
    - inversion H as [| ? ? ? ? A B]; subst. split; [apply A | now apply IH].
  Qed.

  Definition payload_type (sh : shape) (p : payload F) : Prop :=
    match sh, p with
    | ShUnit, PaUnit => True
    | ShNewtype t, PaNewtype v => has_type t v
    | ShTuple ts, PaTuple l => Forall2 has_type ts l
    | ShStruct fs, PaStruct l => Forall2 (fun f e => fst f = fst e /\ has_type (snd f) (snd e)) fs l
    | _, _ => False
    end.

  Lemma types_enum vs n p : has_type (TyEnum vs) (RVariant n p) <-> exists sh, In (n, sh) vs /\ payload_type sh p.
  Proof.
    cbn [SerdeSpec.has_type]. induction vs as [| [m sh] vs IH]; [split; [contradiction | intros (sh & [] & _)]|]. rewrite IH. clear IH. split.
    - intros [[-> H] | (sh' & I & H)]; [|exists sh'; split; [now right | assumption]]. exists sh. split; [now left|].
      destruct sh, p; try contradiction; try exact H; [now apply types_tuple | now apply types_fields].
    - intros (sh' & [E | I] & H); [|right; exists sh'; now split]. injection E as -> ->. left. split; [reflexivity|].
      destruct sh', p; try contradiction; try exact H; [now apply types_tuple | now apply types_fields].
  Qed.

  Lemma type_tuple ts l : has_type (TyTuple ts) (RTuple l) <-> Forall2 has_type ts l.
  Proof. apply types_tuple. Qed.
  Lemma type_struct fs l : has_type (TyStruct fs) (RStruct l) <-> Forall2 (fun f e => fst f = fst e /\ has_type (snd f) (snd e)) fs l.
  Proof. apply types_fields. Qed.
End Unfold.

Lemma all_forall {A} (P : A -> Prop) l : (fix all l := match l with [] => True | x :: r => P x /\ all r end) l <-> Forall P l.
Proof. induction l as [| x l IH]; (split; [intros H | intros H; inversion H; subst]); try constructor; try easy; now apply IH. Qed.
Lemma fields_forall (P : ty -> Prop) (l : list (str * ty)) : (fix all l := match l with [] => True | (_, t) :: r => P t /\ all r end) l <-> Forall (fun f => P (snd f)) l.
Proof. induction l as [| [n t] l IH]; (split; [intros H | intros H; inversion H; subst]); try constructor; try easy; now apply IH. Qed.

Definition shape_declared (sh : shape) : Prop :=
  match sh with ShUnit => True | ShNewtype t => declared t | ShTuple l => Forall declared l | ShStruct l => NoDup (map fst l) /\ Forall (fun f => declared (snd f)) l end.
Lemma declared_tuple l : declared (TyTuple l) <-> Forall declared l.
Proof. apply (all_forall declared). Qed.
Lemma declared_struct l : declared (TyStruct l) <-> NoDup (map fst l) /\ Forall (fun f => declared (snd f)) l.
Proof. cbn [declared]. now rewrite (fields_forall declared). Qed.
Lemma declared_enum l : declared (TyEnum l) <-> l <> [] /\ NoDup (map fst l) /\ Forall (fun v => valid (fst v) /\ shape_declared (snd v)) l.
Proof.
  cbn [declared]. assert (E : forall l, (fix all (l : list (str * shape)) := match l with
     | [] => True
     | (n, sh) :: r => valid n /\ match sh with
                                  | ShUnit => True | ShNewtype t => declared t
                                  | ShTuple l => (fix all (l : list ty) := match l with [] => True | t :: r => declared t /\ all r end) l
                                  | ShStruct l => NoDup (map fst l) /\ (fix all l := match l with [] => True | (_, t) :: r => declared t /\ all r end) l
                                  end /\ all r
     end) l <-> Forall (fun v => valid (fst v) /\ shape_declared (snd v)) l).
  { clear l. induction l as [| [n sh] l IH]; [split; constructor|]. rewrite IH. split.
    - intros (V & H & R). constructor; [|assumption]. split; [assumption|]. destruct sh; try exact H; cbn [snd shape_declared]; [now apply (all_forall declared) | split; [apply H | now apply (fields_forall declared)]].
    - intros H. inversion H as [| ? ? [V S] R]; subst. split; [assumption|]. split; [|assumption]. destruct sh; try exact S; cbn [snd shape_declared] in S; [now apply (all_forall declared) | split; [apply S | now apply (fields_forall declared)]]. }
  now rewrite E.
Qed.

Definition shape_survives (sh : shape) : Prop :=
  match sh with ShUnit => True | ShNewtype t => survives t | ShTuple l => Forall survives l | ShStruct _ => False end.
Lemma survives_tuple l : survives (TyTuple l) <-> Forall survives l.
Proof. apply (all_forall survives). Qed.
Lemma survives_struct l : survives (TyStruct l) <-> Forall (fun f => survives (snd f)) l.
Proof. apply (fields_forall survives). Qed.
Lemma survives_enum l : survives (TyEnum l) <-> Forall (fun v => shape_survives (snd v)) l.
Proof.
  cbn [survives]. induction l as [| [n sh] l IH]; [split; constructor|]. rewrite IH. split.
  - intros [H R]. constructor; [|assumption]. destruct sh; try exact H. now apply (all_forall survives).
  - intros H. inversion H as [| ? ? S R]; subst. split; [|assumption]. destruct sh; try exact S. now apply (all_forall survives).
Qed.

(** ** Reading *)
Section Reading.
  Variable F : Type.
  Notation from_value := (from_value F).

  Fixpoint named (l : list (str * ty)) (name : str) : option (ast F -> answer (val F)) :=
    match l with [] => None | (n, t) :: r => if list_eq_dec Z.eq_dec n name then Some (from_value t) else named r name end.
  Definition read_fields (fs : list (str * ty)) (l : list (str * span * ast F * span)) : answer (list (str * val F)) :=
    bind (read_struct F (named fs) l []) (finish_struct F fs).

  Lemma readers_map l : (fix go (l : list ty) := match l with [] => [] | t :: r => from_value t :: go r end) l = map from_value l.
  Proof. induction l as [| t l IH]; [reflexivity|]. cbn [map]. now rewrite IH. Qed.
  Lemma field_readers_map (l : list (str * ty)) : (fix go (l : list (str * ty)) := match l with [] => [] | (_, t) :: r => from_value t :: go r end) l = map (fun f => from_value (snd f)) l.
  Proof. induction l as [| [n t] l IH]; [reflexivity|]. cbn [map snd]. now rewrite IH. Qed.
  
  Lemma from_tuple ts a : from_value (TyTuple ts) a = deserialize_any F a (on_seq F (fun l => bind (read_each F (map from_value ts) l) (fun vs => Ok (RTuple vs)))).
  Proof. cbn [SerdeModel.from_value]. now rewrite readers_map. Qed.
  Lemma from_struct_array fs l s : from_value (TyStruct fs) (AArray l s) = bind (read_each F (map (fun f => from_value (snd f)) fs) l) (fun vs => Ok (RStruct (combine (map fst fs) vs))).
  Proof. cbn [SerdeModel.from_value deserialize_any visit_seq on_both]. now rewrite field_readers_map. Qed.
  Lemma from_struct_object fs l s : from_value (TyStruct fs) (AObject l s) = bind (read_fields fs l) (fun vs => Ok (RStruct vs)).
  Proof.
    unfold read_fields. cbn [SerdeModel.from_value deserialize_any visit_map on_both]. change (fix go (l : list (str * ty)) (name : str) := match l with [] => None | (n, t) :: r => if list_eq_dec Z.eq_dec n name then Some (from_value t) else go r name end) with named.
    destruct (read_struct F (named fs) l []); reflexivity.
  Qed.

  Definition read_variant (n : str) (sh : shape) (value : option (ast F)) : answer (val F) :=
    match sh with
    | ShUnit => bind (unit_variant F value) (fun _ => Ok (RVariant n PaUnit))
    | ShNewtype t => bind (newtype_variant F value (from_value t)) (fun v => Ok (RVariant n (PaNewtype v)))
    | ShTuple ts => bind (tuple_variant F value (read_each F (map from_value ts))) (fun vs => Ok (RVariant n (PaTuple vs)))
    | ShStruct fs => bind (struct_variant F value (read_fields fs)) (fun vs => Ok (RVariant n (PaStruct vs)))
    end.
  Lemma from_enum vs a n value sh : deserialize_enum F a = Ok (n, value) -> NoDup (map fst vs) -> In (n, sh) vs -> from_value (TyEnum vs) a = read_variant n sh value.
  Proof.
    intros E N I. cbn [SerdeModel.from_value]. rewrite E. cbn [bind fst snd]. clear E a. induction vs as [| [m sh'] vs IH]; [destruct I|]. cbn [map fst] in N. inversion N as [| ? ? N1 N2]; subst.
    destruct (list_eq_dec Z.eq_dec m n) as [-> | D].
    - assert (sh' = sh) as ->. { destruct I as [I | I]; [now injection I|]. exfalso. apply N1. apply in_map_iff. now exists (n, sh). }
      destruct sh; cbn [read_variant]; rewrite ?readers_map; reflexivity.
    - destruct I as [I | I]; [injection I as -> ->; contradiction|]. now apply IH.
  Qed.
  Lemma from_enum_unknown vs a n value : deserialize_enum F a = Ok (n, value) -> (forall sh, ~ In (n, sh) vs) -> from_value (TyEnum vs) a = Err.
  Proof.
    intros E I. cbn [SerdeModel.from_value]. rewrite E. cbn [bind fst snd]. clear E a. induction vs as [| [m sh'] vs IH]; [reflexivity|].
    destruct (list_eq_dec Z.eq_dec m n) as [-> | D]; [exfalso; apply (I sh'); now left|]. apply IH. intros sh H. apply (I sh). now right.
  Qed.
End Reading.

(** ** Writing and reading *)
Lemma forall2_cons {A B} (R : A -> B -> Prop) x y l m : Forall2 R (x :: l) (y :: m) -> R x y /\ Forall2 R l m.
Proof. intros H. inversion H; subst. now split. Qed.
Section Both.
  Variable (F : Type) (of_int : Z -> F) (show : F -> str) (show_int : Z -> str).
  Notation from_value := (from_value F).
  Notation to_value := (to_value F of_int show show_int).
  Notation key_string := (key_string F show show_int).
  Notation has_type := (has_type F).

  Definition rt (t : ty) (v : val F) : Prop := exists a, to_value v = Ok a /\ from_value t a = Ok v.

  Lemma to_null t v s : has_type t v -> to_value v = Ok (ANull s) -> nullable t.
  Proof.
    revert v. induction t using ty_induct; intros v Ht E; destruct v; try contradiction; cbn in E |- *; try discriminate E; try exact I.
    - destruct (write_all F to_value l); discriminate.
    - destruct (write_all F to_value l0); discriminate.
    - destruct (write_entries F show show_int to_value l); discriminate.
    - destruct (write_fields F (field_of F) to_value l0); discriminate.
    - now apply (IHt v).
    - destruct p; try discriminate; [destruct (to_value v) | destruct (write_all F to_value l0) | destruct (write_fields F _ to_value l0)]; discriminate.
  Qed.
  Lemma null_value t : nullable t -> exists v, has_type t v /\ to_value v = Ok (ANull nospan).
  Proof.
    induction t using ty_induct; cbn; try contradiction; intros Hn.
    - exists RUnit. now split. - exists RNone. now split. - destruct (IHt Hn) as (v & T & E). exists (RNewtype v). now split.
  Qed.

  (** Sequences and tuples *)
  Lemma seq_rt t l : rt (TySeq t) (RSeq l) <-> Forall (rt t) l.
  Proof.
    unfold rt at 1. cbn [SerdeModel.to_value]. split.
    - intros (a & E & R). destruct (write_all F to_value l) as [l' |] eqn:W; [|discriminate]. injection E as <-. cbn [SerdeModel.from_value deserialize_any visit_seq on_seq] in R.
      destruct (read_all F (from_value t) l') as [vs |] eqn:Q; [|discriminate]. cbn [bind] in R. injection R as ->. revert l' W Q. induction l as [| v l IH]; intros l' W Q; [constructor|].
      cbn [write_all] in W. fold (write_all F to_value) in W. destruct (to_value v) as [a |] eqn:A; [|discriminate]. destruct (write_all F to_value l) as [l1 |] eqn:W1; [|discriminate]. injection W as <-.
      cbn [read_all] in Q. fold (read_all F (from_value t)) in Q. destruct (from_value t a) as [v' |] eqn:B; [|discriminate]. destruct (read_all F (from_value t) l1) as [vs |] eqn:Q1; [|discriminate]. injection Q as -> ->.
      constructor; [now exists a | now apply (IH l1)].
    - intros H. assert (exists l', write_all F to_value l = Ok l' /\ read_all F (from_value t) l' = Ok l) as (l' & W & Q).
      { induction H as [| v l (a & A & B) _ (l' & W & Q)]; [now exists []|]. exists (a :: l'). cbn [write_all read_all]. fold (write_all F to_value) (read_all F (from_value t)). now rewrite A, W, B, Q. }
      exists (AArray l' nospan). rewrite W. split; [reflexivity|]. cbn [SerdeModel.from_value deserialize_any visit_seq on_seq]. now rewrite Q.
  Qed.
  Lemma each_rt ts l : (exists l', write_all F to_value l = Ok l' /\ read_each F (map from_value ts) l' = Ok l) <-> Forall2 rt ts l.
  Proof.
    split.
    - intros (l' & W & Q). revert l l' W Q. induction ts as [| t ts IH]; intros l l' W Q; cbn [map read_each] in Q; [injection Q as <-; constructor|].
      destruct l' as [| a l']; [discriminate|]. destruct (from_value t a) as [v |] eqn:B; [|discriminate]. destruct (read_each F (map from_value ts) l') as [vs |] eqn:Q1; [|discriminate]. injection Q as <-.
      cbn [write_all] in W. fold (write_all F to_value) in W. destruct (to_value v) as [a' |] eqn:A; [|discriminate]. destruct (write_all F to_value vs) as [l1 |] eqn:W1; [|discriminate]. injection W as -> ->.
      constructor; [now exists a | now apply (IH vs l')].
    - intros H. induction H as [| t v ts l (a & A & B) _ (l' & W & Q)]; [now exists []|]. exists (a :: l'). cbn [write_all read_each map]. fold (write_all F to_value). now rewrite A, W, B, Q.
  Qed.
  Lemma tuple_rt ts l : rt (TyTuple ts) (RTuple l) <-> Forall2 rt ts l.
  Proof.
    rewrite <- each_rt. unfold rt at 1. cbn [SerdeModel.to_value]. split.
    - intros (a & E & R). destruct (write_all F to_value l) as [l' |] eqn:W; [|discriminate]. injection E as <-. rewrite from_tuple in R. cbn [deserialize_any visit_seq on_seq] in R. exists l'. split; [reflexivity|]. destruct (read_each F (map from_value ts) l') as [vs |]; [|discriminate]. cbn in R. injection R as ->. reflexivity.
    - intros (l' & W & Q). exists (AArray l' nospan). rewrite W, from_tuple. split; [reflexivity|]. cbn [deserialize_any visit_seq on_seq]. now rewrite Q.
  Qed.

  (** Structures *)
  Lemma named_in fs n t : NoDup (map fst fs) -> In (n, t) fs -> named F fs n = Some (from_value t).
  Proof.
    induction fs as [| [m u] fs IH]; intros N I; [destruct I|]. cbn [map fst named] in *. inversion N as [| ? ? N1 N2]; subst. destruct (list_eq_dec Z.eq_dec m n) as [-> | D].
    - destruct I as [I | I]; [now injection I as ->|]. exfalso. apply N1. apply in_map_iff. now exists (n, t).
    - destruct I as [I | I]; [injection I as -> ->; contradiction|]. now apply IH.
  Qed.
  Lemma known_none n (l : list (str * val F)) : known F n l = None <-> ~ In n (map fst l).
  Proof.
    unfold known. induction l as [| [m v] l IH]; cbn [find map fst In]; [now split|]. destruct (list_eq_dec Z.eq_dec m n) as [-> | D]; [split; [discriminate | intros H; exfalso; apply H; now left]|].
    rewrite IH. tauto.
  Qed.
  Lemma known_at (l1 : list (str * val F)) n v l2 : ~ In n (map fst l1) -> known F n (l1 ++ (n, v) :: l2) = Some v.
  Proof.
    unfold known. induction l1 as [| [m w] l1 IH]; intros H; cbn [app find fst].
    - destruct (list_eq_dec Z.eq_dec n n); [reflexivity | contradiction].
    - destruct (list_eq_dec Z.eq_dec m n) as [-> | D]; [exfalso; apply H; now left|]. apply IH. intros H'. apply H. now right.
  Qed.
  Lemma finish_spec fs : forall l acc, NoDup (map fst fs) -> (forall n, In n (map fst fs) -> ~ In n (map fst acc)) -> map fst l = map fst fs -> finish_struct F fs (acc ++ l) = Ok l.
  Proof.
    induction fs as [| [n t] fs IH]; intros l acc N D E; destruct l as [| [m v] l]; try discriminate; [reflexivity|]. cbn [map fst] in *. injection E as -> E. inversion N as [| ? ? N1 N2]; subst.
    cbn [finish_struct]. rewrite known_at by (apply D; now left). specialize (IH l (acc ++ [(n, v)]) N2). rewrite <- app_assoc in IH. cbn [app] in IH. rewrite IH; [reflexivity | | assumption].
    intros k I H. rewrite map_app in H. apply in_app_or in H as [H | [<- | []]]; [apply (D k); [now right | assumption] | contradiction].
  Qed.
  Lemma fields_rt fs l : NoDup (map fst fs) -> map fst l = map fst fs ->
    ((exists l', write_fields F (field_of F) to_value l = Ok l' /\ read_fields F fs l' = Ok l) <-> Forall2 (fun f e => rt (snd f) (snd e)) fs l).
  Proof.
    intros N M. unfold read_fields.
    assert (Main : forall fs2 fs1 l acc, fs = fs1 ++ fs2 -> map fst l = map fst fs2 -> map fst acc = map fst fs1 ->
      ((exists l', write_fields F (field_of F) to_value l = Ok l' /\ read_struct F (named F fs) l' acc = Ok (acc ++ l)) <-> Forall2 (fun f e => rt (snd f) (snd e)) fs2 l)
      /\ forall l' r, write_fields F (field_of F) to_value l = Ok l' -> read_struct F (named F fs) l' acc = Ok r -> exists l'', r = acc ++ l'' /\ map fst l'' = map fst fs2).
    { induction fs2 as [| [n t] fs2 IH]; intros fs1 l0 acc E M0 A; destruct l0 as [| [m v] l0]; try discriminate.
      - split; [split; [constructor | intros _; exists []; now rewrite app_nil_r]|]. intros l' r W R. injection W as <-. injection R as <-. exists []. now rewrite app_nil_r.
      - cbn [map fst] in M0. injection M0 as -> M0.
        assert (Nm : named F fs n = Some (from_value t)) by (apply named_in; [assumption | rewrite E; apply in_elt]).
        assert (Kn : known F n acc = None).
        { apply known_none. rewrite A. rewrite E, map_app in N. cbn [map fst] in N. apply NoDup_remove_2 in N. intros H. apply N. apply in_or_app. now left. }
        assert (Step : forall v', (fs1 ++ [(n, t)]) ++ fs2 = fs /\ map fst (acc ++ [(n, v' : val F)]) = map fst (fs1 ++ [(n, t)])) by (intros v'; split; [now rewrite <- app_assoc | rewrite !map_app, A; reflexivity]).
        cbn [write_fields]. fold (write_fields F (field_of F) to_value). split; [split|].
        + intros (l' & W & R). destruct (to_value v) as [a |] eqn:Ev; [|discriminate]. destruct (write_fields F (field_of F) to_value l0) as [l1 |] eqn:W1; [|discriminate]. injection W as <-.
          unfold field_of at 1 in R. cbn [read_struct] in R. rewrite Nm, Kn in R. destruct (from_value t a) as [v' |] eqn:Ea; [|discriminate].
          destruct (Step v') as [S1 S2]. destruct (IH (fs1 ++ [(n, t)]) l0 (acc ++ [(n, v')]) (eq_sym S1) M0 S2) as [IH1 IH2].
          destruct (IH2 _ _ W1 R) as (l'' & E'' & _). rewrite <- app_assoc in E''. apply app_inv_head in E''. cbn [app] in E''. injection E'' as -> ->.
          constructor; [now exists a|]. apply IH1. exists l1. split; [assumption|]. rewrite R. now rewrite <- app_assoc.
        + intros H. apply forall2_cons in H as [(a & Ev & Ea) H2]. cbn [snd] in Ev, Ea. destruct (Step v) as [S1 S2]. destruct (IH (fs1 ++ [(n, t)]) l0 (acc ++ [(n, v)]) (eq_sym S1) M0 S2) as [IH1 _].
          apply IH1 in H2 as (l1 & W1 & R1). exists (field_of F n a :: l1). rewrite Ev, W1. split; [reflexivity|]. unfold field_of at 1. cbn [read_struct]. rewrite Nm, Kn, Ea, R1. now rewrite <- app_assoc.
        + intros l' r W R. destruct (to_value v) as [a |] eqn:Ev; [|discriminate]. destruct (write_fields F (field_of F) to_value l0) as [l1 |] eqn:W1; [|discriminate]. injection W as <-.
          unfold field_of at 1 in R. cbn [read_struct] in R. rewrite Nm, Kn in R. destruct (from_value t a) as [v' |] eqn:Ea; [|discriminate].
          destruct (Step v') as [S1 S2]. destruct (IH (fs1 ++ [(n, t)]) l0 (acc ++ [(n, v')]) (eq_sym S1) M0 S2) as [_ IH2].
          destruct (IH2 _ _ W1 R) as (l'' & -> & M''). exists ((n, v') :: l''). rewrite <- app_assoc. cbn [app map fst]. now rewrite M''. }
    destruct (Main fs [] l [] eq_refl M eq_refl) as [M1 M2]. rewrite <- M1. cbn [app]. split; intros (l' & W & R); exists l'; (split; [assumption|]).
    - destruct (read_struct F (named F fs) l' []) as [r |] eqn:Q; [|discriminate]. cbn [bind] in R. destruct (M2 _ _ W Q) as (l'' & -> & M''). pose proof (finish_spec fs l'' [] N ltac:(now intros) M'') as Fs. cbn [app] in *. rewrite Fs in R. now injection R as ->.
    - rewrite R. cbn [bind]. apply (finish_spec fs l []); [assumption | now intros | assumption].
  Qed.
  Lemma struct_rt fs l : NoDup (map fst fs) -> map fst l = map fst fs -> (rt (TyStruct fs) (RStruct l) <-> Forall2 (fun f e => rt (snd f) (snd e)) fs l).
  Proof.
    intros N M. rewrite <- (fields_rt fs l N M). unfold rt at 1. cbn [SerdeModel.to_value]. split.
    - intros (a & E & R). destruct (write_fields F (field_of F) to_value l) as [l' |] eqn:W; [|discriminate]. injection E as <-. rewrite from_struct_object in R. exists l'. split; [reflexivity|]. destruct (read_fields F fs l'); [|discriminate]. cbn in R. injection R as ->. reflexivity.
    - intros (l' & W & R). exists (AObject l' nospan). rewrite W, from_struct_object, R. now split.
  Qed.
  (** Maps *)
  Lemma key_eqb_eq (x y : val F) : key_eqb F x y = true -> x = y.
  Proof.
    revert y. induction x; intros y H; destruct y; cbn in H; try discriminate H; try (destruct p; discriminate H).
    - f_equal. now apply Z.eqb_eq.
    - destruct (list_eq_dec Z.eq_dec s s0); [now subst | discriminate].
    - f_equal. now apply IHx.
    - f_equal. now apply IHx.
    - destruct p; try discriminate H; destruct p0; try discriminate H. destruct (list_eq_dec Z.eq_dec name name0); [now subst | discriminate].
  Qed.
  Lemma insert_new l k v : ~ In k (map fst l) -> map_insert F l k v = l ++ [(k, v)].
  Proof.
    induction l as [| [k' v'] l IH]; intros H; [reflexivity|]. cbn [map_insert app]. destruct (key_eqb F k' k) eqn:E; [apply key_eqb_eq in E; exfalso; apply H; now left|].
    rewrite IH; [reflexivity|]. intros I. apply H. now right.
  Qed.
  Definition key_rt (t : ty) (k : val F) : Prop := exists n, key_string k = Ok n /\ forall s, from_value t (AString n s) = Ok k.
  Lemma textual_rt t k : textual t -> declared t -> has_type t k -> key_rt t k.
  Proof.
    revert k. induction t using ty_induct; intros k Tx D T; try contradiction; destruct k; try contradiction.
    - exists (encode [c]). split; [reflexivity|]. intros s. cbn [SerdeModel.from_value deserialize_any visit_string on_string]. rewrite decode1_encode by exact T. reflexivity.
    - exists s. split; [reflexivity|]. reflexivity.
    - cbn in Tx, D, T. destruct (IHt k Tx D T) as (n & K & R). exists n. split; [assumption|]. intros s. cbn [SerdeModel.from_value]. now rewrite R.
    - apply types_enum in T as (sh & In_ & T). cbn [textual] in Tx. rewrite Forall_forall in Tx. pose proof (Tx _ In_) as E. cbn [snd] in E. subst sh. destruct p; try contradiction.
      exists name. split; [reflexivity|]. intros s. apply declared_enum in D as (_ & N & _). rewrite (from_enum F l (AString name s) name None ShUnit eq_refl N In_). reflexivity.
  Qed.
  Lemma map_rt_to k v l : NoDup (map fst l) -> Forall (fun e => key_rt k (fst e) /\ rt v (snd e)) l -> rt (TyMap k v) (RMap l).
  Proof.
    intros N H. assert (Main : forall acc, NoDup (map fst (acc ++ l)) -> exists l', write_entries F show show_int to_value l = Ok l' /\ read_entries F (from_value k) (from_value v) l' acc = Ok (acc ++ l)).
    { clear N. induction H as [| [x y] l [(n & K & Rk) (a & A & B)] _ IH]; intros acc N; [exists []; now rewrite app_nil_r|]. cbn [fst snd] in *.
      destruct (IH (acc ++ [(x, y)])) as (l' & W & R); [now rewrite <- app_assoc|]. exists (field_of F n a :: l'). cbn [write_entries]. fold (write_entries F show show_int to_value). rewrite K, A, W. split; [reflexivity|].
      unfold field_of at 1. cbn [read_entries]. rewrite Rk, B, insert_new; [rewrite R; now rewrite <- app_assoc|]. rewrite map_app in N. cbn [map fst] in N. apply NoDup_remove_2 in N. intros I. apply N. apply in_or_app. now left. }
    destruct (Main [] N) as (l' & W & R). exists (AObject l' nospan). cbn [SerdeModel.to_value]. rewrite W. split; [reflexivity|]. cbn [SerdeModel.from_value deserialize_any visit_map on_map]. rewrite R. reflexivity.
  Qed.
  Lemma map_rt_from k v x y : rt (TyMap k v) (RMap [(x, y)]) -> (exists n, key_string x = Ok n /\ from_value k (AString n nospan) = Ok x) /\ rt v y.
  Proof.
    intros (a & E & R). cbn [SerdeModel.to_value write_entries] in E. destruct (key_string x) as [n |] eqn:K; [|discriminate]. destruct (to_value y) as [b |] eqn:B; [|discriminate]. injection E as <-.
    unfold field_of in R. cbn [SerdeModel.from_value deserialize_any visit_map on_map read_entries] in R. destruct (from_value k (AString n nospan)) as [x' |] eqn:X; [|discriminate]. destruct (from_value v b) as [y' |] eqn:Y; [|discriminate].
    cbn in R. injection R as -> ->. split; [exists n; now split | exists b; now split].
  Qed.

  (** Enumerations *)
  Lemma variant_rt vs n sh p : NoDup (map fst vs) -> In (n, sh) vs -> payload_type F sh p ->
    (rt (TyEnum vs) (RVariant n p) <->
     match sh, p with
     | ShUnit, _ => True
     | ShNewtype t, PaNewtype v => rt t v
     | ShTuple ts, PaTuple l => Forall2 rt ts l
     | _, _ => False
     end).
  Proof.
    intros N In_ T. unfold rt at 1. destruct sh as [| t | ts | fs], p as [| v | l | l]; try contradiction; cbn [SerdeModel.to_value].
    - split; [trivial|]. intros _. exists (AString n nospan). split; [reflexivity|]. now rewrite (from_enum F vs (AString n nospan) n None ShUnit eq_refl N In_).
    - split.
      + intros (a & E & R). destruct (to_value v) as [b |] eqn:B; [|discriminate]. injection E as <-. rewrite (from_enum F vs (AObject [field_of F n b] nospan) n (Some b) (ShNewtype t) eq_refl N In_) in R. cbn [read_variant newtype_variant] in R. destruct (from_value t b) as [v' |] eqn:V; [|discriminate]. cbn in R. injection R as ->. now exists b.
      + intros (b & B & V). exists (AObject [field_of F n b] nospan). rewrite B. split; [reflexivity|]. rewrite (from_enum F vs (AObject [field_of F n b] nospan) n (Some b) (ShNewtype t) eq_refl N In_). cbn [read_variant newtype_variant]. now rewrite V.
    - rewrite <- each_rt. split.
      + intros (a & E & R). destruct (write_all F to_value l) as [l' |] eqn:W; [|discriminate]. injection E as <-. rewrite (from_enum F vs (AObject [field_of F n (AArray l' nospan)] nospan) n (Some (AArray l' nospan)) (ShTuple ts) eq_refl N In_) in R. cbn [read_variant tuple_variant] in R. exists l'. split; [reflexivity|]. destruct (read_each F (map from_value ts) l'); [|discriminate]. cbn in R. injection R as ->. reflexivity.
      + intros (l' & W & R). exists (AObject [field_of F n (AArray l' nospan)] nospan). rewrite W. split; [reflexivity|]. rewrite (from_enum F vs (AObject [field_of F n (AArray l' nospan)] nospan) n (Some (AArray l' nospan)) (ShTuple ts) eq_refl N In_). cbn [read_variant tuple_variant]. now rewrite R.
    - split; [|contradiction]. intros (a & E & R). destruct (write_fields F _ to_value l) as [l' |]; [|discriminate]. injection E as <-. rewrite (from_enum F vs (AObject [field_of F n (AArray l' nospan)] nospan) n (Some (AArray l' nospan)) (ShStruct fs) eq_refl N In_) in R. discriminate R.
  Qed.

  Lemma forall2_left {A B} (R : A -> B -> Prop) (P : A -> Prop) l m : Forall P l -> Forall2 R l m -> Forall2 (fun x y => P x /\ R x y) l m.
  Proof. intros H H2. induction H2; [constructor|]. inversion H; subst. constructor; [now split | auto]. Qed.
  Lemma forall2_imp {A B} (R S : A -> B -> Prop) l m : (forall x y, R x y -> S x y) -> Forall2 R l m -> Forall2 S l m.
  Proof. intros H H2. induction H2; constructor; auto. Qed.
  Lemma fields_names (fs : list (str * ty)) (l : list (str * val F)) : Forall2 (fun f e => fst f = fst e /\ has_type (snd f) (snd e)) fs l -> map fst l = map fst fs.
  Proof. intros H. induction H as [| x y l m [E _] _ IH]; [reflexivity|]. cbn [map]. now rewrite E, IH. Qed.

  Lemma survive t : declared t -> survives t -> forall v, has_type t v -> rt t v.
  Proof.
    induction t using ty_induct; intros D S v T; try contradiction; destruct v; try contradiction.
    - eexists. split; reflexivity.
    - eexists. split; reflexivity.
    - exists (AString (encode [c]) nospan). split; [reflexivity|]. cbn [SerdeModel.from_value deserialize_any visit_string on_string]. rewrite decode1_encode by exact T. reflexivity.
    - eexists. split; reflexivity.
    - eexists. split; reflexivity.
    - eexists. split; reflexivity.
    - cbn in D, S, T. destruct S as [S Nu]. destruct (IHt D S v T) as (a & A & B). exists a. split; [exact A|]. cbn [SerdeModel.from_value].
      destruct a as [s | | | | |]; [exfalso; apply Nu; now apply (to_null t v s)| | | | |]; cbn [deserialize_option]; now rewrite B.
    - apply seq_rt. cbn in D, S, T. revert T. apply Forall_impl. now apply IHt.
    - apply tuple_rt. apply type_tuple in T. apply declared_tuple in D. apply survives_tuple in S. 
      apply (forall2_left _ _ _ _ H), (forall2_left _ _ _ _ D), (forall2_left _ _ _ _ S) in T. revert T. apply forall2_imp. intros x y (A & B & C & E). now apply C.
    - destruct D as [D1 D2], S as [S1 S2], T as [T1 T2]. apply map_rt_to; [assumption|]. revert T1. apply Forall_impl. intros e [A B]. split; [now apply textual_rt | now apply IHt2].
    - apply declared_struct in D as [N D]. apply survives_struct in S. apply type_struct in T. apply struct_rt; [assumption | now apply fields_names|].
      apply (forall2_left _ _ _ _ H), (forall2_left _ _ _ _ D), (forall2_left _ _ _ _ S) in T. revert T. apply forall2_imp. intros x y (A & B & C & E & G). now apply C.
    - cbn in D, S, T. destruct (IHt D S v T) as (a & A & B). exists a. split; [exact A|]. cbn [SerdeModel.from_value]. now rewrite B.
    - apply declared_enum in D as (_ & N & D). apply survives_enum in S. apply types_enum in T as (sh & In_ & T). apply (variant_rt l name sh p N In_ T).
      rewrite Forall_forall in H, D, S. specialize (H _ In_). specialize (D _ In_). specialize (S _ In_). cbn [snd] in *. destruct D as [_ D]. destruct sh, p; try contradiction; try exact I; cbn [shape_all shape_declared shape_survives payload_type] in *.
      + now apply H.
      + apply (forall2_left _ _ _ _ H), (forall2_left _ _ _ _ D), (forall2_left _ _ _ _ S) in T. revert T. apply forall2_imp. intros x y (A & B & C & E). now apply C.
  Qed.

  (** ** Other types do not survive *)
  Lemma forall_inhabited {A B} (R : A -> B -> Prop) l : Forall (fun x => exists y, R x y) l -> exists m, Forall2 R l m.
  Proof. intros H. induction H as [| x l (y & Hy) _ (m & Hm)]; [now exists []|]. exists (y :: m). now constructor. Qed.
  Lemma fields_inhabited (fs : list (str * ty)) : Forall (fun f => exists v, has_type (snd f) v) fs -> exists l : list (str * val F), Forall2 (fun f e => fst f = fst e /\ has_type (snd f) (snd e)) fs l.
  Proof. intros H. apply forall_inhabited. revert H. apply Forall_impl. intros f (v & T). now exists (fst f, v). Qed.
  Lemma forall_mp {A} (P Q : A -> Prop) l : Forall (fun x => P x -> Q x) l -> Forall P l -> Forall Q l.
  Proof. intros H. induction H; intros H2; inversion H2; subst; constructor; auto. Qed.

  Lemma shape_inhabited sh : shape_all (fun t => declared t -> exists v, has_type t v) sh -> shape_declared sh -> exists p, payload_type F sh p.
  Proof.
    destruct sh as [| t | ts | fs]; cbn [shape_all shape_declared payload_type]; intros H D.
    - now exists PaUnit.
    - destruct (H D) as (v & T). now exists (PaNewtype v).
    - destruct (forall_inhabited has_type ts (forall_mp _ _ _ H D)) as (l & T). now exists (PaTuple l).
    - destruct D as [_ D]. destruct (fields_inhabited fs (forall_mp _ _ _ H D)) as (l & T). now exists (PaStruct l).
  Qed.
  Lemma inhabited t : declared t -> exists v, has_type t v.
  Proof.
    induction t using ty_induct; intros D.
    - now exists (RBool true). - now exists (RInt 0%Z). - now exists (RFloat (of_int 0%Z)). - exists (RChar 97%Z). cbn. now apply is_scalarb_spec. - exists (RString []). apply valid_nil. - now exists RUnit.
    - now exists RNone. - exists (RSeq []). constructor.
    - apply declared_tuple in D. destruct (forall_inhabited has_type l (forall_mp _ _ _ H D)) as (m & T). exists (RTuple m). now apply type_tuple.
    - exists (RMap []). cbn. split; constructor.
    - apply declared_struct in D as [_ D]. destruct (fields_inhabited l (forall_mp _ _ _ H D)) as (m & T). exists (RStruct m). now apply type_struct.
    - cbn in D. destruct (IHt D) as (v & T). now exists (RNewtype v).
    - apply declared_enum in D as (Ne & _ & D). destruct l as [| [n sh] l]; [contradiction|]. inversion H as [| ? ? H1 _]; subst. inversion D as [| ? ? [_ D1] _]; subst. cbn [snd] in *.
      destruct (shape_inhabited sh H1 D1) as (p & T). exists (RVariant n p). apply types_enum. exists sh. split; [now left | assumption].
  Qed.
  Lemma shape_value sh : shape_declared sh -> exists p, payload_type F sh p.
  Proof.
    intros D. apply shape_inhabited; [|assumption]. clear D. destruct sh; cbn [shape_all]; [trivial | apply inhabited | apply Forall_forall; intros t _; apply inhabited | apply Forall_forall; intros f _; apply inhabited].
  Qed.

  (** A list where one element goes wrong, and the others have some value *)
  Lemma one_wrong {A B} (R S : A -> B -> Prop) (Q : A -> Prop) l : Forall (fun x => exists y, R x y) l -> Forall (fun x => Q x \/ exists y, R x y /\ ~ S x y) l ->
    Forall Q l \/ exists m, Forall2 R l m /\ ~ Forall2 S l m.
  Proof.
    intros I H. induction H as [| x l [Hx | (y & Ry & Sy)] _ IH]; [left; constructor| |]; inversion I as [| ? ? (y0 & R0) I2]; subst.
    - destruct (IH I2) as [L | (m & Rm & Sm)]; [left; now constructor|]. right. exists (y0 :: m). split; [now constructor|]. intros H2. apply forall2_cons in H2 as [_ H2]. contradiction.
    - right. destruct (forall_inhabited R l I2) as (m & Rm). exists (y :: m). split; [now constructor|]. intros H2. apply forall2_cons in H2 as [H2 _]. contradiction.
  Qed.

  Lemma untextual t : declared t -> textual t \/ exists k, has_type t k /\ forall n, key_string k = Ok n -> from_value t (AString n nospan) = Err.
  Proof.
    induction t using ty_induct; intros D; try (left; exact I); try (right; destruct (inhabited _ D) as (k & T); exists k; split; [assumption|]; intros n K; reflexivity).
    - right. exists RNone. split; [exact I|]. intros n K. discriminate K.
    - cbn in D. destruct (IHt D) as [L | (k & T & K)]; [now left|]. right. exists (RNewtype k). split; [exact T|]. intros n E. cbn [SerdeModel.from_value]. now rewrite (K n E).
    - apply declared_enum in D as (_ & N & D). cbn [textual].
      destruct (Forall_Exists_dec (fun v : str * shape => snd v = ShUnit) ltac:(intros [? []]; [left; reflexivity | right; discriminate ..]) l) as [L | R]; [now left|]. right.
      apply Exists_exists in R as ([n sh] & In_ & Ns). cbn [snd] in Ns. rewrite Forall_forall in D. destruct (D _ In_) as [_ Ds]. cbn [snd] in Ds. destruct (shape_value sh Ds) as (p & T).
      exists (RVariant n p). split; [apply types_enum; now exists sh|]. intros m K. destruct sh, p; try contradiction; discriminate K.
  Qed.

  Lemma perish t : declared t -> survives t \/ exists v, has_type t v /\ ~ rt t v.
  Proof.
    induction t using ty_induct; intros D; try (left; exact I).
    - right. exists (RInt 0%Z). split; [exact I|]. intros (a & A & B). destruct a; discriminate B.
    - cbn in D. destruct (IHt D) as [S | (v & T & B)].
      + cbn [survives]. assert (nullable t \/ ~ nullable t) as [Nu | Nu]; [|right|left; now split].
        { clear. induction t using ty_induct; try (right; intros H0; exact H0); try (left; exact I). exact IHt. }
        destruct (null_value t Nu) as (v & T & E). exists (RSome v). split; [exact T|]. intros (a & A & B). cbn [SerdeModel.to_value] in A. rewrite E in A. injection A as <-. discriminate B.
      + right. exists (RSome v). split; [exact T|]. intros (a & A & C). apply B. exists a. split; [exact A|]. cbn [SerdeModel.from_value] in C. destruct a; [discriminate C|..]; cbn [deserialize_option] in C; (destruct (from_value t _) as [v' |] eqn:E; [|discriminate C]); cbn in C; now injection C as ->.
    - cbn in D. destruct (IHt D) as [S | (v & T & B)]; [now left|]. right. exists (RSeq [v]). split; [constructor; [exact T | constructor]|]. intros R. apply seq_rt in R. inversion R; contradiction.
    - apply declared_tuple in D. rewrite survives_tuple. destruct (one_wrong has_type rt survives l) as [L | (m & T & B)].
      + revert D. apply Forall_impl. exact inhabited.
      + now apply (forall_mp declared).
      + now left.
      + right. exists (RTuple m). split; [now apply type_tuple|]. now rewrite tuple_rt.
    - destruct D as [D1 D2]. destruct (untextual t1 D1) as [Tx | (k & T & K)]; [destruct (IHt2 D2) as [S | (v & T & B)]|].
      + left. now split.
      + right. destruct (inhabited t1 D1) as (k & Tk). exists (RMap [(k, v)]). split; [cbn; split; [constructor; [now split | constructor] | constructor; [intros [] | constructor]]|]. intros R. apply map_rt_from in R as [_ R]. contradiction.
      + right. destruct (inhabited t2 D2) as (v & Tv). exists (RMap [(k, v)]). split; [cbn; split; [constructor; [now split | constructor] | constructor; [intros [] | constructor]]|]. intros R. apply map_rt_from in R as [(n & E & R) _]. rewrite (K n E) in R. discriminate R.
    - apply declared_struct in D as [N D]. rewrite survives_struct. destruct (one_wrong (fun f (e : str * val F) => fst f = fst e /\ has_type (snd f) (snd e)) (fun f e => rt (snd f) (snd e)) (fun f => survives (snd f)) l) as [L | (m & T & B)].
      + revert D. apply Forall_impl. intros f Df. destruct (inhabited _ Df) as (v & T). now exists (fst f, v).
      + apply (forall_mp (fun f => declared (snd f))); [|assumption]. revert H. apply Forall_impl. intros f Hf Df. destruct (Hf Df) as [S | (v & T & B)]; [now left|]. right. exists (fst f, v). now split.
      + now left.
      + right. exists (RStruct m). split; [now apply type_struct|]. rewrite struct_rt; [assumption | assumption | now apply fields_names].
    - cbn in D. destruct (IHt D) as [S | (v & T & B)]; [now left|]. right. exists (RNewtype v). split; [exact T|]. intros (a & A & C). apply B. exists a. split; [exact A|]. cbn [SerdeModel.from_value] in C. destruct (from_value t a) as [v' |] eqn:E; [|discriminate C]. cbn in C. now injection C as ->.
    - apply declared_enum in D as (_ & N & D). rewrite survives_enum.
      assert (Sub : forall l', incl l' l -> Forall (fun v => shape_survives (snd v)) l' \/ exists v, has_type (TyEnum l) v /\ ~ rt (TyEnum l) v); [|apply Sub, incl_refl].
      induction l' as [| [n sh] l' IH]; intros Inc; [left; constructor|]. destruct (IH (fun x Hx => Inc x (or_intror Hx))) as [L | R]; [|now right]. pose proof (Inc _ (or_introl eq_refl)) as In_. rewrite Forall_forall in D, H. specialize (D _ In_). specialize (H _ In_). cbn [snd fst] in D, H. destruct D as [_ D].
      assert (shape_survives sh \/ exists p, payload_type F sh p /\ ~ rt (TyEnum l) (RVariant n p)) as [S | (p & T & B)]; [|left; now constructor|right; exists (RVariant n p); split; [apply types_enum; now exists sh | assumption]].
      destruct sh as [| t | ts | fs]; cbn [shape_survives shape_all shape_declared] in *.
      + now left.
      + destruct (H D) as [S | (v & T & B)]; [now left|]. right. exists (PaNewtype v). split; [exact T|]. now rewrite (variant_rt l n (ShNewtype t) (PaNewtype v) N In_ T).
      + destruct (one_wrong has_type rt survives ts) as [S | (m & T & B)]; [revert D; apply Forall_impl; exact inhabited | now apply (forall_mp declared) | now left|]. right. exists (PaTuple m). split; [exact T|]. now rewrite (variant_rt l n (ShTuple ts) (PaTuple m) N In_ T).
      + right. destruct (shape_value (ShStruct fs) D) as (p & T). exists p. split; [exact T|]. rewrite (variant_rt l n (ShStruct fs) p N In_ T). tauto.
  Qed.
End Both.

(** ** Spans do not matter *)
Section Spans.
  Variable F : Type.
  Notation from_value := (from_value F).
  Notation efield := (fun f : str * span * ast F * span => (fst (fst (fst f)), (0, 0), erase (snd (fst f)), (0, 0))).

  Lemma read_all_erase rd l : (forall a : ast F, rd (erase a) = rd a) -> read_all F rd (map erase l) = read_all F rd l.
  Proof. intros H. induction l as [| a l IH]; [reflexivity|]. cbn [map read_all]. fold (read_all F rd). now rewrite H, IH. Qed.
  Lemma read_each_erase rds : forall l, Forall (fun rd => forall a : ast F, rd (erase a) = rd a) rds -> read_each F rds (map erase l) = read_each F rds l.
  Proof. induction rds as [| rd rds IH]; intros l H; [reflexivity|]. inversion H as [| ? ? H1 H2]; subst. destruct l as [| a l]; [reflexivity|]. cbn [map read_each]. now rewrite H1, IH. Qed.
  Lemma read_entries_erase rk rv l : (forall a : ast F, rk (erase a) = rk a) -> (forall a : ast F, rv (erase a) = rv a) -> forall acc, read_entries F rk rv (map efield l) acc = read_entries F rk rv l acc.
  Proof.
    intros Hk Hv. induction l as [| [[[n s] a] s'] l IH]; intros acc; [reflexivity|]. cbn [map read_entries fst snd]. pose proof (Hk (AString n s)) as E. cbn [erase] in E. rewrite E, Hv.
    destruct (rk (AString n s)); [|reflexivity]. destruct (rv a); [|reflexivity]. apply IH.
  Qed.
  Lemma read_struct_erase rd l : (forall n f, rd n = Some f -> forall a : ast F, f (erase a) = f a) -> forall acc, read_struct F rd (map efield l) acc = read_struct F rd l acc.
  Proof.
    intros H. induction l as [| [[[n s] a] s'] l IH]; intros acc; [reflexivity|]. cbn [map read_struct fst snd]. destruct (rd n) as [f |] eqn:E; [|apply IH]. destruct (known F n acc); [reflexivity|]. rewrite (H n f E). destruct (f a); [apply IH | reflexivity].
  Qed.
  Lemma named_erase fs : Forall (fun f => forall a, from_value (snd f) (erase a) = from_value (snd f) a) fs -> forall n f, named F fs n = Some f -> forall a, f (erase a) = f a.
  Proof.
    intros H. induction H as [| [m t] fs Ht _ IH]; intros n f E a; [discriminate|]. cbn [named] in E. destruct (list_eq_dec Z.eq_dec m n); [injection E as <-; apply Ht | now apply (IH n)].
  Qed.
  Lemma erase_enum a : deserialize_enum F (erase a) = match deserialize_enum F a with Ok (n, v) => Ok (n, option_map erase v) | Err => Err end.
  Proof. destruct a as [| | | | | [| [[[n s] a] s'] [| f l]]]; reflexivity. Qed.

  Lemma from_erase t : forall a, from_value t (erase a) = from_value t a.
  Proof.
    induction t using ty_induct; intros a.
    1-6: destruct a; reflexivity.
    - cbn [SerdeModel.from_value]. destruct a; cbn [deserialize_option]; [reflexivity|..]; match goal with |- context [from_value t ?x] => pose proof (IHt x) as E; cbn [erase] in E end; cbn [erase deserialize_option]; now rewrite ?E.
    - destruct a; try reflexivity. cbn [SerdeModel.from_value erase deserialize_any visit_seq on_seq]. now rewrite read_all_erase.
    - rewrite !from_tuple. destruct a as [| | | | m |]; try reflexivity. cbn [erase deserialize_any visit_seq on_seq]. rewrite read_each_erase; [reflexivity|]. apply Forall_map. exact H.
    - destruct a; try reflexivity. cbn [SerdeModel.from_value erase deserialize_any visit_map on_map]. now rewrite read_entries_erase.
    - destruct a as [| | | | m | m]; try reflexivity.
      + cbn [erase]. rewrite !from_struct_array, read_each_erase; [reflexivity|]. apply Forall_map. exact H.
      + cbn [erase]. rewrite !from_struct_object. unfold read_fields. rewrite read_struct_erase; [reflexivity | now apply named_erase].
    - cbn [SerdeModel.from_value]. now rewrite IHt.
    - cbn [SerdeModel.from_value]. rewrite erase_enum. destruct (deserialize_enum F a) as [[n v] |]; [|reflexivity]. cbn [bind fst snd]. clear a. induction H as [| [m sh] l Hs _ IHl]; [reflexivity|]. cbn [snd] in Hs.
      destruct (list_eq_dec Z.eq_dec m n) as [-> | _]; [|exact IHl]. destruct v as [a |]; [|reflexivity]. cbn [option_map]. destruct sh as [| t | ts | fs]; cbn [shape_all] in Hs.
      + reflexivity.
      + cbn [newtype_variant]. now rewrite Hs.
      + destruct a as [| | | | m |]; try reflexivity. cbn [erase tuple_variant]. rewrite readers_map, read_each_erase; [reflexivity|]. apply Forall_map. exact Hs.
      + destruct a as [| | | | | m]; try reflexivity. cbn [erase struct_variant]. rewrite read_struct_erase; [reflexivity | now apply named_erase].
  Qed.
  Lemma from_erased t a b : erase a = erase b -> from_value t a = from_value t b.
  Proof. intros E. now rewrite <- (from_erase t a), E, from_erase. Qed.
End Spans.

(** ** Reading structures *)
Section Structs.
  Variable F : Type.
  Notation from_value := (from_value F).
  Notation fields := (list (str * span * ast F * span)).

  Lemma known_app n (acc : list (str * val F)) m v : known F n (acc ++ [(m, v)]) = match known F n acc with Some x => Some x | None => if list_eq_dec Z.eq_dec m n then Some v else None end.
  Proof.
    unfold known. induction acc as [| [k w] acc IH]; cbn [app find fst]; [destruct (list_eq_dec Z.eq_dec m n); reflexivity|]. destruct (list_eq_dec Z.eq_dec k n); [reflexivity | exact IH].
  Qed.
  Lemma values_cons n m s a s' (l : fields) : values_named n ((m, s, a, s') :: l) = if list_eq_dec Z.eq_dec m n then a :: values_named n l else values_named n l.
  Proof. unfold values_named. cbn [filter fst]. destruct (list_eq_dec Z.eq_dec m n); reflexivity. Qed.

  Definition comes (f : ast F -> answer (val F)) (before : option (val F)) (l : list (ast F)) (after : option (val F)) : Prop :=
    match before, l with
    | Some v, [] => after = Some v
    | None, [] => after = None
    | None, [a] => exists v, f a = Ok v /\ after = Some v
    | _, _ => False
    end.
  Lemma read_struct_sound rd (l : fields) : forall acc r, read_struct F rd l acc = Ok r -> forall n f, rd n = Some f -> comes f (known F n acc) (values_named n l) (known F n r).
  Proof.
    induction l as [| [[[m s] a] s'] l IH]; intros acc r R n f E.
    - injection R as <-. cbn. destruct (known F n acc); reflexivity.
    - cbn [read_struct] in R. rewrite values_cons. destruct (rd m) as [g |] eqn:G.
      + destruct (known F m acc) as [w |] eqn:K; [discriminate|]. destruct (g a) as [v |] eqn:A; [|discriminate]. specialize (IH _ _ R n f E). rewrite known_app in IH.
        destruct (list_eq_dec Z.eq_dec m n) as [-> | D].
        * rewrite K in *. rewrite E in G. injection G as <-. destruct (values_named n l) as [| b r']; [|destruct r'; contradiction]. exists v. now split.
        * destruct (known F n acc); exact IH.
      + destruct (list_eq_dec Z.eq_dec m n) as [-> | D]; [rewrite E in G; discriminate|]. now apply (IH acc).
  Qed.
  Lemma read_struct_complete rd (l : fields) : forall acc, (forall n f, rd n = Some f -> exists after, comes f (known F n acc) (values_named n l) after) -> exists r, read_struct F rd l acc = Ok r.
  Proof.
    induction l as [| [[[m s] a] s'] l IH]; intros acc H; [now exists acc|]. cbn [read_struct]. destruct (rd m) as [g |] eqn:G.
    - destruct (H m g G) as (after & C). rewrite values_cons in C. destruct (list_eq_dec Z.eq_dec m m) as [_ | N]; [|contradiction]. destruct (known F m acc) as [w |] eqn:K; [contradiction|].
      cbn [comes] in C. destruct (values_named m l) as [| b r] eqn:V; [|contradiction]. destruct C as (v & A & ->). rewrite A. apply IH. intros n f E. rewrite known_app.
      destruct (list_eq_dec Z.eq_dec m n) as [<- | D].
      + rewrite K, V. now exists (Some v).
      + destruct (H n f E) as (after & C). rewrite values_cons in C. destruct (list_eq_dec Z.eq_dec m n); [contradiction|]. exists after. destruct (known F n acc); exact C.
    - apply IH. intros n f E. destruct (H n f E) as (after & C). rewrite values_cons in C. destruct (list_eq_dec Z.eq_dec m n) as [-> |]; [rewrite E in G; discriminate|]. now exists after.
  Qed.

  Lemma struct_reads (fs : list (str * ty)) (l : fields) vs : NoDup (map fst fs) -> (read_fields F fs l = Ok vs <-> Forall2 (field_from l) fs vs).
  Proof.
    intros N. unfold read_fields. split.
    - intros H. destruct (read_struct F (named F fs) l []) as [r |] eqn:R; [|discriminate]. cbn [bind] in H. pose proof (read_struct_sound _ _ _ _ R) as S.
      assert (S' : forall n t, In (n, t) fs -> comes (from_value t) None (values_named n l) (known F n r)) by (intros n t I; apply (S n); now apply named_in).
      clear R S N. revert vs H. induction fs as [| [n t] fs IH]; intros vs H; cbn [finish_struct] in H; [injection H as <-; constructor|].
      destruct (match known F n r with Some v => Ok v | None => missing F t end) as [v |] eqn:V; [|discriminate]. destruct (finish_struct F fs r) as [vs' |] eqn:W; [|discriminate]. injection H as <-.
      constructor; [|apply IH; [intros m u I; apply S'; now right | reflexivity]]. split; [reflexivity|]. cbn [fst snd]. pose proof (S' n t (or_introl eq_refl)) as C. unfold comes in C.
      destruct (values_named n l) as [| a [| b q]]; [right | left | contradiction].
      + rewrite C in V. destruct t; try discriminate. injection V as <-. repeat split. now eexists.
      + destruct C as (v' & A & K). rewrite K in V. injection V as ->. exists a. now split.
    - intros H. assert (Cm : forall n f, named F fs n = Some f -> exists after, comes f None (values_named n l) after).
      { clear N. induction H as [| [n t] [m v] fs vs [E Hf] _ IH]; intros k f Nm; [discriminate|]. cbn [named fst snd] in *. destruct (list_eq_dec Z.eq_dec n k) as [-> |]; [|now apply IH]. injection Nm as <-.
        destruct Hf as [(a & -> & A) | (-> & _)]; [exists (Some v); now exists v | now exists None]. }
      destruct (read_struct_complete (named F fs) l [] Cm) as (r & R). rewrite R. cbn [bind]. pose proof (read_struct_sound _ _ _ _ R) as S.
      assert (S' : forall n t, In (n, t) fs -> comes (from_value t) None (values_named n l) (known F n r)) by (intros n t I; apply (S n); now apply named_in).
      clear R S N Cm. induction H as [| [n t] [m v] fs vs [E Hf] _ IH]; [reflexivity|]. cbn [fst snd] in *. subst m. cbn [finish_struct]. rewrite IH by (intros k u I; apply S'; now right).
      pose proof (S' n t (or_introl eq_refl)) as C. destruct Hf as [(a & V & A) | (V & (u & ->) & ->)]; rewrite V in C; cbn [comes] in C.
      + destruct C as (v' & A' & ->). rewrite A in A'. injection A' as <-. reflexivity.
      + now rewrite C.
  Qed.
End Structs.

(** ** Integers as floating point numbers *)
Lemma digits_bounds p : (2 ^ (Zpos (digits2_pos p) - 1) <= Zpos p < 2 ^ Zpos (digits2_pos p))%Z.
Proof.
  induction p as [p IH | p IH |]; cbn [digits2_pos]; [| |cbn; lia]; rewrite Pos2Z.inj_succ; replace (Z.succ (Zpos (digits2_pos p)) - 1)%Z with (Z.succ (Zpos (digits2_pos p) - 1)) by lia; rewrite !Z.pow_succ_r by lia; lia.
Qed.
Lemma digits_shift d m : digits2_pos (shift_pos d m) = (digits2_pos m + d)%positive.
Proof.
  unfold shift_pos. induction d as [| d IH] using Pos.peano_ind; [cbn [Pos.iter digits2_pos]; lia|]. rewrite Pos.iter_succ. cbn [digits2_pos]. rewrite IH. lia.
Qed.
Lemma small_exact s m : (Zpos m <= 2 ^ 53)%Z -> is_int (binary_round 53 1024 s m 0) (if s then Zneg m else Zpos m).
Proof.
  intros L. pose proof (digits_bounds m) as [B1 B2]. set (d := Zpos (digits2_pos m)) in *.
  assert (d <= 53 \/ Zpos m = 2 ^ 53)%Z as [D | E].
  { destruct (Z.le_gt_cases d 53) as [H | H]; [now left|]. right. assert (2 ^ 53 <= 2 ^ (d - 1))%Z by (apply Z.pow_le_mono_r; lia). lia. }
  2:{ change (2 ^ 53)%Z with 9007199254740992%Z in E. injection E as ->. destruct s; vm_compute; left; split; [discriminate | reflexivity | discriminate | reflexivity]. }
  assert (1 <= d)%Z by (unfold d; lia).
  unfold binary_round, shl_align. fold d. assert (Fx : forall k, (-1021 <= k <= 100)%Z -> fexp 53 1024 k = (k - 53)%Z) by (intros k Hk; unfold fexp, emin; lia).
  rewrite Fx by lia. replace (d + 0 - 53 - 0)%Z with (d - 53)%Z by lia.
  assert (Aux : forall mz ez, Zpos (digits2_pos mz) = 53%Z -> (-60 <= ez <= 0)%Z -> binary_round_aux 53 1024 s (Zpos mz) ez loc_Exact = S754_finite s mz ez).
  { intros mz ez Dz Ez. unfold binary_round_aux, shr_fexp. cbn [Zdigits2]. rewrite Dz, Fx by lia. replace (53 + ez - 53 - ez)%Z with 0%Z by lia. cbn [shr shr_record_of_loc shr_m loc_of_shr_record round_nearest_even Zdigits2]. rewrite Dz, Fx by lia. replace (53 + ez - 53 - ez)%Z with 0%Z by lia. cbn [shr shr_m].
    rewrite (proj2 (Z.leb_le ez (1024 - 53))) by lia. reflexivity. }
  destruct (d - 53)%Z as [| q | q] eqn:Q.
  - rewrite Aux by lia. cbn. left. split; [lia|]. destruct s; lia.
  - lia.
  - replace (d + 0 - 53)%Z with (Zneg q) by lia. rewrite Aux; [|rewrite digits_shift, Pos2Z.inj_add; fold d; lia | lia]. cbn [is_int]. right. split; [lia|]. pose proof (shift_pos_correct q m) as Sh.
    rewrite Z.pow_pos_fold in Sh. change (- Zneg q)%Z with (Zpos q). destruct s; [change (Zneg (shift_pos q m)) with (- Zpos (shift_pos q m))%Z; change (Zneg m) with (- Zpos m)%Z|]; lia.
Qed.
