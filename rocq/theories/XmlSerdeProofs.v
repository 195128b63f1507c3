(** Lemmas about writing Rust values as XML values and reading them. *)
From Verif Require Import Base Utf8 Utf8Facts RopeModel CursorModel CursorProofs VfsModel VfsProofs TreeModel ParserModel JsonModel JsonAstModel SerdeModel SerdeSpec SerdeProofs IniModel XmlModel XmlSpec XmlSerdeModel XmlSerdeSpec.

Lemma str_eqb_iff a b : str_eqb a b = true <-> a = b.
Proof. apply str_eqb_spec. Qed.
Lemma str_eqb_no a b : a <> b -> str_eqb a b = false.
Proof. intros H. destruct (str_eqb a b) eqn:E; [|reflexivity]. apply str_eqb_iff in E. contradiction. Qed.

(** ** Reading, with the inner loops as lists *)
Section Reading.
  Variable F : Type.
  Notation xml_from := (xml_from F).

  Fixpoint xnamed (l : list (str * ty)) (name : str) : option (xvalue -> answer (val F)) :=
    match l with [] => None | (n, t) :: r => if list_eq_dec Z.eq_dec n name then Some (xml_from t) else xnamed r name end.
  Definition x_fields (fs : list (str * ty)) (l : list (str * xvalue)) : answer (list (str * val F)) :=
    bind (x_read_struct F (xnamed fs) l []) (finish_struct F fs).

  Lemma xreaders l : (fix go (l : list ty) := match l with [] => [] | t :: r => xml_from t :: go r end) l = map xml_from l.
  Proof. induction l as [| t l IH]; [reflexivity|]. cbn [map]. now rewrite IH. Qed.
  Lemma xfield_readers (l : list (str * ty)) : (fix go (l : list (str * ty)) := match l with [] => [] | (_, t) :: r => xml_from t :: go r end) l = map (fun f => xml_from (snd f)) l.
  Proof. induction l as [| [n t] l IH]; [reflexivity|]. cbn [map snd]. now rewrite IH. Qed.
  Lemma xfrom_tuple ts x : xml_from (TyTuple ts) x = x_seq x (fun l => bind (x_read_each F (map xml_from ts) l) (fun vs => Ok (RTuple vs))).
  Proof. cbn [XmlSerdeModel.xml_from]. now rewrite xreaders. Qed.
  Lemma xfrom_struct fs x : xml_from (TyStruct fs) x = x_any F x (x_both F
    (fun l => bind (x_read_each F (map (fun f => xml_from (snd f)) fs) l) (fun vs => Ok (RStruct (combine (map fst fs) vs))))
    (fun l => bind (x_fields fs l) (fun vs => Ok (RStruct vs)))).
  Proof.
    cbn [XmlSerdeModel.xml_from]. rewrite xfield_readers. unfold x_fields. destruct x; try reflexivity. cbn [x_any xv_map x_both]. destruct (x_read_struct F (xnamed fs) (map_entries attributes children) []) eqn:E; cbn [bind];
      change (fix go (l : list (str * ty)) (name : str) := match l with [] => None | (n, t) :: r => if list_eq_dec Z.eq_dec n name then Some (xml_from t) else go r name end) with xnamed; now rewrite E.
  Qed.
  Definition xread_variant (n : str) (sh : shape) (value : option xvalue) : answer (val F) :=
    match sh with
    | ShUnit => Ok (RVariant n PaUnit)
    | ShNewtype t => bind (x_newtype_variant F value (xml_from t)) (fun v => Ok (RVariant n (PaNewtype v)))
    | ShTuple ts => bind (x_tuple_variant value (x_read_each F (map xml_from ts))) (fun vs => Ok (RVariant n (PaTuple vs)))
    | ShStruct fs => bind (x_struct_variant value (x_fields fs)) (fun vs => Ok (RVariant n (PaStruct vs)))
    end.
  Lemma xfrom_enum vs x n value sh : x_enum x = Ok (n, value) -> NoDup (map fst vs) -> In (n, sh) vs -> xml_from (TyEnum vs) x = xread_variant n sh value.
  Proof.
    intros E N I. cbn [XmlSerdeModel.xml_from]. rewrite E. cbn [bind fst snd]. clear E x. induction vs as [| [m sh'] vs IH]; [destruct I|]. cbn [map fst] in N. inversion N as [| ? ? N1 N2]; subst.
    destruct (list_eq_dec Z.eq_dec m n) as [-> | D].
    - assert (sh' = sh) as ->. { destruct I as [I | I]; [now injection I|]. exfalso. apply N1. apply in_map_iff. now exists (n, sh). }
      destruct sh; cbn [xread_variant]; rewrite ?xreaders; reflexivity.
    - destruct I as [I | I]; [injection I as -> ->; contradiction|]. now apply IH.
  Qed.
  Lemma xfrom_enum_cases vs x v : xml_from (TyEnum vs) x = Ok v -> exists n value sh, x_enum x = Ok (n, value) /\ In (n, sh) vs /\ xread_variant n sh value = Ok v.
  Proof.
    cbn [XmlSerdeModel.xml_from]. destruct (x_enum x) as [[n value] |]; [|discriminate]. cbn [bind fst snd]. intros H. exists n, value. induction vs as [| [m sh'] vs IH]; [discriminate|].
    destruct (list_eq_dec Z.eq_dec m n) as [-> | D].
    - exists sh'. split; [reflexivity|]. split; [now left|]. destruct sh'; cbn [xread_variant]; rewrite ?xreaders in H; exact H.
    - destruct (IH H) as (sh & A & B & C). exists sh. split; [assumption|]. split; [now right | assumption].
  Qed.
End Reading.

(** ** Grouping *)
Definition elements_named (key : str) (block : list xvalue) : Prop := block <> [] /\ Forall (fun x => exists a k s, x = VElement key a k s) block.
Lemma push_there key v l1 vs l2 : ~ In key (map fst l1) -> group_push key v (l1 ++ (key, vs) :: l2) = l1 ++ (key, vs ++ [v]) :: l2.
Proof.
  induction l1 as [| [k ws] l1 IH]; intros N; cbn [app group_push].
  - now rewrite (proj2 (str_eqb_iff key key) eq_refl).
  - rewrite str_eqb_no by (intros ->; apply N; now left). now rewrite IH by (intros H; apply N; now right).
Qed.
Lemma push_new key v l : ~ In key (map fst l) -> group_push key v l = l ++ [(key, [v])].
Proof.
  induction l as [| [k ws] l IH]; intros N; [reflexivity|]. cbn [app group_push]. rewrite str_eqb_no by (intros ->; apply N; now left). now rewrite IH by (intros H; apply N; now right).
Qed.
Lemma group_blocks blocks : Forall (fun b => elements_named (fst b) (snd b)) blocks -> NoDup (map fst blocks) -> fold_left group_child (concat (map snd blocks)) [] = blocks.
Proof.
  assert (Main : forall blocks acc, Forall (fun b => elements_named (fst b) (snd b)) blocks -> NoDup (map fst (acc ++ blocks)) -> fold_left group_child (concat (map snd blocks)) acc = acc ++ blocks).
  { clear blocks. induction blocks as [| [key block] blocks IH]; intros acc Hb N; [cbn; now rewrite app_nil_r|]. inversion Hb as [| ? ? [B1 B2] Hb']; subst. cbn [map snd concat fst] in *. rewrite fold_left_app.
    assert (Nk : ~ In key (map fst acc)). { rewrite map_app in N. cbn [map fst] in N. apply NoDup_remove_2 in N. intros H. apply N. apply in_or_app. now left. }
    assert (E : fold_left group_child block acc = acc ++ [(key, block)]).
    { destruct block as [| x block]; [contradiction|]. inversion B2 as [| ? ? (a & k & s & ->) B3]; subst. cbn [fold_left group_child]. rewrite push_new by assumption.
      assert (Go : forall more pre, Forall (fun x => exists a k s, x = VElement key a k s) more -> fold_left group_child more (acc ++ [(key, pre)]) = acc ++ [(key, pre ++ more)]).
      { induction more as [| y more IHm]; intros pre Hm; [cbn; now rewrite app_nil_r|]. inversion Hm as [| ? ? (a' & k' & s' & ->) Hm']; subst. cbn [fold_left group_child]. rewrite push_there by assumption. rewrite IHm by assumption. now rewrite <- app_assoc. }
      now rewrite Go. }
    rewrite E, IH; [now rewrite <- app_assoc | assumption | now rewrite <- app_assoc]. }
  intros H N. now apply (Main blocks []).
Qed.

(** ** Writing and reading *)
Section Both.
  Variable (F : Type) (of_int : Z -> F) (show : F -> str) (show_int : Z -> str) (struct_name : list str -> str).
  Notation xml_from := (xml_from F).
  Notation w := (xml_to_value F of_int show show_int struct_name).
  Notation has_type := (has_type F).

  Definition top_rt (t : ty) (v : val F) : Prop := exists x, w v = done x /\ xml_from t x = Ok v.
  Definition wrapped_rt (t : ty) (v : val F) : Prop := exists s, w v = done (VText s) /\ forall n, xml_from t (element_of n [VText s]) = Ok v.
  Definition single_rt (t : ty) (v : val F) : Prop := exists x, w v = done x /\ (forall fs, x <> VFragment fs) /\ forall key, xml_from t (under key x) = Ok v.
  Definition field_rt (t : ty) (v : val F) : Prop := exists x, w v = done x /\ forall key, plain_name key ->
    exists block, elements_named key block /\ (forall o, add_entry key x o = done (fst o, snd o ++ block)) /\ xml_from t (entry_value block) = Ok v.

  Lemma plain_tests key : plain_name key -> prefixb mark key = false /\ str_eqb key (lit "$value") = false.
  Proof.
    intros [N1 N2]. split; [|now apply str_eqb_no]. destruct (prefixb mark key) eqn:P; [|reflexivity]. apply prefixb_iff in P as [r ->]. exfalso. now apply (N2 r).
  Qed.
  Lemma add_other key x o : plain_name key -> (forall fs, x <> VFragment fs) -> add_entry key x o = done (fst o, snd o ++ [under key x]).
  Proof. intros Pn N. destruct (plain_tests key Pn) as [E1 E2]. destruct o as [attrs kids]. unfold add_entry. rewrite E1, E2. destruct x; try reflexivity. now destruct (N fs). Qed.
  Lemma add_fragment key fs o : plain_name key -> add_entry key (VFragment fs) o = done (fst o, snd o ++ map (under key) fs).
  Proof. intros Pn. destruct (plain_tests key Pn) as [E1 E2]. destruct o as [attrs kids]. unfold add_entry. now rewrite E1, E2. Qed.
  Lemma under_named key x : exists a k s, under key x = VElement key a k s.
  Proof. destruct x; cbn; unfold element_of; eauto. Qed.
  Lemma unders_named key fs : fs <> [] -> elements_named key (map (under key) fs).
  Proof. intros N. split; [destruct fs; [contradiction | discriminate]|]. apply Forall_map. apply Forall_forall. intros x _. apply under_named. Qed.
  Lemma single_field t v : single_rt t v -> field_rt t v.
  Proof.
    intros (x & W & N & R). exists x. split; [assumption|]. intros key Pn. exists [under key x]. split; [split; [discriminate | constructor; [apply under_named | constructor]]|]. split; [intros o; now apply add_other | apply R].
  Qed.

  Lemma stringish_rt v : stringish v -> forall t, has_type t v -> wrapped_rt t v.
  Proof.
    induction 1 as [s | v _ IH | v _ IH]; intros t T; destruct t; try contradiction.
    - exists s. split; [reflexivity|]. intros n. cbn. now rewrite app_nil_r.
    - destruct (IH t T) as (s & W & R). exists s. split; [assumption|]. intros n. change (bind (xml_from t (element_of n [VText s])) (fun v => Ok (RSome v)) = Ok (RSome v)). now rewrite R.
    - destruct (IH t T) as (s & W & R). exists s. split; [assumption|]. intros n. cbn [XmlSerdeModel.xml_from]. now rewrite R.
  Qed.
  Lemma wrapped_single t v : wrapped_rt t v -> single_rt t v.
  Proof. intros (s & W & R). exists (VText s). split; [assumption|]. split; [discriminate|]. intros key. apply R. Qed.

  (** Lists *)
  Lemma all_top t l : Forall (fun v => top_rt t v) l -> exists xs, xml_all F w l = done xs /\ x_read_all F (xml_from t) xs = Ok l.
  Proof. induction 1 as [| v l (x & W & R) _ (xs & Ws & Rs)]; [now exists []|]. exists (x :: xs). cbn [xml_all x_read_all]. fold (xml_all F w) (x_read_all F (xml_from t)). rewrite W. cbn [wbind done]. rewrite Ws, R. cbn. now rewrite Rs. Qed.
  Lemma each_top ts l : Forall2 top_rt ts l -> exists xs, xml_all F w l = done xs /\ x_read_each F (map xml_from ts) xs = Ok l.
  Proof. induction 1 as [| t v ts l (x & W & R) _ (xs & Ws & Rs)]; [now exists []|]. exists (x :: xs). cbn [xml_all x_read_each map]. fold (xml_all F w). rewrite W. cbn [wbind done]. rewrite Ws, R. cbn. now rewrite Rs. Qed.
  Lemma all_single t l : Forall (fun v => single_rt t v) l -> exists xs, xml_all F w l = done xs /\ length xs = length l /\ forall key, x_read_all F (xml_from t) (map (under key) xs) = Ok l.
  Proof.
    induction 1 as [| v l (x & W & _ & R) _ (xs & Ws & Ls & Rs)]; [now exists []|]. exists (x :: xs). cbn [xml_all map length]. fold (xml_all F w). rewrite W. cbn [wbind done]. rewrite Ws. split; [reflexivity|]. split; [now rewrite Ls|].
    intros key. cbn [x_read_all]. fold (x_read_all F (xml_from t)). rewrite R. cbn. now rewrite Rs.
  Qed.
  Lemma each_single ts l : Forall2 single_rt ts l -> exists xs, xml_all F w l = done xs /\ length xs = length l /\ forall key, x_read_each F (map xml_from ts) (map (under key) xs) = Ok l.
  Proof.
    induction 1 as [| t v ts l (x & W & _ & R) _ (xs & Ws & Ls & Rs)]; [now exists []|]. exists (x :: xs). cbn [xml_all map length]. fold (xml_all F w). rewrite W. cbn [wbind done]. rewrite Ws. split; [reflexivity|]. split; [now rewrite Ls|].
    intros key. cbn [x_read_each]. rewrite R. cbn. now rewrite Rs.
  Qed.

  (** Structures *)
  Lemma xnamed_in fs n t : NoDup (map fst fs) -> In (n, t) fs -> xnamed F fs n = Some (xml_from t).
  Proof.
    induction fs as [| [m u] fs IH]; intros N I; [destruct I|]. cbn [map fst xnamed] in *. inversion N as [| ? ? N1 N2]; subst. destruct (list_eq_dec Z.eq_dec m n) as [-> | D].
    - destruct I as [I | I]; [now injection I as ->|]. exfalso. apply N1. apply in_map_iff. now exists (n, t).
    - destruct I as [I | I]; [injection I as -> ->; contradiction|]. now apply IH.
  Qed.
  Definition entries_of (blocks : list (str * list xvalue)) : list (str * xvalue) := map (fun e => (fst e, entry_value (snd e))) blocks.
  Lemma blocks_read (fs : list (str * ty)) (l : list (str * val F)) (blocks : list (str * list xvalue)) : NoDup (map fst fs) ->
    Forall2 (fun f e => fst f = fst e) fs l -> Forall2 (fun f b => fst f = fst b) fs blocks -> Forall2 (fun (fe : (str * ty) * (str * val F)) b => xml_from (snd (fst fe)) (entry_value (snd b)) = Ok (snd (snd fe))) (combine fs l) blocks ->
    x_fields F fs (entries_of blocks) = Ok l.
  Proof.
    intros N Hl Hb Hr. unfold x_fields.
    assert (Main : forall fs2 l2 blocks2, Forall2 (fun f e => fst f = fst e) fs2 l2 -> Forall2 (fun f b => fst f = fst b) fs2 blocks2 ->
      Forall2 (fun (fe : (str * ty) * (str * val F)) b => xml_from (snd (fst fe)) (entry_value (snd b)) = Ok (snd (snd fe))) (combine fs2 l2) blocks2 ->
      forall fs1 acc, fs = fs1 ++ fs2 -> map fst acc = map fst fs1 -> x_read_struct F (xnamed F fs) (entries_of blocks2) acc = Ok (acc ++ l2)).
    { intros fs2 l2 blocks2 Hl2. revert blocks2. induction Hl2 as [| [n t] [m v] fs2 l2 E Hl2 IH]; intros blocks2 Hb2 Hr2 fs1 acc Ef Ea.
      - inversion Hb2; subst. cbn. now rewrite app_nil_r.
      - inversion Hb2 as [| ? [k block] ? blocks3 E3 Hb3]; subst. cbn [combine] in Hr2. apply forall2_cons in Hr2 as [R Hr3]. cbn [fst snd] in *. subst m k.
        cbn [entries_of map fst snd x_read_struct]. rewrite (xnamed_in (fs1 ++ (n, t) :: fs2) n t N) by apply in_elt.
        assert (Kn : known F n acc = None). { apply known_none. rewrite Ea. rewrite map_app in N. cbn [map fst] in N. apply NoDup_remove_2 in N. intros H. apply N. apply in_or_app. now left. }
        rewrite Kn, R. cbn [bind]. specialize (IH blocks3 Hb3 Hr3 (fs1 ++ [(n, t)]) (acc ++ [(n, v)])). unfold entries_of in IH. rewrite IH; [now rewrite <- app_assoc | now rewrite <- app_assoc | rewrite !map_app, Ea; reflexivity]. }
    rewrite (Main fs l blocks Hl Hb Hr [] [] eq_refl eq_refl). cbn [app bind]. apply (finish_spec F fs l []); [assumption | now intros|]. clear - Hl. induction Hl as [| f e fs l E _ IH]; [reflexivity|]. cbn. now rewrite E, IH.
  Qed.
  Lemma map_fst_same {A B} (fs : list (str * A)) (l : list (str * B)) : Forall2 (fun f b => fst f = fst b) fs l -> map fst l = map fst fs.
  Proof. induction 1 as [| f b fs l E _ IH]; [reflexivity|]. cbn. now rewrite E, IH. Qed.
  Lemma entries_named blocks : Forall (fun b => elements_named (fst b) (snd b)) blocks -> NoDup (map fst blocks) -> map_entries [] (concat (map snd blocks)) = entries_of blocks.
  Proof. intros H N. unfold map_entries. cbn [map]. now rewrite group_blocks. Qed.
  Lemma struct_blocks fs l : Forall2 (fun f e => fst f = fst e /\ field_rt (snd f) (snd e)) fs l -> Forall (fun e => plain_name (fst e)) l ->
    exists blocks, (forall o, xml_fields F w l o = done (fst o, snd o ++ concat (map snd blocks))) /\ Forall (fun b => elements_named (fst b) (snd b)) blocks /\
      Forall2 (fun f b => fst f = fst b) fs blocks /\ Forall2 (fun (fe : (str * ty) * (str * val F)) b => xml_from (snd (fst fe)) (entry_value (snd b)) = Ok (snd (snd fe))) (combine fs l) blocks.
  Proof.
    induction 1 as [| [n t] [m v] fs l [E (x & W & R)] _ IH]; intros Pn; [exists []; split; [intros [a k]; cbn; now rewrite app_nil_r|]; repeat constructor|]. inversion Pn as [| ? ? P1 P2]; subst. cbn [fst snd] in *. subst m.
    destruct (IH P2) as (blocks & Wb & Nb & Fb & Rb). destruct (R n P1) as (block & Nk & A & Rk). exists ((n, block) :: blocks). split; [|split; [now constructor | split; [now constructor | cbn [combine]; now constructor]]].
    intros o. cbn [xml_fields]. fold (xml_fields F w). rewrite W. cbn [wbind done]. rewrite A. cbn [wbind done]. rewrite Wb. cbn [fst snd map concat]. now rewrite <- app_assoc.
  Qed.
  Definition element_rt (t : ty) (v : val F) : Prop := exists n kids, w v = done (VElement n [] kids xspan) /\ forall name, xml_from t (VElement name [] kids xspan) = Ok v.
  Lemma element_top t v : element_rt t v -> top_rt t v.
  Proof. intros (n & kids & W & R). exists (VElement n [] kids xspan). now split. Qed.
  Lemma element_single t v : element_rt t v -> single_rt t v.
  Proof. intros (n & kids & W & R). exists (VElement n [] kids xspan). split; [assumption|]. split; [discriminate|]. intros key. apply R. Qed.
  Lemma struct_element fs l : NoDup (map fst fs) -> Forall2 (fun f e => fst f = fst e /\ field_rt (snd f) (snd e)) fs l -> Forall (fun e => plain_name (fst e)) l -> element_rt (TyStruct fs) (RStruct l).
  Proof.
    intros N H Pn. destruct (struct_blocks fs l H Pn) as (blocks & Wb & Nb & Fb & Rb). exists (struct_name (map fst l)), (concat (map snd blocks)). cbn [XmlSerdeModel.xml_to_value]. rewrite Wb. split; [reflexivity|].
    intros name. rewrite xfrom_struct. cbn [x_any xv_map x_both]. rewrite entries_named; [|assumption | now rewrite (map_fst_same fs blocks Fb)]. rewrite (blocks_read fs l blocks); [reflexivity | assumption | | assumption | assumption].
    revert H. apply forall2_imp. now intros f e [].
  Qed.

  (** Maps *)
  Lemma key_back t k : plain_key k -> declared t -> has_type t k -> exists s, xml_key F show show_int k = Ok s /\ plain_name s /\ key_from F t s = Ok k.
  Proof.
    intros Pk D T. destruct k as [| | | c | s | | | | | | | | | n [| | |]]; try contradiction; destruct t; try contradiction.
    - exists (encode [c]). split; [reflexivity|]. split; [assumption|]. cbn [key_from]. rewrite decode1_encode by exact T. reflexivity.
    - exists s. now split.
    - exists n. split; [reflexivity|]. split; [assumption|]. apply types_enum in T as (sh & I & T). destruct sh; try contradiction. apply declared_enum in D as (_ & N & _). cbn [key_from].
      clear Pk. induction l as [| [m sh] l IH]; [destruct I|]. cbn [map fst] in N. inversion N as [| ? ? N1 N2]; subst. cbn [find fst]. destruct (list_eq_dec Z.eq_dec m n) as [-> | D].
      + assert (sh = ShUnit) as ->; [|reflexivity]. destruct I as [I | I]; [now injection I|]. exfalso. apply N1. apply in_map_iff. now exists (n, ShUnit).
      + destruct I as [I | I]; [injection I as -> ->; contradiction|]. now apply IH.
  Qed.
  Lemma map_blocks k t l : declared k -> Forall (fun e => has_type k (fst e) /\ plain_key (fst e) /\ field_rt t (snd e)) l -> NoDup (map fst l) ->
    exists blocks, (forall o, xml_entries F show show_int w l o = done (fst o, snd o ++ concat (map snd blocks))) /\ Forall (fun b => elements_named (fst b) (snd b)) blocks /\ NoDup (map fst blocks) /\
      Forall2 (fun e b => key_from F k (fst b) = Ok (fst e)) l blocks /\ forall acc, NoDup (map fst (acc ++ l)) -> x_read_entries F k (xml_from t) (entries_of blocks) acc = Ok (acc ++ l).
  Proof.
    intros D H. induction H as [| [x v] l (T & Pk & (y & W & R)) H IH]; intros N.
    - exists []. split; [intros [a b]; cbn; now rewrite app_nil_r|]. split; [constructor|]. split; [constructor|]. split; [constructor|]. intros acc _. cbn. now rewrite app_nil_r.
    - cbn [map fst] in N. inversion N as [| ? ? N1 N2]; subst. cbn [fst snd] in *. destruct (IH N2) as (blocks & Wb & Nb & Db & Kb & Rb). destruct (key_back k x Pk D T) as (s & Ks & Ps & Kx). destruct (R s Ps) as (block & Nk & A & Rk).
      exists ((s, block) :: blocks). split; [|split; [now constructor | split; [|split; [now constructor|]]]].
      + intros o. cbn [xml_entries]. fold (xml_entries F show show_int w). rewrite Ks, W. cbn [wbind done]. rewrite A. cbn [wbind done]. rewrite Wb. cbn [fst snd map concat]. now rewrite <- app_assoc.
      + cbn [map fst]. constructor; [|assumption]. intros I. apply N1. clear - Kb I Kx. induction Kb as [| e b l blocks E _ IH]; [destruct I|]. cbn [map fst] in *. destruct I as [I | I]; [left; rewrite I in E; congruence | right; now apply IH].
      + intros acc Na. cbn [entries_of map fst snd x_read_entries]. rewrite Kx. cbn [bind]. rewrite Rk. cbn [bind]. rewrite insert_new; [|rewrite map_app in Na; cbn [map fst] in Na; apply NoDup_remove_2 in Na; intros I; apply Na; apply in_or_app; now left].
        unfold entries_of in Rb. rewrite Rb by now rewrite <- app_assoc. now rewrite <- app_assoc.
  Qed.
  Lemma map_element k t l : declared k -> Forall (fun e => has_type k (fst e) /\ plain_key (fst e) /\ field_rt t (snd e)) l -> NoDup (map fst l) -> element_rt (TyMap k t) (RMap l).
  Proof.
    intros D H N. destruct (map_blocks k t l D H N) as (blocks & Wb & Nb & Db & _ & Rb). exists (lit "root"), (concat (map snd blocks)). cbn [XmlSerdeModel.xml_to_value]. rewrite Wb. split; [reflexivity|].
    intros name. cbn [XmlSerdeModel.xml_from x_any xv_map x_map]. rewrite entries_named by assumption. now rewrite (Rb [] N).
  Qed.

  (** Sequences in fields *)
  Lemma not_element_under v x : w v = done x -> ~ elementish v -> forall key, under key x = element_of key [x].
  Proof.
    intros W N key. destruct x as [n a k s | | | | |]; try reflexivity. exfalso. apply N. clear N. revert n a k s W. induction v; intros n0 a0 k0 s0 W; cbn [XmlSerdeModel.xml_to_value] in W; try discriminate W.
    - constructor. eapply IHv. exact W.
    - destruct (xml_all F w l) as [[] |]; discriminate.
    - destruct (xml_all F w l) as [[] |]; discriminate.
    - constructor.
    - constructor.
    - constructor. eapply IHv. exact W.
    - destruct p; constructor; discriminate.
  Qed.
  Lemma text_blank v : whole v -> forall t, has_type t v -> w v = done (VText []) -> blank v.
  Proof.
    induction v; intros Wh t T W; inversion Wh; subst; destruct t; try contradiction; cbn [XmlSerdeModel.xml_to_value] in W; try discriminate W.
    - exfalso. apply (decode1_encode c []) in T. injection W as W. cbn in W, T. rewrite W in T. discriminate.
    - injection W as ->. constructor.
    - constructor.
    - constructor. eapply IHv; eassumption.
    - destruct (xml_all F w l) as [[] |]; discriminate.
    - destruct (xml_all F w l) as [[] |]; discriminate.
    - destruct (xml_entries F show show_int w l ([], [])) as [[] |]; discriminate.
    - destruct (xml_fields F w l ([], [])) as [[] |]; discriminate.
    - constructor. eapply IHv; eassumption.
    - injection W as ->. constructor.
    - destruct (w v) as [[] |]; discriminate.
    - destruct (xml_all F w l) as [[] |]; discriminate.
    - destruct (xml_variant_fields F w l) as [[] |]; discriminate.
  Qed.

  (** The fields of a variant *)
  Lemma variant_blocks fs l : Forall2 (fun f e => fst f = fst e /\ wrapped_rt (snd f) (snd e)) fs l ->
    exists blocks, xml_variant_fields F w l = done (concat (map snd blocks)) /\ Forall (fun b => elements_named (fst b) (snd b)) blocks /\
      Forall2 (fun f b => fst f = fst b) fs blocks /\ Forall2 (fun (fe : (str * ty) * (str * val F)) b => xml_from (snd (fst fe)) (entry_value (snd b)) = Ok (snd (snd fe))) (combine fs l) blocks.
  Proof.
    induction 1 as [| [n t] [m v] fs l [E (s & W & R)] _ (blocks & Wb & Nb & Fb & Rb)]; [exists []; repeat constructor|]. cbn [fst snd] in *. subst m. exists ((n, [element_of n [VText s]]) :: blocks).
    split; [|split; [constructor; [|assumption] | split; [now constructor | cbn [combine]; constructor; [apply R | assumption]]]].
    - cbn [xml_variant_fields]. fold (xml_variant_fields F w). rewrite W. cbn [wbind done]. now rewrite Wb.
    - split; [discriminate|]. constructor; [unfold element_of; eauto | constructor].
  Qed.

  Definition all_rt (t : ty) : Prop := declared t -> forall v, has_type t v -> (whole v -> top_rt t v) /\ (field v -> field_rt t v) /\ (single v -> single_rt t v).
  Lemma entry_not_text key block : elements_named key block -> forall none some, x_option F (entry_value block) none some = some (entry_value block).
  Proof. intros [N H] none some. destruct H as [| x [| y l] (a & k & s & ->) H]; [contradiction | reflexivity | reflexivity]. Qed.
  Lemma option_field t v : field_rt t v -> field_rt (TyOption t) (RSome v).
  Proof.
    intros (x & W & R). exists x. split; [assumption|]. intros key Pn. destruct (R key Pn) as (block & Nb & A & Rb). exists block. split; [assumption|]. split; [assumption|].
    cbn [XmlSerdeModel.xml_from]. rewrite (entry_not_text key block Nb). now rewrite Rb.
  Qed.
  Lemma option_single t v : single_rt t v -> single_rt (TyOption t) (RSome v).
  Proof.
    intros (x & W & N & R). exists x. split; [assumption|]. split; [assumption|]. intros key. cbn [XmlSerdeModel.xml_from]. destruct (under_named key x) as (a & k & s & E). specialize (R key). rewrite E in *. cbn [x_option]. now rewrite R.
  Qed.
  Lemma newtype_field t v : field_rt t v -> field_rt (TyNewtype t) (RNewtype v).
  Proof.
    intros (x & W & R). exists x. split; [assumption|]. intros key Pn. destruct (R key Pn) as (block & Nb & A & Rb). exists block. split; [assumption|]. split; [assumption|]. cbn [XmlSerdeModel.xml_from]. now rewrite Rb.
  Qed.
  Lemma newtype_single t v : single_rt t v -> single_rt (TyNewtype t) (RNewtype v).
  Proof. intros (x & W & N & R). exists x. split; [assumption|]. split; [assumption|]. intros key. cbn [XmlSerdeModel.xml_from]. now rewrite R. Qed.
  Lemma entry_many (block : list xvalue) : 2 <= length block -> entry_value block = VFragment block.
  Proof. destruct block as [| x [| y l]]; cbn; try lia. reflexivity. Qed.

  Lemma all_survive t : all_rt t.
  Proof.
    induction t using ty_induct; intros D v T.
    1-4, 6: destruct v; try contradiction; split; [|split]; intros Hv; try (inversion Hv; fail); try (inversion Hv as [? Hs | | | | | |]; inversion Hs; fail).
    - (* char *) exists (VText (encode [c])). split; [reflexivity|]. cbn [XmlSerdeModel.xml_from x_any xv_string x_string]. rewrite decode1_encode by exact T. reflexivity.
    - (* string *) destruct v; try contradiction. assert (S0 : wrapped_rt TyString (RString s)) by (apply stringish_rt; [constructor | assumption]). split; [|split]; intros _; [exists (VText s); split; reflexivity | now apply single_field, wrapped_single | now apply wrapped_single].
    - (* option *) destruct v as [| | | | | | | v | | | | | |]; try contradiction.
      + split; [|split]; intros Hv; [exists (VText []); split; reflexivity | inversion Hv as [? Hs | | | | | |]; inversion Hs | inversion Hv].
      + destruct (IHt D v T) as (I1 & I2 & I3). split; [|split]; intros Hv.
        * inversion Hv as [| | | ? Wv Nb | | | | | | | | |]; subst. destruct (I1 Wv) as (x & W & R). exists x. split; [assumption|]. cbn [XmlSerdeModel.xml_from]. unfold x_option. rewrite R.
          destruct x as [| [| c s] | | | |]; try reflexivity. exfalso. apply Nb. eapply text_blank; eassumption.
        * apply option_field. apply I2. inversion Hv as [? Hs | | | | | |]; subst; [inversion Hs; subst; now constructor | assumption].
        * inversion Hv; subst. apply option_single. now apply I3.
    - (* sequence *) destruct v; try contradiction. cbn in D, T. rewrite Forall_forall in T. split; [|split]; intros Hv.
      + inversion Hv as [| | | | | ? Wl | | | | | | |]; subst. rewrite Forall_forall in Wl. destruct (all_top t l) as (xs & Ws & Rs). { apply Forall_forall. intros v I. apply (IHt D v (T v I)). now apply Wl. }
        exists (VFragment xs). cbn [XmlSerdeModel.xml_to_value]. rewrite Ws. split; [reflexivity|]. cbn [XmlSerdeModel.xml_from x_seq]. now rewrite Rs.
      + inversion Hv as [? Hs | | | v Wv Ne | v v' l' Sl | |]; subst; [inversion Hs | |].
        * destruct (proj1 (IHt D v (T v (or_introl eq_refl))) Wv) as (x & W & R). exists (VFragment [x]). cbn [XmlSerdeModel.xml_to_value xml_all]. rewrite W. split; [reflexivity|]. intros key Pn. exists [under key x].
          split; [now apply (unders_named key [x])|]. split; [intros o; now apply add_fragment|]. cbn [entry_value]. rewrite (not_element_under v x W Ne). cbn [element_of XmlSerdeModel.xml_from x_seq x_read_all]. now rewrite R.
        * rewrite Forall_forall in Sl. destruct (all_single t (v :: v' :: l')) as (xs & Ws & Ls & Rs). { apply Forall_forall. intros u I. apply (IHt D u (T u I)). now apply Sl. }
          exists (VFragment xs). cbn [XmlSerdeModel.xml_to_value]. rewrite Ws. split; [reflexivity|]. intros key Pn. exists (map (under key) xs). split; [apply unders_named; destruct xs; [discriminate | discriminate]|]. split; [intros o; now apply add_fragment|].
          rewrite entry_many by (rewrite map_length, Ls; cbn; lia). cbn [XmlSerdeModel.xml_from x_seq]. now rewrite Rs.
      + inversion Hv.
    - (* tuple *) destruct v; try contradiction. apply type_tuple in T. apply declared_tuple in D. rename l0 into vs. split; [|split]; intros Hv.
      + inversion Hv as [| | | | | | ? Wl | | | | | |]; subst. destruct (each_top l vs) as (xs & Ws & Rs).
        { clear Hv. induction T as [| t v ts vs T0 _ IHT]; [constructor|]. inversion H as [| ? ? H1 H2]; inversion D as [| ? ? D1 D2]; inversion Wl as [| ? ? W1 W2]; subst. constructor; [now apply (H1 D1 v T0) | now apply IHT]. }
        exists (VFragment xs). cbn [XmlSerdeModel.xml_to_value]. rewrite Ws. split; [reflexivity|]. rewrite xfrom_tuple. cbn [x_seq]. now rewrite Rs.
      + inversion Hv as [? Hs | | | | | v Wv Ne | v v' l' Sl]; subst; [inversion Hs | |].
        * inversion T as [| t ? ts ? T0 T1]; subst. inversion T1; subst. inversion H as [| ? ? H1 _]; inversion D as [| ? ? D1 _]; subst. destruct (proj1 (H1 D1 v T0) Wv) as (x & W & R). exists (VFragment [x]). cbn [XmlSerdeModel.xml_to_value xml_all]. rewrite W. split; [reflexivity|]. intros key Pn. exists [under key x].
          split; [now apply (unders_named key [x])|]. split; [intros o; now apply add_fragment|]. rewrite xfrom_tuple. cbn [entry_value]. rewrite (not_element_under v x W Ne). cbn [element_of x_seq x_read_each map]. now rewrite R.
        * destruct (each_single l (v :: v' :: l')) as (xs & Ws & Ls & Rs).
          { clear Hv. remember (v :: v' :: l') as vs eqn:Ev. clear Ev. induction T as [| t u ts vs T0 _ IHT]; [constructor|]. inversion H as [| ? ? H1 H2]; inversion D as [| ? ? D1 D2]; inversion Sl as [| ? ? W1 W2]; subst. constructor; [now apply (H1 D1 u T0) | now apply IHT]. }
          exists (VFragment xs). cbn [XmlSerdeModel.xml_to_value]. rewrite Ws. split; [reflexivity|]. intros key Pn. exists (map (under key) xs). split; [apply unders_named; destruct xs; [discriminate | discriminate]|]. split; [intros o; now apply add_fragment|].
          rewrite entry_many by (rewrite map_length, Ls; cbn; lia). rewrite xfrom_tuple. cbn [x_seq]. now rewrite Rs.
      + inversion Hv.
    - (* map *) destruct v; try contradiction. cbn in D, T. destruct D as [Dk Dv], T as [T N].
      assert (E : Forall (fun e => plain_key (fst e) /\ field (snd e)) l -> element_rt (TyMap t1 t2) (RMap l)).
      { intros Hl. apply map_element; [assumption | | assumption]. rewrite Forall_forall in *. intros e I. destruct (Hl e I) as [P1 P2], (T e I) as [T1 T2]. split; [assumption|]. split; [assumption|]. now apply (IHt2 Dv (snd e) T2). }
      split; [|split]; intros Hv.
      + inversion Hv; subst. now apply element_top, E.
      + inversion Hv as [? Hs | | | | | |]; subst. inversion Hs; subst. now apply single_field, element_single, E.
      + inversion Hv; subst. now apply element_single, E.
    - (* structure *) destruct v; try contradiction. apply type_struct in T. apply declared_struct in D. destruct D as [N D]. rename l0 into vs.
      assert (E : Forall (fun e => plain_name (fst e) /\ field (snd e)) vs -> element_rt (TyStruct l) (RStruct vs)).
      { intros Hl. apply struct_element; [assumption | | eapply Forall_impl; [|exact Hl]; now intros e []]. clear N. induction T as [| f e fs vs [T1 T2] _ IHT]; [constructor|]. inversion H as [| ? ? H1 H2]; inversion D as [| ? ? D1 D2]; inversion Hl as [| ? ? [L1 L2] L3]; subst.
        constructor; [split; [assumption | now apply (H1 D1 (snd e) T2)] | now apply IHT]. }
      split; [|split]; intros Hv.
      + inversion Hv; subst. now apply element_top, E.
      + inversion Hv as [? Hs | | | | | |]; subst. inversion Hs; subst. now apply single_field, element_single, E.
      + inversion Hv; subst. now apply element_single, E.
    - (* newtype *) destruct v; try contradiction. cbn in D, T. destruct (IHt D v T) as (I1 & I2 & I3). split; [|split]; intros Hv.
      + inversion Hv; subst. destruct I1 as (x & W & R); [assumption|]. exists x. split; [assumption|]. cbn [XmlSerdeModel.xml_from]. now rewrite R.
      + apply newtype_field. apply I2. inversion Hv as [? Hs | | | | | |]; subst; [inversion Hs; subst; now constructor | assumption].
      + inversion Hv; subst. apply newtype_single. now apply I3.
    - (* enumeration *) destruct v as [| | | | | | | | | | | | | n p]; try contradiction. apply types_enum in T as (sh & I & T). apply declared_enum in D as (_ & N & D). rewrite Forall_forall in H, D. pose proof (H _ I) as Hs. pose proof (proj2 (D _ I)) as Ds. cbn [snd] in Hs, Ds. clear H D.
      split; [|split]; intros Hv; [| inversion Hv as [? Hs' | | | | | |]; inversion Hs' | inversion Hv].
      inversion Hv as [| | | | | | | | | ? | ? v Sv | ? vs Wl | ? vs Sl]; subst; destruct sh as [| t | ts | fs]; try contradiction; cbn [payload_type shape_all shape_declared] in *.
      + exists (VText n). split; [reflexivity|]. now rewrite (xfrom_enum F l (VText n) n None ShUnit eq_refl N I).
      + destruct (stringish_rt v Sv t T) as (s & W & R). exists (element_of n [VText s]). cbn [XmlSerdeModel.xml_to_value]. rewrite W. split; [reflexivity|]. rewrite (xfrom_enum F l (element_of n [VText s]) n (Some (element_of n [VText s])) (ShNewtype t) eq_refl N I). cbn [xread_variant x_newtype_variant]. now rewrite R.
      + destruct (each_top ts vs) as (xs & Ws & Rs).
        { clear Hv I. induction T as [| t v ts vs T0 _ IHT]; [constructor|]. inversion Hs as [| ? ? H1 H2]; inversion Ds as [| ? ? D1 D2]; inversion Wl as [| ? ? W1 W2]; subst. constructor; [now apply (H1 D1 v T0) | now apply IHT]. }
        exists (element_of n xs). cbn [XmlSerdeModel.xml_to_value]. rewrite Ws. split; [reflexivity|]. rewrite (xfrom_enum F l (element_of n xs) n (Some (element_of n xs)) (ShTuple ts) eq_refl N I). cbn [xread_variant x_tuple_variant element_of]. now rewrite Rs.
      + destruct Ds as [Nf Df]. destruct (variant_blocks fs vs) as (blocks & Wb & Nb & Fb & Rb).
        { clear Hv I Nf Df Hs. induction T as [| f e fs vs [T1 T2] _ IHT]; [constructor|]. inversion Sl as [| ? ? L1 L2]; subst. constructor; [split; [assumption | now apply stringish_rt] | now apply IHT]. }
        exists (element_of n (concat (map snd blocks))). cbn [XmlSerdeModel.xml_to_value]. rewrite Wb. split; [reflexivity|]. rewrite (xfrom_enum F l (element_of n (concat (map snd blocks))) n (Some (element_of n (concat (map snd blocks)))) (ShStruct fs) eq_refl N I).
        cbn [xread_variant x_struct_variant element_of]. rewrite entries_named; [|assumption | now rewrite (map_fst_same fs blocks Fb)]. rewrite (blocks_read fs vs blocks); [reflexivity | assumption | | assumption | assumption].
        revert T. apply forall2_imp. now intros f e [].
  Qed.
End Both.

(** ** What comes out of elements without attributes and texts *)
Section Hollow.
  Variable F : Type.
  Notation xml_from := (xml_from F).

  Definition empty_source (x : xvalue) : Prop := x = VText [] \/ bare x \/ exists fs, x = VFragment fs /\ Forall bare fs.
  Definition reads_hollow (rd : xvalue -> answer (val F)) : Prop := forall x v, empty_source x -> rd x = Ok v -> hollow v.

  Lemma push_bare key v l : bare v -> Forall (fun e => Forall bare (snd e)) l -> Forall (fun e => Forall bare (snd e)) (group_push key v l).
  Proof.
    intros B. induction 1 as [| [k vs] l Hv Hl IH]; cbn [group_push]; [repeat constructor; assumption|]. destruct (str_eqb k key); constructor; cbn [snd] in *; try assumption. apply Forall_app. split; [assumption | now constructor].
  Qed.
  Lemma entries_empty kids : Forall bare kids -> Forall (fun e => empty_source (snd e)) (map_entries [] kids).
  Proof.
    intros H. unfold map_entries. cbn [map]. apply Forall_map. cbn [snd].
    assert (Forall (fun e => Forall bare (snd e)) (fold_left group_child kids [])) as G.
    { assert (Forall (fun e : str * list xvalue => Forall bare (snd e)) []) as N by constructor. revert N. generalize (@nil (str * list xvalue)). induction H as [| x kids B H IH]; intros acc N; [assumption|]. cbn [fold_left]. apply IH. destruct B. cbn [group_child]. apply push_bare; [now constructor | assumption]. }
    eapply Forall_impl; [|exact G]. intros [k vs] Hv. cbn [snd] in *. destruct vs as [| x [| y r]]; cbn [entry_value]; [right; right; now eexists | right; left; now inversion Hv | right; right; eexists; split; [reflexivity | assumption]].
  Qed.
  Lemma all_hollow rd l vs : reads_hollow rd -> Forall bare l -> x_read_all F rd l = Ok vs -> Forall hollow vs.
  Proof.
    intros Hr H. revert vs. induction H as [| x l B H IH]; intros vs; cbn [x_read_all]; [intros X; injection X as <-; constructor|]. fold (x_read_all F rd).
    destruct (rd x) as [v |] eqn:E; [|discriminate]. cbn [bind]. destruct (x_read_all F rd l) as [r |]; [|discriminate]. intros X. injection X as <-. constructor; [|now apply IH]. apply (Hr x); [right; now left | assumption].
  Qed.
  Lemma each_hollow rds l vs : Forall reads_hollow rds -> Forall bare l -> x_read_each F rds l = Ok vs -> Forall hollow vs.
  Proof.
    intros Hr. revert l vs. induction Hr as [| rd rds H1 _ IH]; intros l vs Hl; cbn [x_read_each]; [intros X; injection X as <-; constructor|]. destruct Hl as [| x l B Hl]; [discriminate|].
    destruct (rd x) as [v |] eqn:E; [|discriminate]. cbn [bind]. destruct (x_read_each F rds l) as [r |] eqn:E2; [|discriminate]. intros X. injection X as <-. constructor; [|now apply (IH l)]. apply (H1 x); [right; now left | assumption].
  Qed.
  Lemma insert_hollow (l : list (val F * val F)) k v : hollow v -> Forall (fun e => hollow (snd e)) l -> Forall (fun e => hollow (snd e)) (map_insert F l k v).
  Proof. intros H. induction 1 as [| [k' v'] l Hv Hl IH]; cbn [map_insert]; [repeat constructor; assumption|]. destruct (key_eqb F k' k); constructor; assumption. Qed.
  Lemma entries_hollow kt rd l : reads_hollow rd -> Forall (fun e => empty_source (snd e)) l -> forall acc r, Forall (fun e => hollow (snd e)) acc -> x_read_entries F kt rd l acc = Ok r -> Forall (fun e => hollow (snd e)) r.
  Proof.
    intros Hr. induction 1 as [| [n x] l B H IH]; intros acc r Ha; cbn [x_read_entries]; [intros X; injection X as <-; assumption|]. destruct (key_from F kt n) as [k |]; [|discriminate]. cbn [bind].
    destruct (rd x) as [v |] eqn:E; [|discriminate]. cbn [bind]. apply IH. apply insert_hollow; [now apply (Hr x) | assumption].
  Qed.
  Lemma struct_hollow rd l : (forall n f, rd n = Some f -> reads_hollow f) -> Forall (fun e => empty_source (snd e)) l -> forall acc r, Forall (fun e => hollow (snd e)) acc -> x_read_struct F rd l acc = Ok r -> Forall (fun e => hollow (snd e)) r.
  Proof.
    intros Hr. induction 1 as [| [n x] l B H IH]; intros acc r Ha; cbn [x_read_struct]; [intros X; injection X as <-; assumption|]. destruct (rd n) as [f |] eqn:En; [|now apply IH]. destruct (known F n acc); [discriminate|].
    destruct (f x) as [v |] eqn:E; [|discriminate]. cbn [bind]. apply IH. apply Forall_app. split; [assumption|]. constructor; [|constructor]. cbn [snd]. eapply Hr; eassumption.
  Qed.
  Lemma finish_hollow fs acc : Forall (fun e => hollow (snd e)) acc -> forall r, finish_struct F fs acc = Ok r -> Forall (fun e => hollow (snd e)) r.
  Proof.
    intros Ha. induction fs as [| [n t] fs IH]; intros r; cbn [finish_struct]; [intros X; injection X as <-; constructor|].
    destruct (match known F n acc with Some v => Ok v | None => missing F t end) as [v |] eqn:V; [|discriminate]. destruct (finish_struct F fs acc) as [vs |]; [|discriminate]. intros X. injection X as <-. constructor; [|now apply IH]. cbn [snd].
    unfold known in V. match type of V with context [find ?f acc] => destruct (find f acc) as [[m u] |] eqn:Fd end; cbn [option_map snd] in V.
    - injection V as <-. apply find_some in Fd as [I _]. rewrite Forall_forall in Ha. apply (Ha _ I).
    - destruct t; try discriminate. injection V as <-. constructor.
  Qed.
  Lemma fields_hollow fs kids r : Forall (fun f => reads_hollow (xml_from (snd f))) fs -> Forall bare kids -> x_fields F fs (map_entries [] kids) = Ok r -> Forall (fun e => hollow (snd e)) r.
  Proof.
    intros Hf Hk. unfold x_fields. destruct (x_read_struct F (xnamed F fs) (map_entries [] kids) []) as [acc |] eqn:E; [|discriminate]. cbn [bind]. apply finish_hollow.
    eapply struct_hollow; [| apply entries_empty; exact Hk | constructor | exact E]. clear E. intros n f. induction Hf as [| [m t] fs H1 _ IH]; cbn [xnamed]; [discriminate|]. destruct (list_eq_dec Z.eq_dec m n); [|assumption]. intros X. injection X as <-. assumption.
  Qed.
  Lemma combine_hollow (ns : list str) (vs : list (val F)) : Forall hollow vs -> Forall (fun e => hollow (snd e)) (combine ns vs).
  Proof. intros H. revert ns. induction H as [| v vs H1 _ IH]; intros [| n ns]; try constructor; [assumption | apply IH]. Qed.
  Lemma bare_texts kids : Forall bare kids -> forallb is_text kids = true -> kids = [].
  Proof. destruct 1 as [| x kids B _]; [reflexivity|]. destruct B. discriminate. Qed.
  Lemma markup fs : Forall bare fs -> concat (map xml_to_string fs) = [] \/ exists r, concat (map xml_to_string fs) = lit "<" ++ r.
  Proof. destruct 1 as [| x fs B _]; [now left|]. right. destruct B. cbn [map concat xml_to_string]. rewrite <- app_assoc. now eexists. Qed.

  Lemma all_reads_hollow t : reads_hollow (xml_from t).
  Proof.
    induction t using ty_induct; intros x v [-> | [[n ks sp B] | (fs & -> & B)]]; try discriminate.
    - intros X. injection X as <-. constructor. now left.
    - cbn [XmlSerdeModel.xml_from x_str]. destruct (forallb is_text ks) eqn:T; [|discriminate]. apply bare_texts in T as ->; [|assumption]. intros X. injection X as <-. constructor. now left.
    - intros X. injection X as <-. constructor. now apply markup.
    - intros X. injection X as <-. constructor.
    - cbn [XmlSerdeModel.xml_from x_option]. destruct (xml_from t (VElement n [] ks sp)) as [u |] eqn:E; [|discriminate]. intros X. injection X as <-. constructor. apply (IHt (VElement n [] ks sp)); [right; left; now constructor | assumption].
    - cbn [XmlSerdeModel.xml_from x_option]. destruct (xml_from t (VFragment fs)) as [u |] eqn:E; [|discriminate]. intros X. injection X as <-. constructor. apply (IHt (VFragment fs)); [right; right; eauto | assumption].
    - cbn [XmlSerdeModel.xml_from x_seq]. destruct (x_read_all F (xml_from t) ks) as [u |] eqn:E; [|discriminate]. intros X. injection X as <-. constructor. eapply all_hollow; eassumption.
    - cbn [XmlSerdeModel.xml_from x_seq]. destruct (x_read_all F (xml_from t) fs) as [u |] eqn:E; [|discriminate]. intros X. injection X as <-. constructor. eapply all_hollow; eassumption.
    - rewrite xfrom_tuple. cbn [x_seq]. destruct (x_read_each F (map xml_from l) ks) as [u |] eqn:E; [|discriminate]. intros X. injection X as <-. constructor. eapply each_hollow; [apply Forall_map; eassumption | eassumption | eassumption].
    - rewrite xfrom_tuple. cbn [x_seq]. destruct (x_read_each F (map xml_from l) fs) as [u |] eqn:E; [|discriminate]. intros X. injection X as <-. constructor. eapply each_hollow; [apply Forall_map; eassumption | eassumption | eassumption].
    - cbn [XmlSerdeModel.xml_from x_any xv_map x_map]. destruct (x_read_entries F t1 (xml_from t2) (map_entries [] ks) []) as [u |] eqn:E; [|discriminate]. intros X. injection X as <-. constructor. eapply entries_hollow; [eassumption | apply entries_empty; exact B | constructor | eassumption].
    - rewrite xfrom_struct. cbn [x_any xv_map x_both]. destruct (x_fields F l (map_entries [] ks)) as [u |] eqn:E; [|discriminate]. intros X. injection X as <-. constructor. eapply fields_hollow; eassumption.
    - rewrite xfrom_struct. cbn [x_any xv_seq x_both]. match goal with |- context [x_read_each F ?rds fs] => destruct (x_read_each F rds fs) as [u |] eqn:E; [|discriminate] end. intros X. injection X as <-. constructor. apply combine_hollow. refine (each_hollow _ fs u _ B E). apply Forall_map. exact H.
    - cbn [XmlSerdeModel.xml_from]. destruct (xml_from t (VText [])) as [u |] eqn:E; [|discriminate]. intros X. injection X as <-. constructor. apply (IHt (VText [])); [now left | assumption].
    - cbn [XmlSerdeModel.xml_from]. destruct (xml_from t (VElement n [] ks sp)) as [u |] eqn:E; [|discriminate]. intros X. injection X as <-. constructor. apply (IHt (VElement n [] ks sp)); [right; left; now constructor | assumption].
    - cbn [XmlSerdeModel.xml_from]. destruct (xml_from t (VFragment fs)) as [u |] eqn:E; [|discriminate]. intros X. injection X as <-. constructor. apply (IHt (VFragment fs)); [right; right; eauto | assumption].
    - intros X. apply xfrom_enum_cases in X as (n & value & sh & E & I & X). injection E as <- <-. rewrite Forall_forall in H. apply H in I. destruct sh; cbn [xread_variant x_newtype_variant x_tuple_variant x_struct_variant bind] in X; try discriminate.  injection X as <-.  constructor.
    - intros X. apply xfrom_enum_cases in X as (m & value & sh & E & I & X). injection E as <- <-. rewrite Forall_forall in H. apply H in I. cbn [snd] in I. destruct sh as [| t | ts | fs]; cbn [xread_variant x_newtype_variant x_tuple_variant x_struct_variant shape_all] in *.
      + injection X as <-. constructor.
      + destruct (xml_from t (VElement n [] ks sp)) as [u |] eqn:E; [|discriminate]. injection X as <-. constructor. apply (I (VElement n [] ks sp)); [right; left; now constructor | assumption].
      + destruct (x_read_each F (map xml_from ts) ks) as [u |] eqn:E; [|discriminate]. injection X as <-. constructor. eapply each_hollow; [apply Forall_map; eassumption | eassumption | eassumption].
      + destruct (x_fields F fs (map_entries [] ks)) as [u |] eqn:E; [|discriminate]. injection X as <-. constructor. eapply fields_hollow; eassumption.
  Qed.
End Hollow.

(** ** What comes out of any XML value *)
Section Wordy.
  Variable F : Type.
  Notation xml_from := (xml_from F).
  Definition reads_words (rd : xvalue -> answer (val F)) : Prop := forall x v, rd x = Ok v -> wordy v.

  Lemma all_words rd l vs : reads_words rd -> x_read_all F rd l = Ok vs -> Forall wordy vs.
  Proof.
    intros Hr. revert vs. induction l as [| x l IH]; intros vs; cbn [x_read_all]; [intros X; injection X as <-; constructor|]. fold (x_read_all F rd).
    destruct (rd x) as [v |] eqn:E; [|discriminate]. cbn [bind]. destruct (x_read_all F rd l) as [r |]; [|discriminate]. intros X. injection X as <-. constructor; [now apply (Hr x) | now apply IH].
  Qed.
  Lemma each_words rds l vs : Forall reads_words rds -> x_read_each F rds l = Ok vs -> Forall wordy vs.
  Proof.
    intros Hr. revert l vs. induction Hr as [| rd rds H1 _ IH]; intros l vs; cbn [x_read_each]; [intros X; injection X as <-; constructor|]. destruct l as [| x l]; [discriminate|].
    destruct (rd x) as [v |] eqn:E; [|discriminate]. cbn [bind]. destruct (x_read_each F rds l) as [r |] eqn:E2; [|discriminate]. intros X. injection X as <-. constructor; [now apply (H1 x) | now apply (IH l)].
  Qed.
  Lemma key_words t n k : key_from F t n = Ok k -> wordy k.
  Proof.
    destruct t; cbn [key_from]; try discriminate.
    - destruct (decode1 n) as [[c [| x l]] |]; try discriminate. intros X. injection X as <-. constructor.
    - intros X. injection X as <-. constructor.
    - match goal with |- context [find ?f l] => destruct (find f l) as [[m []] |]; try discriminate end. intros X. injection X as <-. constructor.
  Qed.
  Lemma insert_words (l : list (val F * val F)) k v : wordy k -> wordy v -> Forall (fun e => wordy (fst e) /\ wordy (snd e)) l -> Forall (fun e => wordy (fst e) /\ wordy (snd e)) (map_insert F l k v).
  Proof. intros Hk Hv. induction 1 as [| [k' v'] l [H1 H2] Hl IH]; cbn [map_insert]; [repeat constructor; assumption|]. destruct (key_eqb F k' k); constructor; try assumption; now split. Qed.
  Lemma entries_words kt rd l : reads_words rd -> forall acc r, Forall (fun e => wordy (fst e) /\ wordy (snd e)) acc -> x_read_entries F kt rd l acc = Ok r -> Forall (fun e => wordy (fst e) /\ wordy (snd e)) r.
  Proof.
    intros Hr. induction l as [| [n x] l IH]; intros acc r Ha; cbn [x_read_entries]; [intros X; injection X as <-; assumption|]. destruct (key_from F kt n) as [k |] eqn:K; [|discriminate]. cbn [bind].
    destruct (rd x) as [v |] eqn:E; [|discriminate]. cbn [bind]. apply IH. apply insert_words; [now apply key_words in K | now apply (Hr x) | assumption].
  Qed.
  Lemma fields_words fs l r : Forall (fun f => reads_words (xml_from (snd f))) fs -> x_fields F fs l = Ok r -> Forall (fun e => wordy (snd e)) r.
  Proof.
    intros Hf. assert (Hr : forall n f, xnamed F fs n = Some f -> reads_words f).
    { intros n f. induction Hf as [| [m t] fs H1 _ IH]; cbn [xnamed]; [discriminate|]. destruct (list_eq_dec Z.eq_dec m n); [|assumption]. intros X. injection X as <-. assumption. }
    unfold x_fields. destruct (x_read_struct F (xnamed F fs) l []) as [acc |] eqn:E; [|discriminate]. cbn [bind].
    assert (Ha : Forall (fun e => wordy (snd e)) acc).
    { assert (Forall (fun e : str * val F => wordy (snd e)) []) as N by constructor. revert N E. generalize (@nil (str * val F)). induction l as [| [n x] l IH]; intros a N; cbn [x_read_struct]; [intros X; injection X as <-; assumption|].
      destruct (xnamed F fs n) as [f |] eqn:En; [|now apply IH]. destruct (known F n a); [discriminate|]. destruct (f x) as [v |] eqn:Ev; [|discriminate]. cbn [bind]. apply IH. apply Forall_app. split; [assumption|]. constructor; [|constructor]. cbn [snd]. eapply Hr; eassumption. }
    clear E Hr Hf. revert r. induction fs as [| [n t] fs IH]; intros r; cbn [finish_struct]; [intros X; injection X as <-; constructor|].
    destruct (match known F n acc with Some v => Ok v | None => missing F t end) as [v |] eqn:V; [|discriminate]. destruct (finish_struct F fs acc) as [vs |]; [|discriminate]. intros X. injection X as <-. constructor; [|now apply IH]. cbn [snd].
    unfold known in V. match type of V with context [find ?f acc] => destruct (find f acc) as [[m u] |] eqn:Fd end; cbn [option_map snd] in V.
    - injection V as <-. apply find_some in Fd as [I _]. rewrite Forall_forall in Ha. apply (Ha _ I).
    - destruct t; try discriminate. injection V as <-. constructor.
  Qed.

  Lemma all_reads_words t : reads_words (xml_from t).
  Proof.
    induction t using ty_induct; intros x v; try (destruct x; discriminate).
    - destruct x; try discriminate. cbn [XmlSerdeModel.xml_from x_any xv_string x_string]. destruct (decode1 t) as [[c [| y l]] |]; try discriminate. intros X. injection X as <-. constructor.
    - cbn [XmlSerdeModel.xml_from]. destruct x as [n [| a attrs] ks sp | | | | |]; cbn [x_str x_any xv_string x_string xv_map xv_seq]; try discriminate; try (destruct (forallb is_text ks)); try discriminate; intros X; injection X as <-; constructor.
    - cbn [XmlSerdeModel.xml_from]. assert (G : bind (xml_from t x) (fun v0 => Ok (RSome v0)) = Ok v -> wordy v).
      { destruct (xml_from t x) as [u |] eqn:E; [|discriminate]. intros X. injection X as <-. constructor. now apply (IHt x). }
      destruct x as [| [| c s] | | | |]; try exact G. intros X. injection X as <-. constructor.
    - cbn [XmlSerdeModel.xml_from]. assert (G : forall l, bind (x_read_all F (xml_from t) l) (fun vs => Ok (RSeq vs)) = Ok v -> wordy v).
      { intros l. destruct (x_read_all F (xml_from t) l) as [u |] eqn:E; [|discriminate]. intros X. injection X as <-. constructor. eapply all_words; eassumption. }
      destruct x; try discriminate; apply G.
    - rewrite xfrom_tuple. assert (G : forall ks, bind (x_read_each F (map xml_from l) ks) (fun vs => Ok (RTuple vs)) = Ok v -> wordy v).
      { intros ks. destruct (x_read_each F (map xml_from l) ks) as [u |] eqn:E; [|discriminate]. intros X. injection X as <-. constructor. refine (each_words _ ks u _ E). apply Forall_map. exact H. }
      destruct x; try discriminate; apply G.
    - cbn [XmlSerdeModel.xml_from]. destruct x as [n attrs ks sp | | | | |]; try discriminate. cbn [x_any xv_map x_map]. destruct (x_read_entries F t1 (xml_from t2) (map_entries attrs ks) []) as [u |] eqn:E; [|discriminate]. intros X. injection X as <-. constructor. eapply entries_words; [exact IHt2 | constructor | exact E].
    - rewrite xfrom_struct. destruct x as [n attrs ks sp | | | | | fs]; try discriminate; cbn [x_any xv_map xv_seq x_both].
      + destruct (x_fields F l (map_entries attrs ks)) as [u |] eqn:E; [|discriminate]. intros X. injection X as <-. constructor. eapply fields_words; eassumption.
      + match goal with |- context [x_read_each F ?rds fs] => destruct (x_read_each F rds fs) as [u |] eqn:E; [|discriminate] end. intros X. injection X as <-. constructor.
        assert (W : Forall wordy u). { refine (each_words _ fs u _ E). apply Forall_map. exact H. }
        clear - W. generalize (map fst l). induction W as [| y u H1 _ IH]; intros [| n ns]; try constructor; [assumption | apply IH].
    - cbn [XmlSerdeModel.xml_from]. destruct (xml_from t x) as [u |] eqn:E; [|discriminate]. intros X. injection X as <-. constructor. now apply (IHt x).
    - intros X. apply xfrom_enum_cases in X as (m & value & sh & E & I & X). rewrite Forall_forall in H. apply H in I. cbn [snd] in I. destruct sh as [| t | ts | fs]; cbn [xread_variant shape_all] in *.
      + injection X as <-. constructor.
      + destruct value as [y |]; [|discriminate]. cbn [x_newtype_variant] in X. destruct (xml_from t y) as [u |] eqn:Ey; [|discriminate]. injection X as <-. constructor. now apply (I y).
      + destruct value as [[n attrs ks sp | | | | |] |]; try discriminate. cbn [x_tuple_variant] in X. destruct (x_read_each F (map xml_from ts) ks) as [u |] eqn:Ey; [|discriminate]. injection X as <-. constructor. refine (each_words _ ks u _ Ey). apply Forall_map. exact I.
      + destruct value as [[n attrs ks sp | | | | |] |]; try discriminate. cbn [x_struct_variant] in X. destruct (x_fields F fs (map_entries attrs ks)) as [u |] eqn:Ey; [|discriminate]. injection X as <-. constructor. eapply fields_words; eassumption.
  Qed.
End Wordy.
