(** The VON parser. *)
From Verif Require Import Base Utf8 Utf8Facts LexModel TreeModel TreeSpec TreeProofs ParserModel ParserSpec ParserProofs JsonLangSpec LangModel LangSpec LangParseProofs IniModel VonModel VonSpec.

(** ** A function on pieces *)
Definition kind (p : piece) : nat := match fst p with Some k => k | None => 0 end.
Definition heads (ks : list nat) (qs : list piece) : bool := match qs with p :: _ => existsb (Nat.eqb (kind p)) ks | [] => false end.
Definition trivial (p : piece) : bool := von_ignored (kind p).
Fixpoint trun (qs : list piece) : list piece := match qs with p :: r => if trivial p then p :: trun r else [] | [] => [] end.
Fixpoint tdrop (qs : list piece) : list piece := match qs with p :: r => if trivial p then tdrop r else qs | [] => [] end.
Definition rest := option (list green * list piece).
Definition reader := list piece -> rest.

Definition r_nothing : reader := fun qs => Some ([], qs).
Definition r_one (ks : list nat) : reader := fun qs =>
  match qs with p :: r => if existsb (Nat.eqb (kind p)) ks then Some (leaves (p :: trun r), tdrop r) else None | [] => None end.
Definition r_then (a b : reader) : reader := fun qs =>
  match a qs with Some (ts, r) => match b r with Some (ts', r') => Some (ts ++ ts', r') | None => None end | None => None end.
Definition r_node (k : nat) (a : reader) : reader := fun qs => match a qs with Some (ts, r) => Some ([gnode k ts], r) | None => None end.
Definition r_comma (first : bool) : reader := fun qs => if first then Some ([], qs) else if heads [NComma] qs then r_one [NComma] qs else Some ([], qs).

Fixpoint r_entries (entry : reader) (fuel : nat) (first : bool) (qs : list piece) : rest :=
  match fuel with
  | O => None
  | S f => r_then (r_comma first) (fun qs' => if heads [NIdentifier; NString] qs' then r_then entry (r_entries entry f false) qs' else Some ([], qs')) qs
  end.
Fixpoint r_elements (element : reader) (fuel : nat) (first : bool) (qs : list piece) : rest :=
  match fuel with
  | O => None
  | S f =>
      match qs with
      | [] => Some ([], [])
      | _ => if heads [NRightBracket] qs then Some ([], qs) else if heads [NEof] qs then None else
             r_then (r_comma first) (fun qs' => if negb first && heads [NComma] qs && heads [NRightBracket] qs' then Some ([], qs') else r_then element (r_elements element f false) qs') qs
      end
  end.
Definition r_entry (value : reader) : reader := r_node NEntry (r_then (r_one [NIdentifier; NString]) (r_then (r_one [NEq]) value)).
Section Reference.
  Variable N : nat.
  Definition r_object (value : reader) : reader := r_node NObject (r_then (r_one [NLeftBrace]) (r_then (r_entries (r_entry value) N true) (r_one [NRightBrace]))).
  Definition r_array (value : reader) : reader := r_node NArray (r_then (r_one [NLeftBracket]) (r_then (r_elements (r_node NElement value) N true) (r_one [NRightBracket]))).
  Definition r_enum (value : reader) : reader := r_node NEnum (r_then (r_one [NIdentifier]) (fun qs => if heads [NLeftBrace; NLeftBracket] qs then value qs else Some ([], qs))).
  Fixpoint r_value (fuel : nat) (qs : list piece) : rest :=
    match fuel with
    | O => None
    | S f =>
        r_node NValue (fun qs =>
          if heads [NLeftBrace] qs then r_object (r_value f) qs
          else if heads [NLeftBracket] qs then r_array (r_value f) qs
          else if heads [NIdentifier] qs then r_enum (r_value f) qs
          else r_one [NString; NNumber; NBool; NNull] qs) qs
    end.
  Definition r_body : reader := fun qs =>
    if heads [NLeftBrace; NLeftBracket] qs then r_value N qs
    else if heads [NIdentifier] qs then r_node NObject (r_entries (r_entry (r_value N)) N true) qs
    else if heads [NEof] qs then Some ([], qs)
    else r_value N qs.
End Reference.

Definition at_rest (qs : list piece) : Prop := heads [NWhitespace; NNewline; NComment] qs = false.
Lemma tdrop_rest qs : at_rest (tdrop qs).
Proof.
  induction qs as [| p r IH]; [reflexivity|]. cbn [tdrop]. destruct (trivial p) eqn:T; [assumption|]. unfold at_rest. cbn [heads existsb]. unfold trivial, von_ignored in T. now rewrite orb_false_r, orb_assoc.
Qed.
Lemma trun_drop qs : trun qs ++ tdrop qs = qs.
Proof. induction qs as [| p r IH]; [reflexivity|]. cbn. destruct (trivial p); cbn; now rewrite ?IH. Qed.
Lemma tdrop_length qs : length (tdrop qs) <= length qs.
Proof. induction qs as [| p r IH]; [reflexivity|]. cbn. destruct (trivial p); cbn; lia. Qed.
Lemma tdrop_same qs : at_rest qs -> trun qs = [] /\ tdrop qs = qs.
Proof. destruct qs as [| p r]; [now split|]. unfold at_rest. cbn [heads existsb trun tdrop]. unfold trivial, von_ignored. rewrite orb_false_r, orb_assoc. now intros ->. Qed.

(** The trees stand for exactly those pieces. *)
Inductive covers : list green -> list piece -> Prop :=
| CvNil : covers [] []
| CvLeaf p ts e : covers ts e -> covers (leaf (kind p) (snd p) :: ts) (p :: e)
| CvNode k ch e1 ts e : covers ch e1 -> covers ts e -> covers (gnode k ch :: ts) (e1 ++ e).
Lemma covers_app ts e ts' e' : covers ts e -> covers ts' e' -> covers (ts ++ ts') (e ++ e').
Proof. induction 1; intros C; [assumption | cbn; constructor; auto | rewrite <- app_assoc; cbn; constructor; auto]. Qed.
Lemma covers_leaves e : covers (leaves e) e.
Proof. induction e as [| p e IH]; [constructor|]. exact (CvLeaf p (leaves e) e IH). Qed.
Lemma covers_one k ch e : covers ch e -> covers [gnode k ch] e.
Proof. intros C. rewrite <- (app_nil_r e). constructor; [assumption | constructor]. Qed.

Section Sits.
  Variable toks : list token.
  Hypothesis Hfit : (Z.of_nat (toklen toks) < 2 ^ 32)%Z.
  Notation sits := (sits toks).
  Notation N := (S (length toks)).

  Definition yield (p : piece) : nat * nat := (kind p, length (encode (snd p))).
  Definition at_pieces (s : pstate) (qs : list piece) (trees : list green) : Prop := sits s (map yield qs) trees /\ at_rest qs.

  Lemma yield_trivia qs : ytrivia von_ignored (map yield qs) = map yield (trun qs) /\ ynext von_ignored (map yield qs) = map yield (tdrop qs).
  Proof. induction qs as [| p r [IH1 IH2]]; [now split|]. cbn. unfold trivial. destruct (von_ignored (kind p)); cbn; now rewrite ?IH1, ?IH2. Qed.
  Lemma yield_leaves qs : map yleaf (map yield qs) = leaves qs.
  Proof. rewrite map_map. reflexivity. Qed.
  Lemma at_heads s qs trees k : at_pieces s qs trees -> at_kind s k = heads [k] qs.
  Proof. intros [A _]. rewrite (sits_at toks s _ trees k A). destruct qs; [reflexivity|]. cbn. now rewrite orb_false_r. Qed.
  Lemma at_end s qs trees : at_pieces s qs trees -> ps_not_at_end s = match qs with [] => false | _ => true end.
  Proof. intros [A _]. rewrite (sits_end toks s _ trees A). now destruct qs. Qed.
  Lemma at_length s qs trees : at_pieces s qs trees -> length qs <= length toks /\ ps_toks s = toks.
  Proof. intros [A _]. destruct (sits_toks toks s _ trees A) as [T L]. rewrite map_length in L. now split. Qed.
  Lemma at_sink s qs trees : at_pieces s qs trees -> length (ps_sink s) = length trees.
  Proof. intros [A _]. exact (sits_sink toks s _ trees A). Qed.
  Lemma at_error s qs trees tag off : at_pieces s qs trees -> at_pieces (push_error s tag off) qs trees.
  Proof. exact (fun A => A). Qed.
  Lemma at_bump s p qs trees : at_pieces s (p :: qs) trees -> at_pieces (bump von_ignored s) (tdrop qs) (trees ++ leaves (p :: trun qs)) /\ ps_errs (bump von_ignored s) = ps_errs s.
  Proof.
    intros [A _]. destruct (sits_bump von_ignored toks Hfit s (yield p) (map yield qs) trees A) as [B E]. destruct (yield_trivia qs) as [Y1 Y2]. rewrite Y1, Y2, yield_leaves in B. split; [|assumption]. split; [exact B | apply tdrop_rest].
  Qed.
  Lemma skip_same s qs trees : at_pieces s qs trees -> von_skip s = s.
  Proof.
    intros A. unfold von_skip. destruct (length (ps_toks s)); [reflexivity|]. cbn [von_skip_loop]. destruct (peek_kind s) as [k|] eqn:E; [|reflexivity].
    assert (K : forall x, at_kind s x = (k =? x)) by (intros x; unfold at_kind; now rewrite E). assert (R : von_ignored k = false); [|now rewrite R]. unfold von_ignored. rewrite <- !K, !(at_heads s qs trees _ A). destruct A as [_ R]. unfold at_rest in R. destruct qs as [| p r]; [reflexivity|]. cbn [heads existsb] in *. rewrite !orb_false_r in *. now rewrite <- orb_assoc.
  Qed.

  (** The outcome of a step: [strict] says that success uses up a token. *)
  Definition comes (strict : bool) (o : option (bool * pstate)) (s : pstate) (qs : list piece) (trees : list green) (x : rest) : Prop :=
    exists b s' qs' new errs, o = Some (b, s') /\ at_pieces s' qs' (trees ++ new) /\ (exists used, qs = used ++ qs' /\ covers new used) /\ ps_errs s' = ps_errs s ++ errs /\ length qs' <= length qs /\ (strict = true -> b = true -> length qs' < length qs) /\
      match x with Some (ts, r) => b = true /\ new = ts /\ qs' = r /\ errs = [] | None => errs <> [] end.
  Definition follows (strict : bool) (n : nat) (a : step) (ref : reader) : Prop :=
    forall s qs trees, at_pieces s qs trees -> length qs < n -> comes strict (a s) s qs trees (ref qs).

  Lemma comes_weak p o s qs trees x : comes p o s qs trees x -> comes false o s qs trees x.
  Proof. intros (b & s' & qs' & new & errs & A & B & U & C & D & _ & F). exists b, s', qs', new, errs. repeat (split; [assumption|]). split; [discriminate | assumption]. Qed.
  Lemma comes_done s qs trees ref : ref = Some ([], qs) -> at_pieces s qs trees -> comes false (Some (true, s)) s qs trees ref.
  Proof. intros -> A. exists true, s, qs, [], []. rewrite !app_nil_r. split; [reflexivity|]. split; [assumption|]. split; [exists []; split; [reflexivity | constructor]|]. split; [reflexivity|]. split; [lia|]. split; [discriminate|]. now repeat split. Qed.
  Lemma comes_fail p s qs trees tag off : at_pieces s qs trees -> comes p (Some (false, push_error s tag off)) s qs trees None.
  Proof. intros A. exists false, (push_error s tag off), qs, [], [(tag, off)]. rewrite app_nil_r. split; [reflexivity|]. split; [now apply at_error|]. split; [exists []; split; [reflexivity | constructor]|]. split; [reflexivity|]. split; [lia|]. split; [discriminate | discriminate]. Qed.
  (** After a step, another one *)
  Lemma comes_then p p' (o o' : option (bool * pstate)) (k : pstate -> option (bool * pstate)) s qs trees x (ref : reader) :
    comes p o s qs trees x -> (forall b s1, o = Some (b, s1) -> o' = if b then k s1 else Some (false, s1)) ->
    (forall s1 qs1 trees1, at_pieces s1 qs1 trees1 -> length qs1 <= length qs -> (p = true -> length qs1 < length qs) -> comes p' (k s1) s1 qs1 trees1 (ref qs1)) ->
    comes (p || p') o' s qs trees (match x with Some (ts, r) => match ref r with Some (ts', r') => Some (ts ++ ts', r') | None => None end | None => None end).
  Proof.
    intros (b & s1 & qs1 & new & errs & -> & A1 & U1 & E1 & L1 & St & C) Ho H. rewrite (Ho b s1 eq_refl). clear Ho. destruct b.
    - destruct (H s1 qs1 _ A1 L1 (fun Hp => St Hp eq_refl)) as (b2 & s2 & qs2 & new2 & errs2 & -> & A2 & U2 & E2 & L2 & St2 & C2). exists b2, s2, qs2, (new ++ new2), (errs ++ errs2). split; [reflexivity|]. split; [now rewrite app_assoc|]. split; [destruct U1 as (u1 & Eu1 & Cu1), U2 as (u2 & Eu2 & Cu2); exists (u1 ++ u2); split; [now rewrite <- app_assoc, <- Eu2 | now apply covers_app]|]. split; [rewrite E2, E1; symmetry; apply app_assoc|]. split; [lia|]. split.
      { intros P B. destruct p; [specialize (St eq_refl eq_refl); lia|]. cbn [orb] in P. specialize (St2 P B). lia. }
      destruct x as [[ts r]|].
      + destruct C as (_ & -> & -> & ->). destruct (ref r) as [[ts' r']|]; [|exact C2]. destruct C2 as (-> & -> & -> & ->). now repeat split.
      + intros X. apply app_eq_nil in X. now destruct X.
    - exists false, s1, qs1, new, errs. split; [reflexivity|]. split; [assumption|]. split; [assumption|]. split; [assumption|]. split; [assumption|]. split; [discriminate|]. destruct x as [[ts r]|]; [|exact C]. now destruct C.
  Qed.
  Lemma comes_node p k (body : step) s qs trees x : at_pieces s qs trees -> comes p (body s) s qs trees x -> comes p (von_node k body s) s qs trees (match x with Some (ts, r) => Some ([gnode k ts], r) | None => None end).
  Proof.
    intros A (b & s1 & qs1 & new & errs & E & A1 & U1 & E1 & L1 & St & C). unfold von_node. rewrite E. unfold checkpoint. rewrite (at_sink s qs trees A). destruct A1 as [A1 R1].
    destruct (sits_finish von_ignored toks Hfit s1 _ trees new (ps_index s) k A1) as (n & s2 & -> & A2 & E2). exists b, s2, qs1, [gnode k new], errs. split; [reflexivity|]. split; [now split|]. split; [destruct U1 as (u & Eu & Cu); exists u; split; [assumption | now apply covers_one]|]. split; [congruence|]. split; [assumption|]. split; [assumption|]. destruct x as [[ts r]|]; [|exact C]. destruct C as (-> & -> & -> & ->). now repeat split.
  Qed.
  Lemma follows_node p n k body ref : follows p n body ref -> follows p n (von_node k body) (r_node k ref).
  Proof. intros H s qs trees A L. apply comes_node; [assumption|]. now apply H. Qed.
  Lemma follows_then p p' n a b ra rb : follows p n a ra -> follows p' n b rb -> follows (p || p') n (andthen a b) (r_then ra rb).
  Proof. intros Ha Hb s qs trees A L. unfold andthen, r_then. apply (comes_then p p' (a s) _ b s qs trees (ra qs) rb); [now apply Ha | now intros [] s1 -> |]. intros s1 qs1 trees1 A1 L1 _. apply Hb; [assumption | lia]. Qed.
  (** The same when the first step uses up a token *)
  Lemma follows_strict p' n a b ra rb : follows true (S n) a ra -> follows p' n b rb -> follows true (S n) (andthen a b) (r_then ra rb).
  Proof. intros Ha Hb s qs trees A L. unfold andthen, r_then. change true with (true || p'). apply (comes_then true p' (a s) _ b s qs trees (ra qs) rb); [now apply Ha | now intros [] s1 -> |]. intros s1 qs1 trees1 A1 L1 S1. specialize (S1 eq_refl). apply Hb; [assumption | lia]. Qed.

  Lemma eats k s qs trees : at_pieces s qs trees -> heads [k] qs = true -> comes true (Some (true, bump von_ignored s)) s qs trees (r_one [k] qs).
  Proof.
    intros A H. destruct qs as [| p r]; [discriminate|]. cbn [heads r_one] in *. rewrite H. destruct (at_bump s p r trees A) as [B E]. exists true, (bump von_ignored s), (tdrop r), (leaves (p :: trun r)), []. rewrite app_nil_r. split; [reflexivity|]. split; [assumption|]. split; [exists (p :: trun r); split; [cbn; now rewrite trun_drop | apply covers_leaves]|]. split; [assumption|]. pose proof (tdrop_length r). cbn [length]. split; [lia|]. split; [intros _ _; lia|]. now repeat split.
  Qed.
  Lemma one_none ks qs : heads ks qs = false -> r_one ks qs = None.
  Proof. destruct qs; [reflexivity|]. cbn [heads r_one]. now intros ->. Qed.
  Lemma open_follows k n : follows true n (von_open k) (r_one [k]).
  Proof.
    intros s qs trees A _. unfold von_open, eat. rewrite (at_heads s qs trees k A). destruct (heads [k] qs) eqn:H; [now apply eats|]. rewrite one_none by assumption. now apply comes_fail.
  Qed.
  Lemma close_follows k n : follows false n (von_close k) (r_one [k]).
  Proof.
    intros s qs trees A _. unfold von_close, eat. rewrite (at_heads s qs trees k A). destruct (heads [k] qs) eqn:H; [now apply (comes_weak true), eats|]. rewrite one_none by assumption. destruct (_ || _); [now apply comes_fail|].
    unfold von_expected. exists true, (push_error s 0 (current_offset s)), qs, [], [(0, current_offset s)]. rewrite app_nil_r. split; [reflexivity|]. split; [now apply at_error|]. split; [exists []; split; [reflexivity | constructor]|]. split; [reflexivity|]. split; [lia|]. split; [discriminate | discriminate].
  Qed.
  Lemma bump_follows ks s qs trees : at_pieces s qs trees -> heads ks qs = true -> comes true (von_bump s) s qs trees (r_one ks qs).
  Proof.
    intros A H. destruct qs as [| p r]; [discriminate|]. cbn [heads r_one] in *. rewrite H. destruct (at_bump s p r trees A) as [B E]. exists true, (bump von_ignored s), (tdrop r), (leaves (p :: trun r)), []. rewrite app_nil_r. split; [reflexivity|]. split; [assumption|]. split; [exists (p :: trun r); split; [cbn; now rewrite trun_drop | apply covers_leaves]|]. split; [assumption|]. pose proof (tdrop_length r). cbn [length]. split; [lia|]. split; [intros _ _; lia|]. now repeat split.
  Qed.

  Lemma heads_or a b qs : heads [a] qs || heads [b] qs = heads [a; b] qs.
  Proof. destruct qs; [reflexivity|]. cbn. now rewrite !orb_false_r. Qed.
  Lemma heads_other k k' qs : k <> k' -> heads [k] qs = true -> heads [k'] qs = false.
  Proof. destruct qs as [| p r]; [discriminate|]. cbn. rewrite !orb_false_r, Nat.eqb_eq. intros N ->. now apply Nat.eqb_neq. Qed.

  (** *** Entries *)
  Lemma entry_follows n value rv : follows true n value rv -> (forall qs, heads [NRightBrace; NEof] qs = true -> rv qs = None) -> follows true (S n) (von_entry value) (r_entry rv).
  Proof.
    intros Hv Hn. apply follows_node. intros s qs trees A L. rewrite !(at_heads s qs trees _ A), heads_or. unfold r_then at 1. destruct (heads [NIdentifier; NString] qs) eqn:H; [|rewrite one_none by assumption; now apply comes_fail].
    pose proof (bump_follows _ s qs trees A H) as B1.
    change true with (orb true false). apply (comes_then true false (von_bump s) _ (fun s1 => let s2 := von_skip (if at_kind (von_skip s1) NEq then bump von_ignored (von_skip s1) else von_expected (von_skip s1)) in if at_kind s2 NRightBrace || at_kind s2 NEof then von_fail_expected s2 else value s2) s qs trees _ (r_then (r_one [NEq]) rv) B1).
    { intros b s1 Eb. unfold von_bump in Eb. injection Eb as <- <-. reflexivity. }
    clear B1. intros s1 qs1 trees1 A1 L1 S1. specialize (S1 eq_refl). rewrite (skip_same s1 _ _ A1), (at_heads s1 qs1 trees1 _ A1). cbv zeta.
    assert (V : forall s2 qs2 trees2, at_pieces s2 qs2 trees2 -> length qs2 < n -> comes false (if at_kind (von_skip s2) NRightBrace || at_kind (von_skip s2) NEof then von_fail_expected (von_skip s2) else value (von_skip s2)) s2 qs2 trees2 (rv qs2)).
    { intros s2 qs2 trees2 A2 L2. rewrite (skip_same s2 _ _ A2), !(at_heads s2 qs2 trees2 _ A2), heads_or. destruct (heads [NRightBrace; NEof] qs2) eqn:H2; [rewrite (Hn qs2 H2); now apply comes_fail | apply (comes_weak true); now apply Hv]. }
    unfold r_then. destruct (heads [NEq] qs1) eqn:Eq.
    - change false with (orb false false). apply (comes_then false false (von_bump s1) _ (fun s2 => if at_kind (von_skip s2) NRightBrace || at_kind (von_skip s2) NEof then von_fail_expected (von_skip s2) else value (von_skip s2)) s1 qs1 trees1 _ rv).
      + apply (comes_weak true). now apply bump_follows.
      + intros b s2 Eb. unfold von_bump in Eb. injection Eb as <- <-. reflexivity.
      + intros s2 qs2 trees2 A2 L2 _. apply V; [assumption | lia].
    - rewrite one_none by assumption. destruct (V (von_expected s1) qs1 trees1 (at_error s1 qs1 trees1 _ _ A1) ltac:(lia)) as (b & s2 & qs2 & new & errs & -> & A2 & U2 & E2 & L2 & _ & _).
      exists b, s2, qs2, new, ((0, current_offset s1) :: errs). split; [reflexivity|]. split; [assumption|]. split; [assumption|]. split; [rewrite E2; cbn; now rewrite <- app_assoc|]. split; [assumption|]. split; discriminate.
  Qed.

  Lemma comma_comes (first : bool) s qs trees : at_pieces s qs trees ->
    exists s', (if first then (false, s) else eat von_ignored NComma s) = (negb first && heads [NComma] qs, s') /\ von_skip s' = s' /\
      comes (negb first && heads [NComma] qs) (Some (true, s')) s qs trees (r_comma first qs).
  Proof.
    intros A. destruct first.
    - exists s. split; [reflexivity|]. split; [now apply (skip_same s qs trees)|]. now apply comes_done.
    - unfold eat, r_comma. rewrite (at_heads s qs trees _ A). cbn [negb andb]. destruct (heads [NComma] qs) eqn:H.
      + exists (bump von_ignored s). split; [reflexivity|]. destruct qs as [| p r]; [discriminate|]. destruct (at_bump s p r trees A) as [B _]. split; [exact (skip_same _ _ _ B)|]. apply (eats NComma s (p :: r) trees A H).
      + exists s. split; [reflexivity|]. split; [now apply (skip_same s qs trees)|]. now apply comes_done.
  Qed.

  Lemma entries_follow entry re n : follows true n entry re -> forall fuel first s qs trees, at_pieces s qs trees -> length qs < fuel -> length qs < n -> comes false (von_entries entry fuel first s) s qs trees (r_entries re fuel first qs).
  Proof.
    intros He. induction fuel as [| f IH]; [lia|]. intros first s qs trees A Lf Ln. cbn [von_entries r_entries]. rewrite (at_end s qs trees A). destruct qs as [| q qs0] eqn:Eqs.
    { apply comes_done; [|assumption]. unfold r_then, r_comma. now destruct first. }
    rewrite <- Eqs in *. clear q qs0 Eqs. rewrite (skip_same s qs trees A), !(at_heads s qs trees _ A), heads_or. destruct (heads [NRightBrace; NEof] qs) eqn:Hr.
    { apply comes_done; [|assumption]. destruct qs as [| p r]; [discriminate|]. cbn [heads existsb] in Hr. rewrite orb_false_r, orb_true_iff, !Nat.eqb_eq in Hr.
      assert (H1 : heads [NComma] (p :: r) = false) by (cbn [heads]; destruct Hr as [-> | ->]; reflexivity). assert (H2 : heads [NIdentifier; NString] (p :: r) = false) by (cbn [heads]; destruct Hr as [-> | ->]; reflexivity).
      unfold r_then, r_comma. rewrite H1. destruct first; now rewrite H2. }
    destruct (comma_comes first s qs trees A) as (s2 & -> & Sk & C2). cbv zeta. set (comma := negb first && heads [NComma] qs) in *. replace (if comma then von_skip s2 else s2) with s2 by (rewrite Sk; now destruct comma).
    unfold r_then at 1. change false with (orb false false). apply (comes_then false false (Some (true, s2)) _ (fun s3 => if comma && (at_kind s3 NRightBrace || at_kind s3 NEof) then Some (true, s3) else if negb (at_kind s3 NIdentifier) && negb (at_kind s3 NString) then Some (true, s3) else match entry s3 with Some (true, s4) => von_entries entry f false (von_skip s4) | r => r end) s qs trees _ (fun qs' => if heads [NIdentifier; NString] qs' then r_then re (r_entries re f false) qs' else Some ([], qs')) (comes_weak _ _ _ _ _ _ C2)).
    { intros b s3 Eb. injection Eb as <- <-. reflexivity. }
    clear C2 Sk s2. intros s3 qs3 trees3 A3 L3 _. rewrite !(at_heads s3 qs3 trees3 _ A3), heads_or. destruct (comma && heads [NRightBrace; NEof] qs3) eqn:Hc.
    { apply andb_true_iff in Hc. destruct Hc as [_ Hc]. apply comes_done; [|assumption]. destruct qs3 as [| p r]; [discriminate|]. cbn [heads existsb] in Hc |- *. rewrite orb_false_r, orb_true_iff, !Nat.eqb_eq in Hc. destruct Hc as [-> | ->]; reflexivity. }
    rewrite <- negb_orb, heads_or. destruct (heads [NIdentifier; NString] qs3); cbn [negb]; [|now apply comes_done].
    unfold r_then. apply (comes_weak (true || false)). apply (comes_then true false (entry s3) _ (fun s4 => von_entries entry f false (von_skip s4))); [apply He; [assumption | lia] | now intros [] s4 -> |].
    intros s4 qs4 trees4 A4 L4 S4. specialize (S4 eq_refl). rewrite (skip_same s4 qs4 trees4 A4). apply IH; [assumption | lia | lia].
  Qed.
  Lemma elements_follow element re n : follows true n element re -> forall fuel first s qs trees, at_pieces s qs trees -> length qs < fuel -> length qs < n -> comes false (von_elements element fuel first s) s qs trees (r_elements re fuel first qs).
  Proof.
    intros He. induction fuel as [| f IH]; [lia|]. intros first s qs trees A Lf Ln. cbn [von_elements r_elements]. rewrite (at_end s qs trees A). destruct qs as [| q qs0] eqn:Eqs; [now apply comes_done|].
    rewrite <- Eqs in *. clear q qs0 Eqs. rewrite (skip_same s qs trees A), !(at_heads s qs trees _ A). destruct (heads [NRightBracket] qs) eqn:Hr; [now apply comes_done|]. destruct (heads [NEof] qs) eqn:Hf; [now apply comes_fail|].
    destruct (comma_comes first s qs trees A) as (s2 & -> & Sk & C2). cbv zeta. set (comma := negb first && heads [NComma] qs) in *. replace (if comma then von_skip s2 else s2) with s2 by (rewrite Sk; now destruct comma).
    unfold r_then at 1. change false with (orb false false). apply (comes_then false false (Some (true, s2)) _ (fun s3 => if comma && at_kind s3 NRightBracket then Some (true, s3) else match element s3 with Some (true, s4) => von_elements element f false (von_skip s4) | r => r end) s qs trees _ (fun qs' => if comma && heads [NRightBracket] qs' then Some ([], qs') else r_then re (r_elements re f false) qs') (comes_weak _ _ _ _ _ _ C2)).
    { intros b s3 Eb. injection Eb as <- <-. reflexivity. }
    clear C2 Sk s2. intros s3 qs3 trees3 A3 L3 _. rewrite !(at_heads s3 qs3 trees3 _ A3). destruct (comma && heads [NRightBracket] qs3) eqn:Hc; [now apply comes_done|].
    unfold r_then. apply (comes_weak (true || false)). apply (comes_then true false (element s3) _ (fun s4 => von_elements element f false (von_skip s4))); [apply He; [assumption | lia] | now intros [] s4 -> |].
    intros s4 qs4 trees4 A4 L4 S4. specialize (S4 eq_refl). rewrite (skip_same s4 qs4 trees4 A4). apply IH; [assumption | lia | lia].
  Qed.

  (** *** Values *)
  Lemma value_nothing fuel qs : heads [NRightBrace; NEof] qs = true -> r_value N fuel qs = None.
  Proof.
    destruct fuel as [| f]; [reflexivity|]. destruct qs as [| p r]; [discriminate|]. cbn [heads existsb r_value]. rewrite orb_false_r, orb_true_iff, !Nat.eqb_eq. unfold r_node, r_one. cbn [heads existsb]. now intros [-> | ->].
  Qed.
  Lemma object_follows n value rv : follows true n value rv -> (forall qs, heads [NRightBrace; NEof] qs = true -> rv qs = None) -> follows true (S n) (von_object value) (r_object N rv).
  Proof.
    intros Hv Hn. apply follows_node, (follows_strict false); [apply open_follows|]. change false with (orb false false). apply follows_then; [|apply close_follows]. intros s qs trees A L. unfold von_inner. destruct (at_length s qs trees A) as [Lq ->].
    apply (entries_follow _ _ (S n)); [now apply entry_follows | assumption | lia | lia].
  Qed.
  Lemma array_follows n value rv : follows true n value rv -> follows true (S n) (von_array value) (r_array N rv).
  Proof.
    intros Hv. apply follows_node, (follows_strict false); [apply open_follows|]. change false with (orb false false). apply follows_then; [|apply close_follows]. intros s qs trees A L. destruct (at_length s qs trees A) as [Lq ->].
    apply (elements_follow _ _ n); [now apply follows_node | assumption | lia | lia].
  Qed.
  Lemma enum_follows n value rv : follows true n value rv -> follows true (S n) (von_enum value) (r_enum rv).
  Proof.
    intros Hv. apply follows_node, (follows_strict false); [apply open_follows|]. intros s qs trees A L. cbv beta zeta. rewrite (skip_same s qs trees A), !(at_heads s qs trees _ A), heads_or. destruct (heads [NLeftBrace; NLeftBracket] qs); [|now apply comes_done]. apply (comes_weak true). now apply Hv.
  Qed.
  Lemma value_follows fuel : follows true fuel (von_value fuel) (r_value N fuel).
  Proof.
    induction fuel as [| f IH]; [intros s qs trees A L; lia|]. intros s qs trees A L. cbn [von_value r_value]. rewrite (skip_same s qs trees A).
    revert s qs trees A L. apply follows_node. intros s qs trees A L.
    assert (K : forall k, at_kind s k = heads [k] qs) by (intros k; apply (at_heads s qs trees k A)). unfold at_kind in K. destruct (peek_kind s) as [k|] eqn:Ek.
    - destruct qs as [| p r]; [specialize (K k); rewrite Nat.eqb_refl in K; discriminate|]. assert (k = kind p) as ->. { specialize (K (kind p)). cbn in K. rewrite Nat.eqb_refl in K. cbn in K. now apply Nat.eqb_eq. }
      rewrite !K. pose proof (heads_other NEof NLeftBrace (p :: r) ltac:(discriminate)) as X1. pose proof (heads_other NEof NLeftBracket (p :: r) ltac:(discriminate)) as X2. pose proof (heads_other NEof NIdentifier (p :: r) ltac:(discriminate)) as X3.
      destruct (heads [NEof] (p :: r)) eqn:Hf.
      + rewrite X1, X2, X3 by reflexivity. rewrite one_none; [now apply comes_fail|]. cbn [heads existsb] in Hf. rewrite orb_false_r, Nat.eqb_eq in Hf. cbn [heads]. now rewrite Hf.
      + destruct (heads [NLeftBrace] (p :: r)); [exact (object_follows f _ _ IH (value_nothing f) s (p :: r) trees A L)|].
        destruct (heads [NLeftBracket] (p :: r)); [exact (array_follows f _ _ IH s (p :: r) trees A L)|]. destruct (heads [NIdentifier] (p :: r)); [exact (enum_follows f _ _ IH s (p :: r) trees A L)|].
        change (existsb (Nat.eqb (kind p)) [NString; NNumber; NBool; NNull]) with (heads [NString; NNumber; NBool; NNull] (p :: r)). destruct (heads [NString; NNumber; NBool; NNull] (p :: r)) eqn:Hs; [now apply bump_follows|]. rewrite one_none by assumption. now apply comes_fail.
    - destruct qs as [| p r]; [now apply comes_fail|]. specialize (K (kind p)). cbn in K. rewrite Nat.eqb_refl in K. discriminate.
  Qed.
  Lemma body_follows : follows false N von_body (r_body N).
  Proof.
    intros s qs trees A L. unfold von_body, r_body. rewrite (skip_same s qs trees A), !(at_heads s qs trees _ A), heads_or. unfold von_parse_value at 1 3. destruct (at_length s qs trees A) as [_ T]. rewrite T.
    destruct (heads [NLeftBrace; NLeftBracket] qs); [apply (comes_weak true); now apply value_follows|].
    destruct (heads [NIdentifier] qs).
    { apply (follows_node false N NObject (von_inner von_parse_value) (r_entries (r_entry (r_value N N)) N true)); [|assumption | assumption]. clear s qs trees A L T. intros s qs trees A L. unfold von_inner. destruct (at_length s qs trees A) as [Lq ->].
      apply (entries_follow _ _ (S N)); [|assumption | lia | lia]. apply entry_follows; [|intros; now apply value_nothing]. clear s qs trees A L Lq. intros s qs trees A L. unfold von_parse_value. destruct (at_length s qs trees A) as [_ ->]. now apply value_follows. }
    destruct (heads [NEof] qs); [now apply comes_done|]. apply (comes_weak true). now apply value_follows.
  Qed.
  (** The root: the blanks before the first token are not in it *)
  Lemma root_view s qs trees errs : at_pieces s qs trees -> ps_errs s = errs -> exists root new, von_root s = Some (root, errs ++ new) /\
    (exists ts used rest, root = gnode NRoot ts /\ qs = used ++ rest /\ covers ts used) /\
    match r_body N qs with Some (ts, r) => root = gnode NRoot ts /\ new = [] /\ at_rest r | None => new <> [] end.
  Proof.
    intros A E. destruct (at_length s qs trees A) as [Lq _]. destruct (body_follows s qs trees A ltac:(lia)) as (b & s1 & qs1 & new & es & Eb & A1 & (u & Eu & Cu) & E1 & _ & _ & C). unfold von_root. rewrite Eb, (skip_same s1 _ _ A1). unfold checkpoint. rewrite (at_sink s qs trees A). destruct A1 as [A1 Re].
    destruct (sits_finish von_ignored toks Hfit s1 _ trees new (ps_index s) NRoot A1) as (n & s2 & -> & _ & E2). exists (gnode NRoot new), es. split; [now rewrite E2, E1, E|]. split; [now exists new, u, qs1|]. destruct (r_body N qs) as [[ts r]|]; [|exact C]. destruct C as (_ & -> & <- & ->). split; [reflexivity|]. split; [reflexivity | assumption].
  Qed.
End Sits.
