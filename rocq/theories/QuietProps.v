(** Which lines the tool server answers, and that the others leave no trace (C98). *)
From Verif Require Import Base Utf8 Utf8Facts VfsModel VfsProofs JsonSpec McpModel McpSpec McpProps.

(** What the server takes for a request: an object with one version, identifier
    and method and at most one member of parameters, or the four in an array. *)
Definition asks (j id : json) (method : list Z) : Prop :=
  (exists v, member j (lit "jsonrpc") (JString v) /\ member j (lit "id") id /\
     member j (lit "method") (JString method) /\
     (no_member j (lit "params") \/ exists p, member j (lit "params") p)) \/
  exists v p, j = JArray [JString v; id; JString method; p].

Lemma field_one k ms v : field k ms = [v] -> member (JObject ms) k v.
Proof.
  induction ms as [| [k' w] ms IH]; [discriminate|]. unfold field. cbn [filter fst].
  destruct (str_eqb k' k) eqn:E; cbn [map snd]; intros H.
  - apply str_eqb_spec in E. subst k'. injection H as -> H. exists [], ms. split; [reflexivity|].
    split; [intros []|]. intros Hin. apply in_map_iff in Hin. destruct Hin as ([k2 x] & Hk & Hin).
    cbn [fst] in Hk. subst k2. assert (F : In (k, x) (filter (fun m => str_eqb (fst m) k) ms)).
    { apply filter_In. split; [assumption|]. now apply str_eqb_spec. }
    destruct (filter (fun m => str_eqb (fst m) k) ms); [exact F | discriminate].
  - destruct (IH H) as (a & b & Hj & Na & Nb). injection Hj as ->.
    exists ((k', w) :: a), b. split; [reflexivity|]. split; [|exact Nb].
    intros [<- | Hin]; [|now apply Na].
    assert (T : str_eqb k' k' = true) by now apply str_eqb_spec. cbn [fst] in E. congruence.
Qed.

Lemma field_empty k ms : field k ms = [] -> no_member (JObject ms) k.
Proof.
  intros H. exists ms. split; [reflexivity|]. intros Hin. apply in_map_iff in Hin.
  destruct Hin as ([k2 x] & Hk & Hin). cbn [fst] in Hk. subst k2.
  assert (F : In (k, x) (filter (fun m => str_eqb (fst m) k) ms)).
  { apply filter_In. split; [assumption|]. now apply str_eqb_spec. }
  unfold field in H. destruct (filter (fun m => str_eqb (fst m) k) ms); [exact F | discriminate].
Qed.

Lemma to_request_asks j id m :
  asks j id m <-> exists r, to_request j = Some r /\ rq_id r = id /\ rq_method r = m.
Proof.
  split.
  - intros [(v & Hv & Hi & Hm & Hp) | (v & p & ->)].
    + assert (Hv' := Hv). destruct Hv' as (a & b & -> & _). cbn [to_request].
      rewrite (field_member _ _ _ Hv), (field_member _ _ _ Hi), (field_member _ _ _ Hm).
      destruct (optional_field _ _ Hp) as (p & ->). eexists. split; [reflexivity | split; reflexivity].
    + eexists. split; [reflexivity | split; reflexivity].
  - intros (r & Hr & <- & <-). unfold to_request in Hr.
    destruct j as [| | | | l | ms]; try discriminate.
    + right. destruct l as [| [] [| i [| [] [| p []]]]]; try discriminate. injection Hr as <-. now do 2 eexists.
    + left. destruct (field (lit "jsonrpc") ms) as [| [] []] eqn:E1; try discriminate.
      destruct (field (lit "id") ms) as [| i []] eqn:E2; try discriminate.
      destruct (field (lit "method") ms) as [| [] []] eqn:E3; try discriminate.
      destruct (optional (field (lit "params") ms)) as [p|] eqn:E4; [|discriminate].
      injection Hr as <-. eexists. split; [apply field_one; exact E1|].
      split; [apply field_one; exact E2|]. split; [apply field_one; exact E3|].
      destruct (field (lit "params") ms) as [| q []] eqn:E5; [left; now apply field_empty | right; exists q; now apply field_one | discriminate].
Qed.

(** A line that asks nothing is as if it had not been sent: no answer, and the
    rest is served from the same state. *)
Theorem unasked_line_ignored : forall {S} L print (sv : service S) s line rest, valid line ->
  (forall j id m, on_line L line j -> ~ asks j id m) ->
  serve L print sv s (line :: rest) = serve L print sv s rest.
Proof.
  intros S L print sv s line rest Hv Hn. cbn [serve]. unfold serve_line. rewrite (valid_validb _ Hv).
  assert (D : forall o : list response * bool, (let '(b, ok) := o in ([] ++ b, ok)) = o) by now intros [].
  destruct (lb_trim L line) as [| c input] eqn:Et; [apply D|].
  destruct (lb_parse L (c :: input)) as [j|] eqn:Ep; [|apply D].
  destruct (to_request j) as [r|] eqn:Er.
  - exfalso. apply (Hn j (rq_id r) (rq_method r)).
    + split; rewrite Et; [discriminate | exact Ep].
    + apply to_request_asks. now exists r.
  - destruct (to_notification j); apply D.
Qed.
Print Assumptions unasked_line_ignored.

(** And every line that asks gets one answer with its identifier. *)
Theorem asking_line_answered : forall {S} L print (sv : service S) s line rest j id m, valid line ->
  on_line L line j -> asks j id m ->
  exists s' r, rs_id r = id /\ serve L print sv s (line :: rest) =
    (r :: fst (serve L print sv s' rest), snd (serve L print sv s' rest)).
Proof.
  intros S L print sv s line rest j id m Hv [Ht Hp] Ha. cbn [serve]. unfold serve_line. rewrite (valid_validb _ Hv).
  destruct (lb_trim L line) as [| c input] eqn:Et; [congruence|]. rewrite Hp.
  apply to_request_asks in Ha. destruct Ha as (r & -> & Hi & _).
  pose proof (handle_either L print sv s r) as [Hid _].
  destruct (handle_request L print sv s r) as [s' a]. exists s', a. split; [now rewrite <- Hi|].
  now destruct (serve L print sv s' rest).
Qed.
Print Assumptions asking_line_answered.

(** A request written as an array is answered; one with two identifiers is not. *)
Example asks_array : asks (JArray [JString (lit "2.0"); JNumber (lit "1"); JString (lit "initialize"); JNull]) (JNumber (lit "1")) (lit "initialize").
Proof. right. now do 2 eexists. Qed.

Example asks_twice : forall id m, ~ asks (JObject
  [(lit "jsonrpc", JString (lit "2.0")); (lit "id", JNull); (lit "id", JNull); (lit "method", JString (lit "x"))]) id m.
Proof. intros id m H. apply to_request_asks in H. destruct H as (r & Hr & _). vm_compute in Hr. discriminate. Qed.
