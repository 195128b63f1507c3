(** Theorems about the tool server. *)
From Verif Require Import Base Utf8 Utf8Facts VfsModel VfsProofs JsonSpec McpModel McpSpec.

Lemma valid_validb s : valid s -> validb s = true.
Proof.
  intros (cs & Hs & ->). unfold validb. rewrite chars_encode by assumption. apply andb_true_iff. split.
  - apply forallb_forall. intros c Hc. rewrite Forall_forall in Hs. specialize (Hs c Hc). unfold is_scalar in Hs. unfold is_scalarb. lia.
  - destruct (list_eq_dec Z.eq_dec (encode cs) (encode cs)); congruence.
Qed.

Lemma field_none k ms : ~ In k (map fst ms) -> field k ms = [].
Proof.
  induction ms as [| [k' v] ms IH]; intros N; [reflexivity|]. unfold field. cbn [filter fst]. destruct (str_eqb k' k) eqn:E.
  - apply str_eqb_spec in E. exfalso. apply N. left. exact E.
  - apply IH. intros H. apply N. now right.
Qed.

Lemma field_app k a b : field k (a ++ b) = field k a ++ field k b.
Proof. unfold field. rewrite filter_app. apply map_app. Qed.

Lemma field_member ms k v : member (JObject ms) k v -> field k ms = [v].
Proof.
  intros (a & b & E & Na & Nb). injection E as ->. rewrite field_app, (field_none k a Na). unfold field. cbn [filter fst app].
  assert (E : str_eqb k k = true) by now apply str_eqb_spec. rewrite E. cbn [map snd]. f_equal. exact (field_none k b Nb).
Qed.

Lemma optional_field ms k : no_member (JObject ms) k \/ (exists p, member (JObject ms) k p) -> exists p, optional (field k ms) = Some p.
Proof.
  intros [(a & E & N) | (p & H)].
  - injection E as <-. rewrite field_none by assumption. now eexists.
  - rewrite (field_member _ _ _ H). now eexists.
Qed.

Lemma request_read j id m : rpc_request j id m -> exists r, to_request j = Some r /\ rq_id r = id /\ rq_method r = m.
Proof.
  intros (Hv & Hi & Hm & Hp). assert (Hv' := Hv). destruct Hv' as (a & b & -> & _). cbn [to_request].
  rewrite (field_member _ _ _ Hv), (field_member _ _ _ Hi), (field_member _ _ _ Hm). destruct (optional_field _ _ Hp) as (p & ->).
  eexists. split; [reflexivity | split; reflexivity].
Qed.

Lemma notification_no_request j m : rpc_notification j m -> to_request j = None.
Proof.
  intros (_ & (a & -> & N) & _). cbn [to_request]. rewrite (field_none _ _ N). destruct (field (lit "jsonrpc") a) as [| [] []]; reflexivity.
Qed.

(** The JSON value on a line. *)
Definition on_line (L : library) (line : str) (j : json) : Prop := lb_trim L line <> [] /\ lb_parse L (lb_trim L line) = Some j.

(** Exactly one of result and error. *)
Definition either (r : response) : Prop :=
  (rs_error r = None /\ exists v, rs_result r = Some v) \/ (rs_result r = None /\ exists e, rs_error r = Some e).

Lemma handle_either {S} L print (sv : service S) s r : rs_id (snd (handle_request L print sv s r)) = rq_id r /\ either (snd (handle_request L print sv s r)).
Proof.
  unfold handle_request, either. destruct (str_eqb _ _); [cbn; eauto|]. destruct (str_eqb _ _); [cbn; eauto|].
  destruct (str_eqb _ _); [|cbn; eauto]. destruct (tool_call _ _ _ _ _) as [s' [v | e]]; cbn; eauto.
Qed.

(** C59: each line gets at most one response, with exactly one of result and error; a request gets one with its identifier; a
    notification gets none; the responses come in the order of the lines. *)
Theorem requests_answered : forall {S} L print (sv : service S) s lines, Forall valid lines ->
  exists answers, serve L print sv s lines = (concat answers, true) /\
  Forall2 (fun line a => length a <= 1 /\ Forall either a /\
    (forall j id m, on_line L line j -> rpc_request j id m -> exists r, a = [r] /\ rs_id r = id) /\
    (forall j m, on_line L line j -> rpc_notification j m -> a = [])) lines answers.
Proof.
  intros S L print sv s lines H. revert s. induction H as [| line lines Hl Hls IH]; intros s; [exists []; split; [reflexivity | constructor]|].
  cbn [serve]. unfold serve_line. rewrite (valid_validb _ Hl).
  assert (Quiet : forall s', (forall j id m, on_line L line j -> ~ rpc_request j id m) -> exists answers,
    (let '(b, ok) := serve L print sv s' lines in ([] ++ b, ok)) = (concat answers, true) /\
    Forall2 (fun line a => length a <= 1 /\ Forall either a /\
      (forall j id m, on_line L line j -> rpc_request j id m -> exists r, a = [r] /\ rs_id r = id) /\
      (forall j m, on_line L line j -> rpc_notification j m -> a = [])) (line :: lines) answers).
  { intros s' N. destruct (IH s') as (answers & E & F). exists ([] :: answers). rewrite E. split; [reflexivity|].
    constructor; [|exact F]. split; [cbn; lia|]. split; [constructor|]. split; [|reflexivity]. intros j id m Hj Hr. exfalso. exact (N j id m Hj Hr). }
  destruct (lb_trim L line) as [| c input] eqn:Et; [apply Quiet; intros j id m [H _]; congruence|].
  destruct (lb_parse L (c :: input)) as [j|] eqn:Ep; [|apply Quiet; intros j id m [_ H]; rewrite Et in H; congruence].
  destruct (to_request j) as [r|] eqn:Er.
  - destruct (handle_request L print sv s r) as [s' a] eqn:Eh. assert (K := handle_either L print sv s r). rewrite Eh in K. cbn [snd] in K.
    destruct (IH s') as (answers & E & F). exists ([a] :: answers). rewrite E. split; [reflexivity|].
    constructor; [|exact F]. split; [cbn; lia|]. split; [constructor; [apply K | constructor]|]. split.
    + intros j' id m [_ Hj] Hr. rewrite Et, Ep in Hj. injection Hj as <-. destruct (request_read _ _ _ Hr) as (r' & Er' & <- & _).
      rewrite Er in Er'. injection Er' as <-. exists a. split; [reflexivity | apply K].
    + intros j' m [_ Hj] Hn. rewrite Et, Ep in Hj. injection Hj as <-. rewrite (notification_no_request _ _ Hn) in Er. discriminate.
  - assert (E : match to_notification j with Some _ => Some (s, @nil response) | None => Some (s, []) end = Some (s, [])) by (destruct (to_notification j); reflexivity).
    rewrite E. apply Quiet. intros j' id m [_ Hj] Hr. rewrite Et, Ep in Hj. injection Hj as <-. destruct (request_read _ _ _ Hr) as (r & Er' & _). congruence.
Qed.
Print Assumptions requests_answered.

(** C59: unknown methods get the error code of JSON-RPC; known methods never do. *)
Theorem unknown_method : forall {S} L print (sv : service S) s line j id m, valid line -> on_line L line j -> rpc_request j id m ->
  exists r, fst (serve L print sv s [line]) = [r] /\
    ((exists msg, rs_error r = Some ((-32601)%Z, msg)) <-> ~ In m [lit "initialize"; lit "tools/list"; lit "tools/call"]).
Proof.
  intros S L print sv s line j id m Hv [Ht Hp] Hr. cbn [serve]. unfold serve_line. rewrite (valid_validb _ Hv).
  destruct (lb_trim L line) as [| c input] eqn:Et; [congruence|]. rewrite Hp. destruct (request_read _ _ _ Hr) as (r & -> & _ & Hm).
  destruct (handle_request L print sv s r) as [s' a] eqn:Eh. exists a. split; [reflexivity|]. unfold handle_request in Eh. rewrite Hm in Eh.
  destruct (str_eqb m (lit "initialize")) eqn:E1.
  { apply str_eqb_spec in E1. injection Eh as <- <-. cbn [rs_error]. split; [intros (msg & H); discriminate | intros N; exfalso; apply N; left; congruence]. }
  destruct (str_eqb m (lit "tools/list")) eqn:E2.
  { apply str_eqb_spec in E2. injection Eh as <- <-. cbn [rs_error]. split; [intros (msg & H); discriminate | intros N; exfalso; apply N; right; left; congruence]. }
  destruct (str_eqb m (lit "tools/call")) eqn:E3.
  { apply str_eqb_spec in E3. destruct (tool_call _ _ _ _ _) as [s2 [v | e]]; injection Eh as <- <-; cbn [rs_error];
      (split; [intros (msg & H); discriminate | intros N; exfalso; apply N; right; right; left; congruence]). }
  injection Eh as <- <-. cbn [rs_error]. split; [|intros _; eexists; reflexivity]. intros _ H.
  destruct H as [H | [H | [H | []]]]; [rewrite <- H in E1; vm_compute in E1 | rewrite <- H in E2; vm_compute in E2 | rewrite <- H in E3; vm_compute in E3]; discriminate.
Qed.
Print Assumptions unknown_method.

(** A library that reads two lines. *)
Definition ping : json := JObject [(lit "jsonrpc", JString (lit "2.0")); (lit "id", JNumber (lit "7")); (lit "method", JString (lit "ping"))].
Definition toy : library := Library (fun s => s) (fun s => if str_eqb s (lit "ping") then Some ping else None) (fun _ => Some 0).
Definition idle : service unit := Service (fun s _ _ => (s, None)) (fun s _ _ _ => (s, JNull)) None.

Example mcp_case : on_line toy (lit "ping") ping /\ rpc_request ping (JNumber (lit "7")) (lit "ping") /\
  serve toy (fun _ => []) idle tt [lit "oops"; lit "ping"] = ([Response (JNumber (lit "7")) None (Some ((-32601)%Z, lit "Method not found: ping"))], true).
Proof.
  split; [split; [discriminate | reflexivity]|]. split; [|vm_compute; reflexivity]. unfold rpc_request.
  assert (D : forall k ks, (forallb (fun k' => negb (str_eqb k k')) ks = true) -> ~ In k ks).
  { intros k ks H Hi. rewrite forallb_forall in H. specialize (H k Hi). rewrite (proj2 (str_eqb_spec k k) eq_refl) in H. discriminate. }
  split; [|split; [|split; [|left]]].
  - exists [], (match ping with JObject l => skipn 1 l | _ => [] end). split; [reflexivity|]. split; apply D; reflexivity.
  - exists (match ping with JObject l => firstn 1 l | _ => [] end), (match ping with JObject l => skipn 2 l | _ => [] end). split; [reflexivity|]. split; apply D; reflexivity.
  - exists (match ping with JObject l => firstn 2 l | _ => [] end), []. split; [reflexivity|]. split; apply D; reflexivity.
  - exists (match ping with JObject l => l | _ => [] end). split; [reflexivity|]. apply D. reflexivity.
Qed.

(** C98 fails: a line that is not JSON gets no response at all, for no library and service. *)
Theorem malformed_reported_refuted : exists line, valid line /\ line <> [] /\
  forall S L print (sv : service S) s, lb_parse L (lb_trim L line) = None -> serve L print sv s [line] = ([], true).
Proof.
  exists (lit "oops"). split; [apply validb_valid; vm_compute; reflexivity|]. split; [discriminate|]. intros S L print sv s H. cbn [serve]. unfold serve_line.
  change (validb (lit "oops")) with true. cbv iota. destruct (lb_trim L (lit "oops")); [reflexivity|]. now rewrite H.
Qed.
Print Assumptions malformed_reported_refuted.

(** C98 fails also for JSON that is neither request nor notification, e.g. a batch of requests. *)
Theorem batch_reported_refuted : exists j : json, j = JArray [ping; ping] /\
  forall S L print (sv : service S) s line, valid line -> on_line L line j -> serve L print sv s [line] = ([], true).
Proof.
  exists (JArray [ping; ping]). split; [reflexivity|]. intros S L print sv s line Hv [Ht Hp]. cbn [serve]. unfold serve_line. rewrite (valid_validb _ Hv).
  destruct (lb_trim L line) as [| c input]; [reflexivity|]. rewrite Hp. reflexivity.
Qed.
Print Assumptions batch_reported_refuted.

(** C99: as long as the lines are text, every later request is still served (from [requests_answered]). *)
Theorem keeps_serving_partial : forall {S} L print (sv : service S) s before line j id m, Forall valid before -> valid line ->
  on_line L line j -> rpc_request j id m -> exists out r, serve L print sv s (before ++ [line]) = (out ++ [r], true) /\ rs_id r = id.
Proof.
  intros S L print sv s before line j id m Hb Hl Hj Hr.
  destruct (requests_answered L print sv s (before ++ [line])) as (answers & -> & F); [apply Forall_app; split; [assumption | constructor; [assumption | constructor]]|].
  apply Forall2_app_inv_l in F. destruct F as (a1 & a2 & _ & F2 & ->). inversion F2 as [| x y l l' Hx Hn E1 E2]; subst. inversion Hn; subst.
  destruct Hx as (_ & _ & Hx & _). destruct (Hx _ _ _ Hj Hr) as (r & -> & Hid). exists (concat a1), r. rewrite concat_app. cbn. split; [reflexivity | assumption].
Qed.
Print Assumptions keeps_serving_partial.

(** C99 fails: after one line that is not UTF-8 nothing is served any more. *)
Theorem keeps_serving_refuted : exists bad : str, forall S L print (sv : service S) s lines, serve L print sv s (bad :: lines) = ([], false).
Proof. exists [255%Z]. intros S L print sv s lines. reflexivity. Qed.
Print Assumptions keeps_serving_refuted.

(** C100, for hovering: the text of the service comes back. *)
Theorem tool_result_partial : forall {S} L (sv : service S) s uri text o args s',
  get args (lit "uri") = Some (JString uri) -> (exists n, get args (lit "offset") = Some (JNumber n) /\ lb_u64 L n = Some o) ->
  sv_hover sv s uri o = (s', Some text) -> tool_call L sv s (lit "hover") args = (s', inl (JString text)).
Proof.
  intros S L sv s uri text o args s' Hu (n & Ho & Hn) Hh. unfold tool_call. change (str_eqb (lit "hover") (lit "hover")) with true. cbv iota.
  unfold arg_str, arg_u64. rewrite Hu. cbn [as_str]. rewrite Ho. cbn [as_u64]. rewrite Hn, Hh. reflexivity.
Qed.
Print Assumptions tool_result_partial.

(** C100, for searching: the result of the searcher comes back. *)
Theorem search_result_partial : forall {S} L (sv : service S) s search q args,
  sv_search sv = Some search -> get args (lit "query") = Some (JString q) -> get args (lit "limit") = None ->
  tool_call L sv s (lit "semantic_search") args = search s q 5.
Proof.
  intros S L sv s search q args Hs Hq Hl. unfold tool_call.
  repeat match goal with |- context [str_eqb ?a ?b] => let v := eval vm_compute in (str_eqb a b) in change (str_eqb a b) with v; cbv iota end.
  unfold arg_str, arg_u64. rewrite Hs, Hq, Hl. reflexivity.
Qed.
Print Assumptions search_result_partial.

(** C100 fails: five tools answer the empty list, whatever the language service found. *)
Theorem tools_discard_results : forall name, In name [lit "symbols"; lit "definition"; lit "references"; lit "diagnostics"; lit "completion"] ->
  forall {S} L (sv : service S) s args v, snd (tool_call L sv s name args) = inl v -> v = JArray [].
Proof.
  intros name H S L sv s args v.
  unfold tool_call. cbv zeta. destruct H as [<- | [<- | [<- | [<- | [<- | []]]]]];
  repeat match goal with |- context [str_eqb ?a ?b] => let v := eval vm_compute in (str_eqb a b) in change (str_eqb a b) with v; cbv iota end;
  (destruct (arg_str args (lit "uri")) as [u|]; [|cbn [snd]; intros Hv; discriminate Hv]);
  try (destruct (arg_u64 L args (lit "offset")) as [o|]; [|cbn [snd]; intros Hv; discriminate Hv]);
  cbn [snd]; intros Hv; injection Hv as <-; reflexivity.
Qed.
Print Assumptions tools_discard_results.

Theorem tool_result_refuted : exists S (sv : service S) s name args uri o found, snd (sv_other sv s name uri (Some o)) = found /\ found <> JArray [] /\
  arg_str args (lit "uri") = Some uri /\ arg_u64 toy args (lit "offset") = Some o /\ name = lit "definition" /\ snd (tool_call toy sv s name args) = inl (JArray []).
Proof.
  exists unit, (Service (fun s _ _ => (s, None)) (fun s _ _ _ => (s, JArray [JString (lit "a.rs")])) None), tt, (lit "definition"),
    (JObject [(lit "uri", JString (lit "b.rs")); (lit "offset", JNumber (lit "0"))]), (lit "b.rs"), 0. eexists.
  split; [reflexivity|]. split; [discriminate|]. repeat split; reflexivity.
Qed.
Print Assumptions tool_result_refuted.

(** A tool offered to clients, with its required arguments. *)
Definition offered (name : list Z) (required : list (list Z)) : Prop :=
  exists items, tools = JArray items /\ exists t schema, In t items /\ get t (lit "name") = Some (JString name) /\
    get t (lit "inputSchema") = Some schema /\ get schema (lit "required") = Some (JArray (map JString required)).

(** The arguments have the required members, of the types the tools expect. *)
Definition supplied (L : library) (required : list (list Z)) (args : json) : Prop :=
  forall k, In k required -> if str_eqb k (lit "offset") then exists t o, get args k = Some (JNumber t) /\ lb_u64 L t = Some o
                             else exists v, get args k = Some (JString v).

(** C101, but for two tools (and the searcher, see [search_result_partial]): an offered tool called with its required
    arguments gives a result. *)
Theorem offered_works_partial : forall name required, offered name required -> ~ In name [lit "search"; lit "set_file_content"; lit "semantic_search"] ->
  forall {S} L (sv : service S) s args, supplied L required args -> exists v, snd (tool_call L sv s name args) = inl v.
Proof.
  intros name required (items & E & t & schema & Hi & Hn & Hsc & Hr) N S L sv s args Hs. injection E as <-.
  assert (U : In (lit "uri") required -> exists u, arg_str args (lit "uri") = Some u).
  { intros H. destruct (Hs _ H) as (v & Hv). unfold arg_str. rewrite Hv. now eexists. }
  assert (O : In (lit "offset") required -> exists o, arg_u64 L args (lit "offset") = Some o).
  { intros H. destruct (Hs _ H) as (n & o & Hv & Ho). unfold arg_u64. rewrite Hv. cbn [as_u64]. rewrite Ho. now eexists. }
  assert (R : forall l, Some (JArray l) = Some (JArray (map JString required)) -> forall x, In (JString x) l -> In x required).
  { intros l El x Hx. injection El as ->. apply in_map_iff in Hx. destruct Hx as (y & Ey & Hy). injection Ey as ->. exact Hy. }
  assert (Hr' : forall l, get schema (lit "required") = Some (JArray l) -> forall x, In (JString x) l -> In x required) by (intros l El; apply R; congruence).
  clear Hs R Hr. cbn [In] in Hi.
  repeat (destruct Hi as [<- | Hi]; [
    injection Hn as <-; injection Hsc as <-; specialize (Hr' _ eq_refl);
    try (exfalso; apply N; cbn [In]; tauto);
    try (destruct (U (Hr' _ (or_introl eq_refl))) as (u & Eu)); try (destruct (O (Hr' _ (or_intror (or_introl eq_refl)))) as (o & Eo));
    clear -Eu Eo || clear -Eu; unfold tool_call;
    repeat match goal with |- context [str_eqb ?a ?b] => let v := eval vm_compute in (str_eqb a b) in change (str_eqb a b) with v; cbv iota end;
    rewrite Eu; try rewrite Eo; try (destruct (sv_hover sv s u o)); cbn; eexists; reflexivity |]).
  contradiction.
Qed.
Print Assumptions offered_works_partial.

Example offered_case : offered (lit "hover") [lit "uri"; lit "offset"] /\ supplied toy [lit "uri"; lit "offset"] (JObject [(lit "uri", JString (lit "file:a")); (lit "offset", JNumber (lit "3"))]).
Proof.
  split.
  - eexists. split; [reflexivity|]. do 2 eexists. split; [left; reflexivity|]. repeat split; reflexivity.
  - intros k [<- | [<- | []]]; vm_compute; eauto.
Qed.

(** C101 fails: two of the offered tools are unknown to the server. *)
Theorem two_tools_unknown : forall name, In name [lit "search"; lit "set_file_content"] ->
  (exists required, offered name required) /\
  forall {S} L (sv : service S) s args, tool_call L sv s name args = (s, inr (lit "Unknown tool: " ++ name)).
Proof.
  intros name [<- | [<- | []]]; (split; [|reflexivity]).
  - exists [lit "query"]. eexists. split; [reflexivity|]. do 2 eexists. split; [do 7 right; left; reflexivity|]. repeat split; reflexivity.
  - exists [lit "uri"; lit "content"]. eexists. split; [reflexivity|]. do 2 eexists. split; [do 6 right; left; reflexivity|]. repeat split; reflexivity.
Qed.
Print Assumptions two_tools_unknown.

Theorem offered_works_refuted : exists name required, offered name required /\
  forall {S} L (sv : service S) s args, snd (tool_call L sv s name args) = inr (lit "Unknown tool: " ++ name).
Proof.
  destruct (two_tools_unknown (lit "search") (or_introl eq_refl)) as [(required & H) U]. exists (lit "search"), required. split; [assumption|].
  intros S L sv s args. now rewrite U.
Qed.
Print Assumptions offered_works_refuted.

(** C100: the name and the arguments of a call reach the tool, and its answer comes back as one text under the identifier of the request. *)
Lemma last_none k ms : ~ In k (map fst ms) -> last_member k ms = None.
Proof.
  induction ms as [| [k' v] ms IH]; intros N; [reflexivity|]. cbn [last_member]. rewrite IH by (intros H; apply N; now right). destruct (str_eqb k' k) eqn:E; [|reflexivity]. apply str_eqb_spec in E. exfalso. apply N. now left.
Qed.
Lemma get_member j k v : member j k v -> get j k = Some v.
Proof.
  intros (a & b & -> & Na & Nb). cbn [get]. induction a as [| [k' w] a IH]; cbn [app last_member].
  - rewrite (last_none k b Nb). assert (E : str_eqb k k = true) by now apply str_eqb_spec. now rewrite E.
  - rewrite IH; [reflexivity|]. intros H. apply Na. now right.
Qed.
Theorem call_delivered : forall {S} L print (sv : service S) s line j id params name args, valid line -> on_line L line j -> rpc_request j id (lit "tools/call") ->
  member j (lit "params") params -> member params (lit "name") (JString name) -> member params (lit "arguments") args ->
  exists r, serve_line L print sv s line = Some (fst (tool_call L sv s name args), [r]) /\ rs_id r = id /\
    match snd (tool_call L sv s name args) with
    | inl v => rs_error r = None /\ rs_result r = Some (JObject [(lit "content", JArray [JObject [(lit "type", JString (lit "text")); (lit "text", JString (print v))]])])
    | inr e => rs_result r = None /\ exists code, rs_error r = Some (code, e)
    end.
Proof.
  intros S L print sv s line j id params name args Hv [Ht Hp] Hr Mp Mn Ma. unfold serve_line. rewrite (valid_validb _ Hv). destruct (lb_trim L line) as [| c input] eqn:Et; [congruence|]. rewrite Hp.
  destruct Hr as (Rv & Ri & Rm & _). assert (Rv' := Rv). destruct Rv' as (a & b & -> & _). cbn [to_request]. rewrite (field_member _ _ _ Rv), (field_member _ _ _ Ri), (field_member _ _ _ Rm), (field_member _ _ _ Mp). cbn [optional].
  assert (Np : null_none params = Some params). { destruct Mn as (x & y & -> & _). reflexivity. }
  rewrite Np. unfold handle_request. cbn [rq_method rq_id rq_params].
  repeat match goal with |- context [str_eqb ?a ?b] => let v := eval vm_compute in (str_eqb a b) in change (str_eqb a b) with v; cbv iota end.
  unfold arg_str. rewrite (get_member _ _ _ Mn), (get_member _ _ _ Ma). cbn [as_str]. destruct (tool_call L sv s name args) as [s' [v | e]]; cbn [fst snd]; (eexists; split; [reflexivity|]; cbn [rs_id rs_error rs_result]).
  - now repeat split.
  - split; [reflexivity|]. split; [reflexivity|]. now eexists.
Qed.
Print Assumptions call_delivered.
Definition hover_args : json := JObject [(lit "uri", JString (lit "file:a")); (lit "offset", JNumber (lit "3"))].
Definition hover_call : json := JObject [(lit "jsonrpc", JString (lit "2.0")); (lit "id", JNumber (lit "7")); (lit "method", JString (lit "tools/call"));
  (lit "params", JObject [(lit "name", JString (lit "hover")); (lit "arguments", hover_args)])].
Example call_delivered_case : let lib := Library (fun s => s) (fun _ => Some hover_call) (fun _ => Some 3) in
  let sv := Service (fun s uri o => (s + o, Some uri)) (fun s _ _ _ => (s, JArray [])) None in
  on_line lib (lit "x") hover_call /\ member hover_call (lit "params") (JObject [(lit "name", JString (lit "hover")); (lit "arguments", hover_args)]) /\
  serve_line lib (fun v => match v with JString s => s | _ => [] end) sv 4 (lit "x") =
    Some (7, [Response (JNumber (lit "7")) (Some (JObject [(lit "content", JArray [JObject [(lit "type", JString (lit "text")); (lit "text", JString (lit "file:a"))]])])) None]).
Proof.
  split; [split; [discriminate | reflexivity]|]. split; [|vm_compute; reflexivity].
  exists (match hover_call with JObject l => firstn 3 l | _ => [] end), []. split; [reflexivity|]. split; [|intros []]. cbn [hover_call firstn map fst In]. intros [H | [H | [H | []]]]; discriminate.
Qed.
