(** Model of projects/oak-mcp/src/lib.rs: the tool server over lines of JSON.
    JSON texts are read by serde_json, which is a parameter ([library]); responses are modelled as JSON values, not as
    text.  Objects keep the members in the order of the text, with repetitions.  Errors of the streams other than a line
    that is not UTF-8 are not modelled. *)
From Verif Require Import Base Utf8 Utf8Facts VfsModel JsonSpec.

(** [str::trim], [serde_json::from_str] up to the JSON value, [Value::as_u64] of a number as written *)
Record library := Library {
  lb_trim : str -> str;
  lb_parse : str -> option json;
  lb_u64 : list Z -> option nat }.

(** [Value::get]: the last member of that name (a map keeps the last), [None] unless an object *)
Fixpoint last_member (k : list Z) (ms : list (list Z * json)) : option json :=
  match ms with
  | [] => None
  | (k', v) :: r => match last_member k r with Some w => Some w | None => if str_eqb k' k then Some v else None end
  end.
Definition get (j : json) (k : list Z) : option json := match j with JObject ms => last_member k ms | _ => None end.
Definition as_str (j : json) : option (list Z) := match j with JString s => Some s | _ => None end.
Definition as_u64 (L : library) (j : json) : option nat := match j with JNumber t => lb_u64 L t | _ => None end.

(** Fields of derived [Deserialize]: the values of all members of that name *)
Definition field (k : list Z) (ms : list (list Z * json)) : list json := map snd (filter (fun m => str_eqb (fst m) k) ms).

(** lib.rs:19-29 *)
Record request := Request { rq_version : list Z; rq_id : json; rq_method : list Z; rq_params : option json }.

Definition null_none (j : json) : option json := match j with JNull => None | _ => Some j end.

(** Derived: an optional field, at most once; [null] is [None] *)
Definition optional (l : list json) : option (option json) :=
  match l with [] => Some None | [j] => Some (null_none j) | _ => None end.

(** lib.rs:18, 33-35: derived [Deserialize] takes an object without repeated fields, or an array of the four fields *)
Definition to_request (j : json) : option request :=
  match j with
  | JObject ms =>
      match field (lit "jsonrpc") ms, field (lit "id") ms, field (lit "method") ms, optional (field (lit "params") ms) with
      | [JString v], [i], [JString m], Some p => Some (Request v i m p)
      | _, _, _, _ => None
      end
  | JArray [JString v; i; JString m; p] => Some (Request v i m (null_none p))
  | _ => None
  end.

(** lib.rs:72-81 *)
Definition to_notification (j : json) : option (list Z) :=
  match j with
  | JObject ms =>
      match field (lit "jsonrpc") ms, field (lit "method") ms, optional (field (lit "params") ms) with
      | [JString _], [JString m], Some _ => Some m
      | _, _, _ => None
      end
  | JArray [JString _; JString m; _] => Some m
  | _ => None
  end.

(** lib.rs:39-51, 63-70 *)
Record response := Response { rs_id : json; rs_result : option json; rs_error : option (Z * list Z) }.

(** The language service and the searcher, with their state made explicit.  [sv_other] stands for document_symbols,
    definition, references, diagnostics and completion, told apart by the name of the tool. *)
Record service (S : Type) := Service {
  sv_hover : S -> list Z -> nat -> S * option (list Z);
  sv_other : S -> list Z -> list Z -> option nat -> S * json;
  sv_search : option (S -> list Z -> nat -> S * (json + list Z)) }.
Arguments Service {S}. Arguments sv_hover {S}. Arguments sv_other {S}. Arguments sv_search {S}.

(** tools.json: names and required arguments of the tools (descriptions and types omitted) *)
Definition tool (name : list Z) (required : list (list Z)) : json :=
  JObject [(lit "name", JString name); (lit "inputSchema", JObject [(lit "required", JArray (map JString required))])].
Definition tools : json := JArray [
  tool (lit "hover") [lit "uri"; lit "offset"];
  tool (lit "symbols") [lit "uri"];
  tool (lit "definition") [lit "uri"; lit "offset"];
  tool (lit "references") [lit "uri"; lit "offset"];
  tool (lit "diagnostics") [lit "uri"];
  tool (lit "completion") [lit "uri"; lit "offset"];
  tool (lit "set_file_content") [lit "uri"; lit "content"];
  tool (lit "search") [lit "query"];
  tool (lit "semantic_search") [lit "query"]].

Definition arg_str (args : json) (k : list Z) : option (list Z) := match get args k with Some v => as_str v | None => None end.
Definition arg_u64 (L : library) (args : json) (k : list Z) : option nat := match get args k with Some v => as_u64 L v | None => None end.

(** lib.rs:219-270 [handle_tool_call] *)
Definition tool_call {S} (L : library) (sv : service S) (s : S) (name : list Z) (args : json) : S * (json + list Z) :=
  let with_offset (discard : bool) :=
    match arg_str args (lit "uri") with
    | None => (s, inr (lit "Missing uri"))
    | Some uri =>
        match arg_u64 L args (lit "offset") with
        | None => (s, inr (lit "Missing offset"))
        | Some o => if discard then (fst (sv_other sv s name uri (Some o)), inl (JArray []))
                    else let '(s', h) := sv_hover sv s uri o in (s', inl (JString (match h with Some t => t | None => [] end)))
        end
    end in
  let without_offset :=
    match arg_str args (lit "uri") with
    | None => (s, inr (lit "Missing uri"))
    | Some uri => (fst (sv_other sv s name uri None), inl (JArray []))
    end in
  if str_eqb name (lit "hover") then with_offset false
  else if str_eqb name (lit "symbols") then without_offset
  else if str_eqb name (lit "definition") then with_offset true
  else if str_eqb name (lit "references") then with_offset true
  else if str_eqb name (lit "diagnostics") then without_offset
  else if str_eqb name (lit "completion") then with_offset true
  else if str_eqb name (lit "semantic_search") then
    match sv_search sv with
    | None => (s, inr (lit "Semantic search is not enabled"))
    | Some search =>
        match arg_str args (lit "query") with
        | None => (s, inr (lit "Missing query"))
        | Some q => search s q (match arg_u64 L args (lit "limit") with Some n => n | None => 5 end)
        end
    end
  else (s, inr (lit "Unknown tool: " ++ name)).

(** lib.rs:154-171: the answer to "initialize" *)
Definition initialize_result : json := JObject [
  (lit "protocolVersion", JString (lit "2024-11-05"));
  (lit "capabilities", JObject [(lit "tools", JObject [(lit "listChanged", JBool false)])]);
  (lit "serverInfo", JObject [(lit "name", JString (lit "oak-mcp")); (lit "version", JString (lit "0.0.1"))])].

(** lib.rs:151-206 [handle_request]; [print] is [Value::to_string] *)
Definition handle_request {S} (L : library) (print : json -> list Z) (sv : service S) (s : S) (r : request) : S * response :=
  if str_eqb (rq_method r) (lit "initialize") then (s, Response (rq_id r) (Some initialize_result) None)
  else if str_eqb (rq_method r) (lit "tools/list") then (s, Response (rq_id r) (Some (JObject [(lit "tools", tools)])) None)
  else if str_eqb (rq_method r) (lit "tools/call") then
    let params := match rq_params r with Some p => p | None => JNull end in
    let name := match arg_str params (lit "name") with Some n => n | None => [] end in
    let args := match get params (lit "arguments") with Some a => a | None => JNull end in
    match tool_call L sv s name args with
    | (s', inl v) => (s', Response (rq_id r) (Some (JObject [(lit "content", JArray [JObject [(lit "type", JString (lit "text")); (lit "text", JString (print v))]])])) None)
    | (s', inr e) => (s', Response (rq_id r) None (Some ((-32000)%Z, e)))
    end
  else (s, Response (rq_id r) None (Some ((-32601)%Z, lit "Method not found: " ++ rq_method r))).

(** lib.rs:122-143: one line; [None] ends the server *)
Definition serve_line {S} (L : library) (print : json -> list Z) (sv : service S) (s : S) (line : str) : option (S * list response) :=
  if validb line then
    match lb_trim L line with
    | [] => Some (s, [])
    | input =>
        match lb_parse L input with
        | None => Some (s, [])
        | Some j =>
            match to_request j with
            | Some r => let '(s', a) := handle_request L print sv s r in Some (s', [a])
            | None =>
                match to_notification j with
                | Some _ => Some (s, []) (* [handle_notification] does nothing, lib.rs:209-211 *)
                | None => Some (s, [])
                end
            end
        end
    end
  else None.

(** lib.rs:115-147 [run]: the responses to a stream of lines, and whether all of it was served *)
Fixpoint serve {S} (L : library) (print : json -> list Z) (sv : service S) (s : S) (lines : list str) : list response * bool :=
  match lines with
  | [] => ([], true)
  | l :: r =>
      match serve_line L print sv s l with
      | None => ([], false)
      | Some (s', a) => let '(b, ok) := serve L print sv s' r in (a ++ b, ok)
      end
  end.
