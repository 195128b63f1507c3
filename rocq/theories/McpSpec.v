(** JSON-RPC 2.0 messages, stated on JSON values. *)
From Verif Require Import Base Utf8 JsonSpec.

(** Exactly one member of that name, with that value. *)
Definition member (j : json) (k : list Z) (v : json) : Prop :=
  exists a b, j = JObject (a ++ (k, v) :: b) /\ ~ In k (map fst a) /\ ~ In k (map fst b).

Definition no_member (j : json) (k : list Z) : Prop := exists a, j = JObject a /\ ~ In k (map fst a).

Definition rpc_request (j : json) (id : json) (method : list Z) : Prop :=
  member j (lit "jsonrpc") (JString (lit "2.0")) /\ member j (lit "id") id /\ member j (lit "method") (JString method) /\
  (no_member j (lit "params") \/ exists p, member j (lit "params") p).

Definition rpc_notification (j : json) (method : list Z) : Prop :=
  member j (lit "jsonrpc") (JString (lit "2.0")) /\ no_member j (lit "id") /\ member j (lit "method") (JString method) /\
  (no_member j (lit "params") \/ exists p, member j (lit "params") p).
