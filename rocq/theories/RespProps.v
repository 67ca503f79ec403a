(** C55: the headers of the answer; C56: an operation sent as application/graphql;
    C57: which request is handled how. *)
From Coq Require Import String Ascii ZArith NArith Bool List Permutation.
From Verif Require Import Base HeadersModel RequestSpec RespModel RespSpec RespProofs.
Import ListNotations.
Open Scope list_scope.
Open Scope string_scope.

(** * C55 *)

(** A header listed as experimental reaches the client with the value of the last upstream
    answer that carries it, and with that value alone. *)
Theorem C55_experimental_header_arrives : forall v answers own n x,
  In n (v_experimental v) -> last_sent n answers x ->
  values n (client_headers v answers own) = [x].
Proof. exact experimental_sent. Qed.
Print Assumptions C55_experimental_header_arrives.

(** Every other header but the cookies is what the configuration or else the server itself
    says, whatever the upstreams answer: nothing leaks. *)
Theorem C55_no_other_header_arrives : forall v answers own n,
  n <> "set-cookie" -> ~ In n (v_experimental v) \/ never_sent n answers ->
  values n (client_headers v answers own) = match values n (v_static v) with [] => values n own | l => l end.
Proof. exact others_fixed. Qed.
Print Assumptions C55_no_other_header_arrives.

(** Cookies of successful answers arrive if the configuration says so, all in one header;
    otherwise none does. *)
Theorem C55_cookies_partial : forall v answers own,
  ~ In "set-cookie" (v_experimental v) -> (forall c, In c (cookies answers) -> printable c) ->
  values "set-cookie" (client_headers v answers own) =
  match (if v_cookies v then cookies answers else []) with
  | [] => match values "set-cookie" (v_static v) with [] => values "set-cookie" own | l => l end
  | cs => [semicolons cs]
  end.
Proof. exact cookies_sent. Qed.
Print Assumptions C55_cookies_partial.

(** Configured headers are accepted exactly if every name is a header name and every value
    printable, and each is then sent, under its name in lower case. *)
Theorem C55_static_headers_accepted : forall l h,
  static_headers l = inr h <->
  (forall k v, In (k, v) l -> token k /\ printable v) /\ h = map (fun kv => (small_letters (fst kv), snd kv)) l.
Proof. exact static_iff. Qed.
Print Assumptions C55_static_headers_accepted.

Theorem C55_experimental_headers_accepted : forall l names,
  experimental_headers l = inr names <->
  (forall s, In s l -> token s /\ exists t, small_letters s = "x-" ++ t) /\ names = map small_letters l.
Proof. exact experimental_iff. Qed.
Print Assumptions C55_experimental_headers_accepted.

(** So cookies, the content type and the cache policy are never taken from an upstream as an
    experimental header. *)
Theorem C55_experimental_headers_are_extra : forall l names n,
  experimental_headers l = inr names -> In n names -> exists t, n = "x-" ++ t.
Proof.
  intros l names n E I. apply experimental_iff in E as [H ->]. apply in_map_iff in I as (s & <- & J).
  exact (proj2 (H s J)).
Qed.
Print Assumptions C55_experimental_headers_are_extra.

Definition srv55 : server :=
  {| v_static := [("server", "mine"); ("x-id", "none"); ("vary", "a"); ("vary", "b")]; v_cookies := true; v_experimental := ["x-id"; "x-no"] |}.
Definition one55 : upstream_answer :=
  {| w_success := true; w_headers := [("x-id", "1"); ("set-cookie", "a=1"); ("server", "theirs"); ("x-secret", "s")] |}.
Definition two55 : upstream_answer := {| w_success := true; w_headers := [("x-id", "2"); ("set-cookie", "b=2; Path=/")] |}.
Definition failing55 : upstream_answer := {| w_success := false; w_headers := [("set-cookie", "c=3")] |}.
Definition own55 : headers := [("content-type", "application/json"); ("server", "hyper")].

Example C55_witness_experimental :
  In "x-id" (v_experimental srv55) /\ last_sent "x-id" [one55; two55; failing55] "2" /\
  values "x-id" (client_headers srv55 [one55; two55; failing55] own55) = ["2"].
Proof.
  split; [now left|]. split; [|reflexivity]. apply last_sent_later. eapply last_sent_here; [reflexivity|].
  intros b [<-|[]]. reflexivity.
Qed.
Example C55_witness_others :
  values "server" (client_headers srv55 [one55; two55] own55) = ["mine"] /\
  values "vary" (client_headers srv55 [one55; two55] own55) = ["a"; "b"] /\
  values "x-secret" (client_headers srv55 [one55; two55] own55) = [] /\
  values "content-type" (client_headers srv55 [one55; two55] own55) = ["application/json"] /\
  never_sent "x-no" [one55; two55] /\ In "x-no" (v_experimental srv55).
Proof. repeat split; try reflexivity; [intros a [<-|[<-|[]]]; reflexivity|now right; left]. Qed.
Example C55_witness_cookies :
  ~ In "set-cookie" (v_experimental srv55) /\ (forall c, In c (cookies [one55; failing55; two55]) -> printable c) /\
  values "set-cookie" (client_headers srv55 [one55; failing55; two55] own55) = ["a=1; b=2; Path=/"].
Proof.
  split; [intros [H|[H|[]]]; discriminate|]. split; [|reflexivity]. cbn. intros c [<-|[<-|[]]]; reflexivity.
Qed.
Example C55_witness_configured :
  static_headers [("Server", "mine"); ("X-Id", "none")] = inr [("server", "mine"); ("x-id", "none")] /\
  static_headers [("a b", "x")] = inl [InvalidHeaderName "a b"] /\
  experimental_headers ["X-Id"] = inr ["x-id"] /\
  experimental_headers ["Id"] = inl [ExperimentalHeaderInvalidFormat "Id"].
Proof. repeat split; reflexivity. Qed.

(** Two upstreams set one cookie each: the client is told of a single cookie, the second one
    is an attribute of the first. *)
Theorem C55_every_cookie_arrives_refuted : exists v answers own,
  v_cookies v = true /\ cookies answers = ["a=1"; "b=2; Path=/"] /\
  values "set-cookie" (client_headers v answers own) = ["a=1; b=2; Path=/"].
Proof. exists srv55, [one55; two55], own55. repeat split; reflexivity. Qed.
Print Assumptions C55_every_cookie_arrives_refuted.

(** An upstream sets two cookies in one answer: the second one is lost. *)
Theorem C55_second_cookie_arrives_refuted : exists v a own,
  v_cookies v = true /\ w_success a = true /\ values "set-cookie" (w_headers a) = ["a=1"; "b=2"] /\
  values "set-cookie" (client_headers v [a] own) = ["a=1"].
Proof.
  exists srv55, {| w_success := true; w_headers := [("set-cookie", "a=1"); ("set-cookie", "b=2")] |}, own55. repeat split; reflexivity.
Qed.
Print Assumptions C55_second_cookie_arrives_refuted.

(** The same answer, shared by two calls, is noted by both: the cookie is doubled. *)
Theorem C55_shared_answer_counts_once_refuted : exists v a own,
  v_cookies v = true /\ w_success a = true /\ values "set-cookie" (w_headers a) = ["a=1"] /\
  values "set-cookie" (client_headers v [a; a] own) = ["a=1; a=1"].
Proof. exists srv55, one55, own55. repeat split; reflexivity. Qed.
Print Assumptions C55_shared_answer_counts_once_refuted.

(** A configured cookie disappears as soon as an upstream sets another one. *)
Theorem C55_configured_cookie_is_kept_refuted : exists v answers own,
  values "set-cookie" (v_static v) = ["mine=1"] /\
  values "set-cookie" (client_headers v [] own) = ["mine=1"] /\
  values "set-cookie" (client_headers v answers own) = ["b=2; Path=/"].
Proof.
  exists {| v_static := [("set-cookie", "mine=1")]; v_cookies := true; v_experimental := [] |}, [two55], []. repeat split; reflexivity.
Qed.
Print Assumptions C55_configured_cookie_is_kept_refuted.

(** A cookie that is not plain ASCII is dropped together with its attributes, but only if it
    is not the first one. *)
Theorem C55_unreadable_cookie_arrives_refuted : exists v a b own,
  v_cookies v = true /\ length (cookies [a; b]) = 2 /\
  values "set-cookie" (client_headers v [a; b] own) = values "set-cookie" (client_headers v [a] own) /\
  values "set-cookie" (client_headers v [b] own) = cookies [b].
Proof.
  exists srv55, one55, {| w_success := true; w_headers := [("set-cookie", String "n" (String "=" (String (ascii_of_N 233) "")))] |}, own55.
  repeat split; reflexivity.
Qed.
Print Assumptions C55_unreadable_cookie_arrives_refuted.

(** Which value an experimental header has depends on which of two independent upstreams
    answers first. *)
Theorem C55_order_of_answers_does_not_matter_refuted : exists v answers answers' own n,
  Permutation answers answers' /\
  values n (client_headers v answers own) <> values n (client_headers v answers' own).
Proof. exists srv55, [one55; two55], [two55; one55], own55, "x-id". split; [apply perm_swap|discriminate]. Qed.
Print Assumptions C55_order_of_answers_does_not_matter_refuted.

(** * C56 *)

(** An operation of printable characters without a backslash, sent as application/graphql, is
    read as the operation it is. *)
Theorem C56_operation_is_read_partial : forall hs q,
  values "content-type" hs = ["application/graphql"] -> every graphql_char q ->
  requests (request_text hs q) q.
Proof. exact body_requests. Qed.
Print Assumptions C56_operation_is_read_partial.

(** A request of any other content type is read as it is. *)
Theorem C56_other_bodies_are_unchanged : forall hs body,
  ~ In "application/graphql" (values "content-type" hs) -> request_text hs body = body.
Proof.
  intros hs body H. unfold request_text. rewrite values_get. destruct (values "content-type" hs) as [|t l]; [reflexivity|].
  destruct (String.eqb_spec t "application/graphql") as [->|]; [|reflexivity]. now destruct H; left.
Qed.
Print Assumptions C56_other_bodies_are_unchanged.

Definition q56 : string := "{ user(name: ""a b"") { id } }" ++ String (ascii_of_N 10) "# end".
Example C56_witness :
  every graphql_char q56 /\
  request_text [("content-type", "application/graphql")] q56 = "{""query"": ""{ user(name: \""a b\"") { id } }\n# end"" }".
Proof. split; reflexivity. Qed.

(** An operation with an escaped quote in a string, valid GraphQL, becomes a text that asks
    for nothing: the operation is put into the JSON text without quotes. *)
Theorem C56_every_operation_is_read_refuted : exists hs q,
  values "content-type" hs = ["application/graphql"] /\ q = "{ user(name: ""a\""b"") { id } }" /\
  request_text hs q = "{""query"": " ++ q ++ " }" /\
  forall op, ~ requests (request_text hs q) op.
Proof.
  exists [("content-type", "application/graphql")], "{ user(name: ""a\""b"") { id } }". split; [reflexivity|]. split; [reflexivity|].
  split; [reflexivity|]. intros op (content & E & _). cbn in E. discriminate E.
Qed.
Print Assumptions C56_every_operation_is_read_refuted.

(** With a parameter in the content type the body is not taken as GraphQL. *)
Theorem C56_content_type_parameters_refuted : exists hs q,
  values "content-type" hs = ["application/graphql; charset=utf-8"] /\ every graphql_char q /\
  forall op, ~ requests (request_text hs q) op.
Proof.
  exists [("content-type", "application/graphql; charset=utf-8")], "{ id }". split; [reflexivity|]. split; [reflexivity|].
  intros op (content & E & _). cbn in E. discriminate E.
Qed.
Print Assumptions C56_content_type_parameters_refuted.

(** A delete character inside a string or a comment is written the way Rust, not JSON, escapes
    it: the text is no JSON. *)
Theorem C56_control_characters_are_read_refuted : exists hs q,
  values "content-type" hs = ["application/graphql"] /\ q = "{ id } #" ++ String (ascii_of_N 127) "" /\
  request_text hs q = "{""query"": ""{ id } #\u{7f}"" }".
Proof. exists [("content-type", "application/graphql")], ("{ id } #" ++ String (ascii_of_N 127) ""). repeat split; reflexivity. Qed.
Print Assumptions C56_control_characters_are_read_refuted.

(** * C57 *)

(** Which requests are executed as GraphQL, which get the status, the metrics, the showcase,
    which are endpoints, and which are not found. *)
Theorem C57_graphql : forall o m p,
  route o m p = Graphql <-> m = "POST" /\ p = o_graphql o /\ ~ exists t, p = "/api" ++ t.
Proof. exact route_graphql. Qed.
Print Assumptions C57_graphql.
Theorem C57_endpoints : forall o m p, route o m p = RestApi <-> exists t, p = "/api" ++ t.
Proof. exact route_rest. Qed.
Print Assumptions C57_endpoints.
Theorem C57_showcase : forall o m p,
  route o m p = Showcase <-> m = "POST" /\ o_showcase o = true /\ p = "/showcase/graphql" /\ p <> o_graphql o.
Proof. exact route_showcase. Qed.
Print Assumptions C57_showcase.
Theorem C57_status : forall o m p,
  route o m p = Status <-> m = "GET" /\ p = o_status o /\ ~ exists t, p = "/api" ++ t.
Proof. exact route_status. Qed.
Print Assumptions C57_status.
Theorem C57_metrics : forall o m p,
  route o m p = Metrics <-> m = "GET" /\ o_metrics o = Some p /\ p <> o_status o /\ ~ exists t, p = "/api" ++ t.
Proof. exact route_metrics. Qed.
Print Assumptions C57_metrics.

Definition o57 : routes := {| o_graphql := "/graphql"; o_status := "/status"; o_showcase := true; o_metrics := Some "/metrics" |}.
Example C57_witness :
  route o57 "POST" "/graphql" = Graphql /\ route o57 "GET" "/graphql" = NotFound /\ route o57 "GET" "/status" = Status /\
  route o57 "GET" "/metrics" = Metrics /\ route o57 "POST" "/showcase/graphql" = Showcase /\ route o57 "PUT" "/api/users/1" = RestApi.
Proof. repeat split; reflexivity. Qed.

(** The configured route of GraphQL may be one that is never reached: any that starts with
    /api. *)
Theorem C57_configured_route_is_served_refuted : exists o,
  o_graphql o = "/api/graphql" /\ route o "POST" (o_graphql o) = RestApi.
Proof. exists {| o_graphql := "/api/graphql"; o_status := "/status"; o_showcase := false; o_metrics := None |}. split; reflexivity. Qed.
Print Assumptions C57_configured_route_is_served_refuted.
(** Nor is an endpoint only what follows the segment api: another first segment that begins
    with these letters is taken too. *)
Theorem C57_api_is_a_segment_refuted : exists o,
  o_status o = "/apistatus" /\ route o "GET" (o_status o) = RestApi.
Proof. exists {| o_graphql := "/graphql"; o_status := "/apistatus"; o_showcase := false; o_metrics := None |}. split; reflexivity. Qed.
Print Assumptions C57_api_is_a_segment_refuted.
