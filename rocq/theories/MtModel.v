(** What telemetry tells of requests: src/core/http/telemetry.rs, src/core/http/request_handler.rs and src/cli/runtime/http.rs. *)
From Coq Require Import String Ascii NArith Bool List.
From Verif Require Import Base RespModel.
Import ListNotations.
Open Scope string_scope.
Open Scope list_scope.

(** [hyper::Request]; names of headers are lower case *)
Record request : Type := { q_method : string; q_path : string; q_query : string; q_headers : list (string * string); q_body : string }.
(** [opentelemetry::Value], as far as it is used *)
Inductive told : Type := Text (s : string) | Number (n : N).
Definition attributes := list (string * told).
(** blueprint/telemetry.rs: whether there is an exporter, and the headers that are told *)
Record telemetry : Type := { t_export : bool; t_headers : list string }.
Section Server.
  (** [format!("{:?}", value)] of a header *)
  Variable debug : string -> string.
  (** telemetry.rs:30-53 *)
  Definition new_counter (t : telemetry) (r : request) : option attributes :=
    if negb (t_export t) then None
    else Some (("url.path", Text (q_path r)) :: ("http.request.method", Text (q_method r)) ::
      flat_map (fun name => match aget name (q_headers r) with
                            | Some v => [(("http.request.header." ++ name)%string, Text (debug v))]
                            | None => []
                            end) (t_headers t)).
  (** telemetry.rs:55-59 *)
  Definition set_http_route (c : option attributes) (route : string) : option attributes :=
    option_map (fun a => a ++ [("http.route", Text route)]) c.
  (** telemetry.rs:61-68: what is added to the counter *)
  Definition update (c : option attributes) (answer : result N string) : list attributes :=
    match c with
    | Some a => [match answer with Ok status => a ++ [("http.response.status_code", Number status)] | Err _ => a end]
    | None => []
    end.
  (** The status of the answer, or an error, of each handler; endpoints that match give their path *)
  Inductive rest_case : Type := BadUri (e : string) | NoEndpoint | Endpoint (path : string).
  Variable rest_of : request -> rest_case.
  Variable rest_answer graphql_answer metrics_answer : request -> result N string.
  (** showcase.rs: an answer or a configuration; then the answer by that one *)
  Variable showcase_of : request -> result (option N) string.
  Variable showcase_answer : request -> result N string.
  Variable o : routes.
  (** request_handler.rs:249-285 *)
  Definition handle_rest_apis (r : request) (c : option attributes) : result N string * option attributes :=
    match rest_of r with
    | BadUri e => (Err e, c)
    | NoEndpoint => (Ok 404%N, c)
    | Endpoint path => (rest_answer r, set_http_route c ("/api" ++ path)%string)
    end.
  (** request_handler.rs:85-149 *)
  Definition graphql_request (answer : request -> result N string) (r : request) (c : option attributes) : result N string * option attributes :=
    (answer r, set_http_route c "/graphql").
  (** request_handler.rs:288-341 *)
  Definition handle_request_inner (r : request) (c : option attributes) : result N string * option attributes :=
    match route o (q_method r) (q_path r) with
    | RestApi => handle_rest_apis r c
    | Graphql => graphql_request graphql_answer r c
    | Showcase =>
        match showcase_of r with
        | Err e => (Err e, c)
        | Ok (Some status) => (Ok status, c)
        | Ok None => graphql_request showcase_answer r c
        end
    | Status => (Ok 200%N, c)
    | Metrics => (metrics_answer r, c)
    | NotFound => (Ok 404%N, c)
    end.
  Variable cors : bool.
  (** request_handler.rs:349-376: the answer and what is counted; headers of answers are in HeadersModel *)
  Definition handle_request (t : telemetry) (r : request) : result N string * list attributes :=
    let c := new_counter t r in
    let preflight := String.eqb (q_method r) "OPTIONS" in
    let of_tailcall := match aget "origin" (q_headers r) with
                       | Some origin => String.eqb origin "https://tailcall.run" || String.eqb origin "http://tailcall.run"
                       | None => false
                       end in
    let '(answer, c) := if (cors || of_tailcall) && preflight then (Ok 200%N, c) else handle_request_inner r c in
    (answer, update c answer).
End Server.

(** ** Requests to upstreams *)
Record upstream_request : Type := { u_method : string; u_url : string; u_version : string }.
(** [reqwest::Error]: what it says without its URL, the URL and the status *)
Record failure : Type := { f_says : string; f_url : option string; f_status : option N }.
(** [Display] of [reqwest::Error] *)
Definition display (f : failure) : string :=
  (f_says f ++ match f_url f with Some u => " for url (" ++ u ++ ")" | None => "" end)%string.
Section Client.
  Context {Response : Type}.
  Variable send : upstream_request -> result Response failure.
  Variable status : Response -> N.
  (** [Response::error_for_status]: the texts for client and server errors *)
  Variable status_says : N -> string.
  Definition error_for_status (q : upstream_request) (x : Response) : result Response failure :=
    if N.leb 400 (status x) && N.ltb (status x) 600 then Err {| f_says := status_says (status x); f_url := Some (u_url q); f_status := Some (status x) |} else Ok x.
  (** runtime/http.rs:65-71 *)
  Definition response_status (x : result Response failure) : string * told :=
    ("http.response.status_code", Number (match x with Ok x => status x | Err f => match f_status f with Some n => n | None => 0%N end end)).
  Variable http2_only : bool.
  (** runtime/http.rs:155-195, with the counter of 36-62; spans and logs are left out *)
  Definition execute (telemetry : bool) (q : upstream_request) : result Response string * list attributes :=
    let q := if http2_only then {| u_method := u_method q; u_url := u_url q; u_version := "HTTP/2.0" |} else q in
    let answer := send q in
    (match answer with
     | Err f => Err (display f)
     | Ok x => match error_for_status q x with
               | Err f => Err (display {| f_says := f_says f; f_url := None; f_status := f_status f |})
               | Ok x => Ok x
               end
     end,
     if telemetry then [[("url.full", Text (u_url q)); ("http.request.method", Text (u_method q)); ("network.protocol.version", Text (u_version q)); response_status answer]] else []).
End Client.
