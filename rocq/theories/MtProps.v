(** C98: telemetry counts every request once and tells of it only what is named. *)
From Coq Require Import String Ascii NArith Bool List.
From Verif Require Import Base StringFacts RespModel MtModel MtSpec MtProofs.
Import ListNotations.
Open Scope string_scope.

Section Props.
  Variable debug : string -> string.
  Variable rest_of : request -> rest_case.
  Variable rest_answer graphql_answer metrics_answer : request -> result N string.
  Variable showcase_of : request -> result (option N) string.
  Variable showcase_answer : request -> result N string.
  Variable o : routes.
  Variable cors : bool.
  Notation handle := (handle_request debug rest_of rest_answer graphql_answer metrics_answer showcase_of showcase_answer o cors).

  (** Without an exporter nothing is counted. *)
  Theorem C98_without_exporter : forall t r, t_export t = false -> snd (handle t r) = [].
  Proof.
    intros t r E. destruct (handle_counts debug rest_of rest_answer graphql_answer metrics_answer showcase_of showcase_answer o cors t r) as (x & H & _). now rewrite E in H.
  Qed.
  (** With one every request is counted once, also if it fails; exactly its path, its method, the first values of the headers that are named, its route and the status are told. *)
  Theorem C98_once_and_what_is_told : forall t r, t_export t = true ->
    exists a route, snd (handle t r) = [a] /\
      (forall k v, In (k, v) a <-> may_tell debug (t_headers t) r route (fst (handle t r)) k v) /\
      (forall p, route = Some p ->
        (rest_path (q_path r) /\ exists e, rest_of r = Endpoint e /\ p = "/api" ++ e) \/
        (p = "/graphql" /\ q_method r = "POST" /\ (q_path r = o_graphql o \/ q_path r = "/showcase/graphql"))).
  Proof.
    intros t r E. destruct (handle_counts debug rest_of rest_answer graphql_answer metrics_answer showcase_of showcase_answer o cors t r) as (x & H & X).
    rewrite E in H. eexists. exists x. split; [exact H|]. split.
    - intros k v. rewrite !in_app_iff, base_tells. split.
      + intros [[[-> ->]|[[-> ->]|(n & w & I & W & -> & ->)]]|[I|I]]; try now constructor.
        * destruct x as [p|]; [|destruct I]. destruct I as [[= <- <-]|[]]. now constructor.
        * destruct (fst (handle t r)) as [n|e]; [|destruct I]. destruct I as [[= <- <-]|[]]. now constructor.
      + destruct 1 as [| |n w I W|p ->|n ->]; [auto 6|auto 6| |right; left; now left|right; right; now left]. left. right. right. exists n, w. auto.
    - intros p ->. destruct X as [[=]|X]. unfold taken, handle_request_inner, handle_rest_apis, graphql_request in X.
      pose proof (route_is o (q_method r) (q_path r)) as R. destruct (route o (q_method r) (q_path r)); try discriminate X.
      + left. split; [exact R|]. destruct (rest_of r) as [e| |e]; try discriminate X. injection X as ->. eauto.
      + right. assert (p = "/graphql") as -> by (cbn in X; congruence). destruct R. auto.
      + right. destruct (showcase_of r) as [[n|]|e]; try discriminate X. assert (p = "/graphql") as -> by (cbn in X; congruence). destruct R. auto.
  Qed.
  (** Nothing else is told: requests that differ in other headers, in their query or in their body are counted alike if they are answered alike. *)
  Theorem C98_nothing_else : forall t r1 r2,
    same_but_secrets (t_headers t) r1 r2 ->
    (forall v, header_is "origin" (q_headers r1) v <-> header_is "origin" (q_headers r2) v) ->
    rest_of r1 = rest_of r2 -> showcase_of r1 = showcase_of r2 -> fst (handle t r1) = fst (handle t r2) ->
    snd (handle t r1) = snd (handle t r2).
  Proof.
    intros t r1 r2 S OR RE SH. assert (OO : aget "origin" (q_headers r1) = aget "origin" (q_headers r2)).
    { destruct (aget "origin" (q_headers r1)) as [v|] eqn:A; [apply header_aget, OR, header_aget in A; now symmetry|].
      destruct (aget "origin" (q_headers r2)) as [v|] eqn:B; [apply header_aget, OR, header_aget in B; congruence|reflexivity]. }
    pose proof (base_same debug t r1 r2 S) as B. destruct S as (P & M & _).
    assert (C : new_counter debug t r1 = new_counter debug t r2) by (unfold new_counter; destruct (t_export t); [cbn [negb]; f_equal; exact B|reflexivity]).
    unfold handle_request. rewrite OO, M, C. destruct (_ && _)%bool; [reflexivity|].
    rewrite (inner_counts rest_of rest_answer graphql_answer metrics_answer showcase_of showcase_answer o r1), (inner_counts rest_of rest_answer graphql_answer metrics_answer showcase_of showcase_answer o r2).
    assert (T : taken rest_of rest_answer graphql_answer metrics_answer showcase_of showcase_answer o r1 = taken rest_of rest_answer graphql_answer metrics_answer showcase_of showcase_answer o r2).
    { unfold taken, handle_request_inner, handle_rest_apis, graphql_request. rewrite P, M, RE, SH. destruct (route o _ _); try reflexivity; [destruct (rest_of r2); reflexivity|destruct (showcase_of r2) as [[n|]|e]; reflexivity]. }
    cbn [fst snd]. rewrite T. intros ->. reflexivity.
  Qed.
End Props.

Section Client.
  Context {Response : Type}.
  Variable send : upstream_request -> result Response failure.
  Variable status : Response -> N.
  Variable status_says : N -> string.
  Variable http2_only : bool.
  Notation execute := (execute send status status_says http2_only).
  (** Whether requests are counted changes nothing of the answer. *)
  Theorem C98_telemetry_is_passive : forall q, fst (execute true q) = fst (execute false q) /\ snd (execute false q) = [].
  Proof. intros q. split; reflexivity. Qed.
  (** A request to an upstream is counted once, with the status of the answer, or with 0 if there is none. *)
  Theorem C98_upstream_once : forall q, exists a q', snd (execute true q) = [a] /\ u_url q' = u_url q /\ u_method q' = u_method q /\
    In ("url.full", Text (u_url q)) a /\ In ("http.request.method", Text (u_method q)) a /\
    (forall x, send q' = Ok x -> In ("http.response.status_code", Number (status x)) a) /\
    (forall f, send q' = Err f -> f_status f = None -> In ("http.response.status_code", Number 0) a).
  Proof.
    intros q. unfold MtModel.execute. cbn [snd]. set (q' := if http2_only then _ else _).
    assert (Q : u_url q' = u_url q /\ u_method q' = u_method q) by (unfold q'; destruct http2_only; split; reflexivity). destruct Q as [Q1 Q2].
    eexists. exists q'. split; [reflexivity|]. split; [exact Q1|]. split; [exact Q2|]. rewrite Q1, Q2. unfold response_status.
    split; [now left|]. split; [right; now left|]. split; [intros x ->; right; right; right; now left|]. intros f -> F. rewrite F. right. right. right. now left.
  Qed.
  (** Errors that an upstream answers with are told without the URL of the request: what is told depends on the status alone. *)
  Theorem C98_statuses_without_url_partial : forall telemetry q n,
    (forall q', u_url q' = u_url q -> exists x, send q' = Ok x /\ status x = n) -> (400 <= n < 600)%N ->
    fst (execute telemetry q) = Err (status_says n).
  Proof.
    intros telemetry q n A [L H]. apply N.leb_le in L. apply N.ltb_lt in H. unfold MtModel.execute. cbn [fst]. set (q' := if http2_only then _ else _).
    destruct (A q') as (x & E & S); [unfold q'; destruct http2_only; reflexivity|]. rewrite E. unfold error_for_status. rewrite S, L, H. cbn [andb f_says]. unfold display. cbn [f_says f_url]. now rewrite str_app_nil_r.
  Qed.
  (** Any other answer is passed on. *)
  Theorem C98_answers_are_passed_on : forall telemetry q x,
    (forall q', u_url q' = u_url q -> send q' = Ok x) -> (status x < 400 \/ 600 <= status x)%N -> fst (execute telemetry q) = Ok x.
  Proof.
    intros telemetry q x A S. unfold MtModel.execute. cbn [fst]. set (q' := if http2_only then _ else _). rewrite (A q') by (unfold q'; destruct http2_only; reflexivity).
    unfold error_for_status. assert (E : (N.leb 400 (status x) && N.ltb (status x) 600)%bool = false); [|now rewrite E]. apply andb_false_iff. rewrite N.leb_gt, N.ltb_ge. exact S.
  Qed.
End Client.

(** The full claim fails: if an upstream cannot be reached the error has the URL, with what is secret in it (runtime/http.rs:187-191). *)
Definition unreached (q : upstream_request) : result nat failure := Err {| f_says := "error sending request"; f_url := Some (u_url q); f_status := None |}.
Definition asks (key : string) : upstream_request := {| u_method := "GET"; u_url := "http://up/users?key=" ++ key; u_version := "HTTP/1.1" |}.
Theorem C98_urls_refuted : fst (execute unreached (fun _ => 0%N) (fun _ => "") false false (asks "s3cret")) = Err "error sending request for url (http://up/users?key=s3cret)".
Proof. reflexivity. Qed.
Example C98_status_example : fst (execute (fun _ => Ok 503%N) (fun n => n) (fun _ => "HTTP status server error (503)") true true (asks "s3cret")) = Err "HTTP status server error (503)".
Proof. reflexivity. Qed.
(** The route of GraphQL is told as /graphql wherever it is (request_handler.rs:90). *)
Definition get (path : string) (headers : list (string * string)) : request := {| q_method := "POST"; q_path := path; q_query := "token=1"; q_headers := headers; q_body := "{}" |}.
Definition a_handle (endpoint : string) (r : request) : result N string * list attributes :=
  handle_request (fun s => """" ++ s ++ """") (fun _ => Endpoint "/users/$id") (fun _ => Ok 200%N) (fun _ => Ok 200%N) (fun _ => Ok 200%N) (fun _ => Err "") (fun _ => Ok 200%N)
    {| o_graphql := endpoint; o_status := "/status"; o_showcase := false; o_metrics := None |} true {| t_export := true; t_headers := ["x-team"] |} r.
Theorem C98_route_refuted : exists a, snd (a_handle "/v1/query" (get "/v1/query" [])) = [a] /\ In ("http.route", Text "/graphql") a /\ ~ In ("http.route", Text "/v1/query") a.
Proof. eexists. split; [reflexivity|]. split; [cbn; auto|]. cbn. intros [H|[H|[H|[H|[]]]]]; discriminate H. Qed.
Example C98_example : snd (a_handle "/graphql" (get "/api/users/1" [("authorization", "s3cret"); ("x-team", "a"); ("x-team", "b")])) =
  [[("url.path", Text "/api/users/1"); ("http.request.method", Text "POST"); ("http.request.header.x-team", Text """a"""); ("http.route", Text "/api/users/$id"); ("http.response.status_code", Number 200)]].
Proof. reflexivity. Qed.
Example C98_secrets_example : same_but_secrets ["x-team"] (get "/graphql" [("authorization", "s3cret"); ("x-team", "a")]) (get "/graphql" [("x-team", "a"); ("cookie", "1")]).
Proof.
  split; [reflexivity|]. split; [reflexivity|]. intros n v [<- |[]]. split; intros H; [apply header_aget in H|apply header_aget in H]; apply header_aget; exact H.
Qed.

Print Assumptions C98_without_exporter.
Print Assumptions C98_once_and_what_is_told.
Print Assumptions C98_nothing_else.
Print Assumptions C98_telemetry_is_passive.
Print Assumptions C98_upstream_once.
Print Assumptions C98_statuses_without_url_partial.
Print Assumptions C98_answers_are_passed_on.
Print Assumptions C98_urls_refuted.
Print Assumptions C98_route_refuted.
