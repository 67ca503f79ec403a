(** C29: CORS; C39: forwarded request headers. *)
From Coq Require Import String Ascii ZArith NArith Bool Lia Arith List.
From Verif Require Import Base BaseFacts HeadersModel HeadersSpec HeadersProofs.
Import ListNotations.
Open Scope string_scope.
Open Scope list_scope.

(** * C29 *)

(** An allow-origin header names the origin of the request, and only one the accepted
    configuration allows.  [inner]: the headers the answer has without CORS. *)
Theorem C29_only_allowed_origins k c inner r v :
  cors_of k = Ok c -> (forall x, ~ In (acao, x) inner) ->
  In (acao, v) (with_cors c inner r) ->
  h_get "origin" (q_headers r) = Some v /\ (In v (k_origins k) \/ In "*" (k_origins k)).
Proof. exact (origin_allowed k c inner r v). Qed.
Print Assumptions C29_only_allowed_origins.

Theorem C29_allowed_origins_are_answered k c inner r v :
  cors_of k = Ok c -> h_get "origin" (q_headers r) = Some v -> In v (k_origins k) \/ In "*" (k_origins k) ->
  In (acao, v) (with_cors c inner r).
Proof. exact (allowed_origin_answered k c inner r v). Qed.
Print Assumptions C29_allowed_origins_are_answered.

(** Next to credentials no wildcard is sent for origin, methods, headers or exposed
    headers. *)
Theorem C29_no_wildcard_with_credentials k c inner r :
  cors_of k = Ok c -> (forall n x, In n wildcard_headers -> ~ In (n, x) inner) -> (forall x, ~ In (acac, x) inner) ->
  In (acac, "true") (with_cors c inner r) ->
  forall n, In n wildcard_headers -> ~ In (n, "*") (with_cors c inner r).
Proof. exact (no_wildcards k c inner r). Qed.
Print Assumptions C29_no_wildcard_with_credentials.

Theorem C29_wildcards_refused_at_start k :
  k_credentials k = Some true ->
  In "*" (k_origins k) \/ k_methods k = [] \/ k_headers k = ["*"] \/ k_expose k = ["*"] ->
  is_ok (cors_of k) = false.
Proof. exact (wildcard_refused k). Qed.
Print Assumptions C29_wildcards_refused_at_start.

(** Without a configuration only the vendor's own site gets an allow-origin header. *)
Theorem C29_without_configuration inner r v :
  (forall x, ~ In (acao, x) inner) -> In (acao, v) (answer_headers None inner r) ->
  v = "https://tailcall.run" /\
  exists o, h_get "origin" (q_headers r) = Some o /\ (o = "https://tailcall.run" \/ o = "http://tailcall.run").
Proof. exact (no_cors_origin inner r v). Qed.
Print Assumptions C29_without_configuration.

Definition k29 (headers : list string) : cors_config :=
  {| k_credentials := Some true; k_headers := headers; k_methods := ["GET"; "POST"];
     k_origins := ["https://a.example"]; k_private_network := None; k_expose := []; k_vary := ["origin"] |}.
Definition r29 (o : string) (b : bool) : http_request := {| q_options := b; q_headers := [("origin", o)] |}.
Example k29_accepted : exists c, cors_of (k29 ["x-a"]) = Ok c /\
  with_cors c [] (r29 "https://a.example" true) =
    [(acao, "https://a.example"); (acac, "true"); ("vary", "origin");
     ("access-control-allow-methods", "GET, POST"); ("access-control-allow-headers", "x-a")] /\
  h_get acao (with_cors c [] (r29 "https://evil.example" true)) = None.
Proof. eexists. split; [reflexivity|]. split; reflexivity. Qed.

(** A wildcard that is one item of several is accepted next to credentials. *)
Theorem C29_wildcard_in_a_list_refuted :
  exists k c r, cors_of k = Ok c /\ In "*" (k_headers k) /\ In (acac, "true") (with_cors c [] r) /\
    In ("access-control-allow-headers", "*, x-a") (with_cors c [] r).
Proof.
  exists (k29 ["*"; "x-a"]). eexists. exists (r29 "https://a.example" true).
  split; [reflexivity|]. split; [now left|]. split; cbn; auto 9.
Qed.
Print Assumptions C29_wildcard_in_a_list_refuted.

(** A static response header is not checked: it may add a wildcard origin next to
    credentials, for origins that are not allowed. *)
Theorem C29_static_headers_bypass_refuted :
  exists k c inner r, cors_of k = Ok c /\ ~ In "*" (k_origins k) /\
    h_get "origin" (q_headers r) = Some "https://evil.example" /\ ~ In "https://evil.example" (k_origins k) /\
    In (acac, "true") (with_cors c inner r) /\ In (acao, "*") (with_cors c inner r).
Proof.
  exists (k29 []). eexists. exists [(acao, "*")], (r29 "https://evil.example" false).
  split; [reflexivity|]. split; [intros [H|[]]; discriminate|]. split; [reflexivity|].
  split; [intros [H|[]]; discriminate|]. split; cbn; auto 9.
Qed.
Print Assumptions C29_static_headers_bypass_refuted.

(** * C39 *)

(** Exactly the headers on the list are copied, each with its last value. *)
Theorem C39_copied_headers hs allowed n v :
  In (n, v) (create_allowed_headers hs allowed) <-> last_value hs n v /\ on_list allowed n.
Proof. exact (allowed_iff allowed hs n v). Qed.
Print Assumptions C39_copied_headers.

(** When no header is repeated these are exactly the allowed headers of the request. *)
Theorem C39_exactly_the_allowed_headers_partial hs allowed n v :
  NoDup (map fst hs) ->
  (In (n, v) (create_allowed_headers hs allowed) <-> In (n, v) hs /\ on_list allowed n).
Proof. intros D. rewrite (nodup_last_value hs n v D). exact (allowed_iff allowed hs n v). Qed.
Print Assumptions C39_exactly_the_allowed_headers_partial.

(** Nothing else of the client reaches an upstream call: a header sent upstream is on
    the allow-list, or configured, or the content type. *)
Theorem C39_nothing_else_is_forwarded get form configured hs allowed n v :
  In (n, v) (set_headers get form (create_headers configured) (create_allowed_headers hs allowed)) ->
  (In (n, v) hs /\ on_list allowed n) \/ In (n, v) configured \/
  (get = false /\ n = "content-type" /\ (v = "application/json" \/ v = "application/x-www-form-urlencoded")).
Proof.
  intros H. apply set_headers_in in H as [H|[_ [H|(G & -> & ->)]]].
  - left. apply allowed_iff in H as [L O]. split; [now apply last_value_in|exact O].
  - right. left. now apply create_headers_in.
  - right. right. split; [exact G|]. split; [reflexivity|]. destruct form; auto.
Qed.
Print Assumptions C39_nothing_else_is_forwarded.

(** Every allowed header of the request is sent, and replaces a configured one. *)
Theorem C39_allowed_headers_are_sent get form configured hs allowed n :
  In n (map fst hs) -> on_list allowed n ->
  exists v, In (n, v) hs /\
    forall w, In (n, w) (set_headers get form (create_headers configured) (create_allowed_headers hs allowed)) <-> w = v.
Proof.
  intros I O. destruct (in_last_value hs n I) as [v L]. exists v. split; [now apply last_value_in|].
  assert (A : In (n, v) (create_allowed_headers hs allowed)) by (apply allowed_iff; auto).
  intros w. split.
  - intros H. apply set_headers_in in H as [H|[N _]].
    + apply allowed_iff in H as [L' _].
      destruct L as (a & b & E & Na), L' as (a' & b' & E' & Nb). rewrite E in E'.
      clear - E' Na Nb. revert a' E'. induction a as [|p a IH]; intros [|p' a'] E'; cbn in E'.
      * congruence.
      * exfalso. injection E' as _ ->. apply Na. rewrite map_app. apply in_app_iff. right. now left.
      * exfalso. injection E' as _ E'. apply Nb. rewrite <- E', map_app. apply in_app_iff. right. now left.
      * injection E' as _ E'. eauto.
    + exfalso. apply N. change n with (fst (n, v)). now apply in_map.
  - intros ->. now apply set_headers_client.
Qed.
Print Assumptions C39_allowed_headers_are_sent.

Example C39_case : create_allowed_headers [("authorization", "t"); ("cookie", "c"); ("x-a", "1")] ["Authorization"; "X-A"]
                   = [("authorization", "t"); ("x-a", "1")].
Proof. reflexivity. Qed.

(** Of a repeated header only the last value is forwarded. *)
Theorem C39_repeated_values_lost_refuted :
  exists hs allowed n v, In (n, v) hs /\ on_list allowed n /\ ~ In (n, v) (create_allowed_headers hs allowed).
Proof.
  exists [("x-forwarded-for", "1.1.1.1"); ("x-forwarded-for", "2.2.2.2")], ["X-Forwarded-For"], "x-forwarded-for", "1.1.1.1".
  split; [now left|]. split.
  - apply on_list_iff. reflexivity.
  - cbn. intros [H|[]]; discriminate.
Qed.
Print Assumptions C39_repeated_values_lost_refuted.
