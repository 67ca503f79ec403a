(** Vocabulary for what telemetry tells of requests (C98). *)
From Coq Require Import String Ascii NArith Bool List.
From Verif Require Import Base MtModel.
Import ListNotations.
Open Scope string_scope.

(** The first value of a header *)
Inductive header_is (name : string) : list (string * string) -> string -> Prop :=
| header_here : forall v l, header_is name ((name, v) :: l) v
| header_later : forall n w l v, n <> name -> header_is name l v -> header_is name ((n, w) :: l) v.
(** What may be told of a request: its path and method, the headers that are named, the route it took and the status of the answer *)
Inductive may_tell (debug : string -> string) (named : list string) (r : request) (route : option string) (answer : result N string) : string -> told -> Prop :=
| tell_path : may_tell debug named r route answer "url.path" (Text (q_path r))
| tell_method : may_tell debug named r route answer "http.request.method" (Text (q_method r))
| tell_header : forall n v, In n named -> header_is n (q_headers r) v -> may_tell debug named r route answer ("http.request.header." ++ n) (Text (debug v))
| tell_route : forall p, route = Some p -> may_tell debug named r route answer "http.route" (Text p)
| tell_status : forall n, answer = Ok n -> may_tell debug named r route answer "http.response.status_code" (Number n).
(** Routes that are told: of endpoints that match, and of GraphQL *)
Definition rest_path (path : string) : Prop := exists t, path = "/api" ++ t.
(** Two requests that differ at most in what is not to be told *)
Definition same_but_secrets (named : list string) (r1 r2 : request) : Prop :=
  q_path r1 = q_path r2 /\ q_method r1 = q_method r2 /\
  forall n v, In n named -> (header_is n (q_headers r1) v <-> header_is n (q_headers r2) v).
