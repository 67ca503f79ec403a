(** C30 (query strings), C31 (cache keys), C47 and C48 (upstream GraphQL requests). *)
From Coq Require Import String Ascii ZArith NArith Bool List.
From Verif Require Import Base JsonModel CtxModel MustacheModel MustacheSpec HeadersModel UrlModel RequestModel GqlModel CtxSpec RequestSpec RequestProofs RelatedProofs.
Import ListNotations.
Open Scope list_scope.
Open Scope string_scope.

(** * Witnesses *)
Definition json30 (v : value) : string :=
  match v with VNum (NInt z) => Z_to_string z | VStr s => """" ++ s ++ """" | _ => "?" end.
Definition rx30 : req_ext :=
  {| x_header := fun _ => None; x_var := fun n => if String.eqb n "region" then Some "eu" else None; x_env := fun _ => None;
     x_vars_json := "{}"; x_json_text := json30; x_graphql_text := json30; x_parse := fun _ => None |}.
Definition eval30 (args : list (string * value)) (hs : headers) : evaluation :=
  {| e_ext := rx30; e_headers := hs;
     e_ctx := {| c_value := None; c_args := Some args; c_over_value := None; c_over_args := None; c_is_query := true |} |}.
(** Any text that is not empty. *)
Definition base30 (s : string) : option string := if String.eqb s "" then None else Some s.
Definition arg30 (n : string) : mustache := [Expression ["args"; n]].
Definition http30 (root : mustache) (qs : list query) (enc : encoder) : http_template :=
  {| t_root := root; t_query := qs; t_method := "GET"; t_headers := []; t_body := None; t_form := false; t_encoder := enc |}.
Definition q30 (k : string) (m : mustache) (skip : bool) : query := {| qy_key := k; qy_value := m; qy_skip_empty := skip |}.
Definition url30 (t : http_template) (e : evaluation) : string :=
  match create_url base30 t e with Ok u => url_text u | Err _ => "" end.
Definition pairs30 (t : http_template) (e : evaluation) : list (string * string) :=
  match create_url base30 t e with Ok u => query_pairs u | Err _ => [] end.

(** * C30 *)

(** A list argument gives one pair for each element, in order. *)
Theorem C30_one_pair_for_each_element : forall rx key v, safe_key key ->
  (forall t, In t (element_texts rx v) -> safe_text t) ->
  form_pairs (encode_query (encode rx RepeatedKey key (Some (RawValue (Owned v))))) = map (pair key) (element_texts rx v).
Proof. intros rx key v K T. now apply repeated_read. Qed.
Print Assumptions C30_one_pair_for_each_element.

(** With commas it gives one pair holding the texts of its elements. *)
Theorem C30_one_pair_with_commas : forall rx key l texts, safe_key key ->
  Forall2 (fun x t => plain_text rx x = Some t) l texts -> Forall safe_text texts ->
  form_pairs (encode_query (encode rx CommaSeparated key (Some (RawValue (Owned (VList l)))))) = [(key, join "," texts)].
Proof.
  intros rx key l texts K F T.
  assert (X : scalar_texts rx l = texts) by (induction F as [|x t l texts X F IH]; inversion T; subst; cbn; rewrite ?X; cbn; f_equal; auto).
  cbn [encode cow_value]. rewrite list_commas_read; [now rewrite X|assumption|now rewrite X].
Qed.
Print Assumptions C30_one_pair_with_commas.

(** The query of the URL: what the configured URL already had, then every configured
    parameter in order.  The conditions exclude characters with a meaning of their own. *)
Theorem C30_query_of_the_url : forall parse_base t e u0 u gs,
  parse_url parse_base (e_render e (t_root t)) = Some u0 ->
  create_url parse_base t e = Ok u ->
  (t_query t <> [] \/ mustache_is_const (t_root t) = false) ->
  (forall k v, In (k, v) (query_pairs u0) -> v <> "" -> safe_key k /\ safe_text v) ->
  Forall2 (fun q o => safe_key (qy_key q) /\ given e (qy_value q) o /\ safe_given (e_ext e) (t_encoder t) o) (t_query t) gs ->
  u_base u = u_base u0 /\
  query_pairs u = (filter (fun kv => negb (String.eqb (snd kv) "")) (query_pairs u0)
                   ++ concat (map (fun qo => pairs_of (e_ext e) (t_encoder t) (fst qo) (snd qo)) (combine (t_query t) gs)))%list.
Proof. exact url_read. Qed.
Print Assumptions C30_query_of_the_url.

(** Every parameter is given one thing. *)
Theorem C30_every_parameter_is_given_one_thing : forall e m,
  exists o, given e m o /\ forall o', given e m o' -> o' = o.
Proof. exact given_one. Qed.
Print Assumptions C30_every_parameter_is_given_one_thing.

(** Whatever the arguments are, the query is made of characters allowed there. *)
Theorem C30_query_is_well_formed : forall parse_base t e u q,
  create_url parse_base t e = Ok u -> u_query u = Some q -> every query_char q.
Proof. exact url_chars. Qed.
Print Assumptions C30_query_is_well_formed.

(** A URL without parameters and templates is left alone. *)
Theorem C30_plain_urls_are_untouched : forall parse_base t e u0,
  t_query t = [] -> mustache_is_const (t_root t) = true ->
  parse_url parse_base (e_render e (t_root t)) = Some u0 -> create_url parse_base t e = Ok u0.
Proof. intros parse_base t e u0 Q M P. unfold create_url. now rewrite P, Q, M. Qed.
Print Assumptions C30_plain_urls_are_untouched.

Definition users30 (enc : encoder) : http_template :=
  http30 [Literal "http://api/users?v=2"] [q30 "id" (arg30 "ids") false; q30 "name" (arg30 "name") true] enc.
Definition ids30 : value := VList [VNum (NInt 1); VStr "two <3>"; VNum (NInt 3)].
Example C30_witness :
  url30 (users30 RepeatedKey) (eval30 [("ids", ids30)] []) = "http://api/users?v=2&id=1&id=two%20%3C3%3E&id=3" /\
  pairs30 (users30 RepeatedKey) (eval30 [("ids", ids30); ("name", VStr "Ann")] []) =
    [("v", "2"); ("id", "1"); ("id", "two <3>"); ("id", "3"); ("name", "Ann")] /\
  pairs30 (users30 CommaSeparated) (eval30 [("ids", ids30)] []) = [("v", "2"); ("id", "1,two <3>,3")] /\
  safe_key "id" /\ safe_text "two <3>" /\ element_texts rx30 ids30 = ["1"; "two <3>"; "3"] /\
  given (eval30 [("ids", ids30)] []) (Expression ["args"; "none"] :: arg30 "ids") (Some (inl ids30)) /\
  given (eval30 [] []) [Expression ["vars"; "region"]] (Some (inr "eu")) /\
  safe_given rx30 RepeatedKey (Some (inl ids30)).
Proof.
  do 3 (split; [reflexivity|]). split; [repeat split; discriminate|]. split; [repeat split; discriminate|]. split; [reflexivity|].
  split; [now apply given_first|]. split; [now apply given_first|]. repeat constructor; discriminate.
Qed.

(** Finding: an absent argument is not left out unless that was asked for, and even then
    null and the empty list are sent as a key without a value. *)
Theorem C30_absent_values_refuted :
  (exists t e, c_args (e_ctx e) = Some [] /\ pairs30 t e = [("id", "")]) /\
  (exists t e q, t_query t = [q] /\ qy_skip_empty q = true /\ c_args (e_ctx e) = Some [("id", VNull)] /\ pairs30 t e = [("id", "")]).
Proof.
  split.
  - exists (http30 [Literal "http://api"] [q30 "id" (arg30 "id") false] RepeatedKey), (eval30 [] []). repeat split.
  - exists (http30 [Literal "http://api"] [q30 "id" (arg30 "id") true] RepeatedKey), (eval30 [("id", VNull)] []), (q30 "id" (arg30 "id") true).
    repeat split.
Qed.
Print Assumptions C30_absent_values_refuted.

(** Finding: nothing is escaped, so an argument can add parameters of its own. *)
Theorem C30_arguments_add_parameters_refuted : exists t e,
  t_query t = [q30 "id" (arg30 "id") false] /\ c_args (e_ctx e) = Some [("id", VStr "1&admin=true")] /\
  pairs30 t e = [("id", "1"); ("admin", "true")].
Proof. exists (http30 [Literal "http://api"] [q30 "id" (arg30 "id") false] RepeatedKey), (eval30 [("id", VStr "1&admin=true")] []). repeat split. Qed.
Print Assumptions C30_arguments_add_parameters_refuted.

(** Finding: the same holds for arguments in the path. *)
Theorem C30_path_arguments_add_parameters_refuted : exists t e,
  t_query t = [] /\ c_args (e_ctx e) = Some [("id", VStr "1?admin=true")] /\ pairs30 t e = [("admin", "true")].
Proof. exists (http30 (Literal "http://api/users/" :: arg30 "id") [] RepeatedKey), (eval30 [("id", VStr "1?admin=true")] []). repeat split. Qed.
Print Assumptions C30_path_arguments_add_parameters_refuted.

(** Finding: plus and percent signs arrive changed. *)
Theorem C30_characters_change_refuted : exists t e,
  c_args (e_ctx e) = Some [("a", VStr "1+1"); ("b", VStr "%41")] /\ pairs30 t e = [("a", "1 1"); ("b", "A")].
Proof.
  exists (http30 [Literal "http://api"] [q30 "a" (arg30 "a") false; q30 "b" (arg30 "b") false] RepeatedKey),
    (eval30 [("a", VStr "1+1"); ("b", VStr "%41")] []). repeat split.
Qed.
Print Assumptions C30_characters_change_refuted.

(** Finding: a parameter already in the configured URL is decoded and not encoded again. *)
Theorem C30_configured_query_changes_refuted : exists t e u0,
  parse_url base30 (e_render e (t_root t)) = Some u0 /\ query_pairs u0 = [("q", "a&b")] /\
  pairs30 t e = [("q", "a"); ("b", ""); ("id", "7")].
Proof.
  exists (http30 [Literal "http://api?q=a%26b"] [q30 "id" (arg30 "id") false] RepeatedKey), (eval30 [("id", VNum (NInt 7))] []).
  eexists. repeat split.
Qed.
Print Assumptions C30_configured_query_changes_refuted.

(** Finding: of a value with several parts only the first is used. *)
Theorem C30_parts_are_lost_refuted : exists t e,
  t_query t = [q30 "filter" [Literal "owner:"; Expression ["args"; "id"]] false] /\
  e_render e (qy_value (q30 "filter" [Literal "owner:"; Expression ["args"; "id"]] false)) = "owner:7" /\
  pairs30 t e = [("filter", "owner:")].
Proof.
  exists (http30 [Literal "http://api"] [q30 "filter" [Literal "owner:"; Expression ["args"; "id"]] false] RepeatedKey),
    (eval30 [("id", VNum (NInt 7))] []). repeat split.
Qed.
Print Assumptions C30_parts_are_lost_refuted.

(** * C31.  [hash] is the 64-bit hash; as for any hash, different inputs are assumed to give
    different results. *)

(** Two evaluations of the same HTTP resolver with the same key send the same request. *)
Theorem C31_http_same_key_same_request : forall parse_base form_text hash, @injective (list token) Z hash ->
  forall t e1 e2 k1 k2,
  http_key_tokens parse_base t e1 = Ok k1 -> http_key_tokens parse_base t e2 = Ok k2 -> hash k1 = hash k2 ->
  to_request parse_base form_text t e1 = to_request parse_base form_text t e2.
Proof.
  intros parse_base form_text hash I t e1 e2 k1 k2 K1 K2 H. apply I in H. subst k2. now apply (http_key_inj parse_base form_text t e1 t e2 k1).
Qed.
Print Assumptions C31_http_same_key_same_request.

(** So do two different HTTP resolvers with the same body encoding. *)
Theorem C31_http_resolvers_partial : forall parse_base form_text hash, @injective (list token) Z hash ->
  forall t1 e1 t2 e2 k1 k2,
  http_key_tokens parse_base t1 e1 = Ok k1 -> http_key_tokens parse_base t2 e2 = Ok k2 -> hash k1 = hash k2 ->
  t_form t1 = t_form t2 ->
  to_request parse_base form_text t1 e1 = to_request parse_base form_text t2 e2.
Proof.
  intros parse_base form_text hash I t1 e1 t2 e2 k1 k2 K1 K2 H F. apply I in H. subst k2. now apply (http_key_inj parse_base form_text t1 e1 t2 e2 k1).
Qed.
Print Assumptions C31_http_resolvers_partial.

(** gRPC: the URL and the body are the same. *)
Theorem C31_grpc_same_url_and_body_partial : forall parse_base hash, @injective (list token) Z hash ->
  forall t1 e1 t2 e2 k1 k2 r1 r2,
  grpc_key_tokens parse_base t1 e1 = Ok k1 -> grpc_key_tokens parse_base t2 e2 = Ok k2 -> hash k1 = hash k2 ->
  grpc_request parse_base t1 e1 = Ok r1 -> grpc_request parse_base t2 e2 = Ok r2 ->
  q_url r1 = q_url r2 /\ q_body r1 = q_body r2.
Proof.
  intros parse_base hash I t1 e1 t2 e2 k1 k2 r1 r2 K1 K2 H R1 R2. apply I in H. subst k2. now apply (grpc_key_inj parse_base t1 e1 t2 e2 k1).
Qed.
Print Assumptions C31_grpc_same_url_and_body_partial.

(** GraphQL: the body is the same. *)
Theorem C31_graphql_same_body_partial : forall hash, @injective (list token) Z hash ->
  forall t1 e1 f1 t2 e2 f2,
  hash (gql_key_tokens t1 e1 f1) = hash (gql_key_tokens t2 e2 f2) -> gql_body t1 e1 f1 = gql_body t2 e2 f2.
Proof. intros hash I t1 e1 f1 t2 e2 f2 H. apply I in H. now apply gql_key_inj. Qed.
Print Assumptions C31_graphql_same_body_partial.

(** Resolvers of different kinds never share. *)
Theorem C31_kinds_do_not_share : forall parse_base hash, @injective (list token) Z hash ->
  forall t1 e1 k1 t2 e2 k2 t3 e3 f3,
  http_key_tokens parse_base t1 e1 = Ok k1 -> grpc_key_tokens parse_base t2 e2 = Ok k2 ->
  hash k1 <> hash k2 /\ hash k1 <> hash (gql_key_tokens t3 e3 f3) /\ hash k2 <> hash (gql_key_tokens t3 e3 f3).
Proof.
  intros parse_base hash I t1 e1 k1 t2 e2 k2 t3 e3 f3 H1 H2. unfold http_key_tokens in H1. unfold grpc_key_tokens in H2.
  destruct (create_url parse_base t1 e1); [|discriminate]. destruct (grpc_url parse_base t2 e2); [|discriminate].
  cbn [rbind app] in H1, H2. injection H1 as <-. injection H2 as <-. unfold gql_key_tokens.
  repeat split; intros E; apply I in E; discriminate.
Qed.
Print Assumptions C31_kinds_do_not_share.

Definition post31 (form : bool) : http_template :=
  {| t_root := [Literal "http://api/echo"]; t_query := []; t_method := "POST"; t_headers := [("x-team", arg30 "team")];
     t_body := Some (arg30 "body"); t_form := form; t_encoder := RepeatedKey |}.
Definition ann31 : headers := [("authorization", "Ann")].
Definition bob31 : headers := [("authorization", "Bob")].
Example C31_witness :
  let e := eval30 [("team", VStr "red"); ("body", VStr "{}")] ann31 in
  http_key_tokens base30 (post31 false) e =
    Ok [TMethod "POST"; TName "x-team"; TText "red"; TName "authorization"; TBytes "Ann"; TText "{}"; TText "http://api/echo"] /\
  to_request base30 (fun s => Some s) (post31 false) e =
    Ok {| q_method := "POST"; q_url := "http://api/echo";
          q_headers := [("x-team", "red"); ("content-type", "application/json"); ("authorization", "Ann")]; q_body := Some "{}" |} /\
  http_key_tokens base30 (post31 false) e <> http_key_tokens base30 (post31 false) (eval30 [("team", VStr "red"); ("body", VStr "{}")] bob31).
Proof. cbn zeta. repeat split. discriminate. Qed.

(** Finding: the body's encoding is not part of the key, so two resolvers that send
    different bodies share an answer. *)
Theorem C31_encoding_not_in_key_refuted : exists form_text t1 t2 e k,
  http_key_tokens base30 t1 e = Ok k /\ http_key_tokens base30 t2 e = Ok k /\
  to_request base30 form_text t1 e <> to_request base30 form_text t2 e.
Proof.
  exists (fun _ => Some ""), (post31 false), (post31 true), (eval30 [("team", VStr "red"); ("body", VStr "{}")] ann31). eexists.
  repeat split. discriminate.
Qed.
Print Assumptions C31_encoding_not_in_key_refuted.

Definition me31 (url : string) : gql_template :=
  {| gt_url := url; gt_kind := "query"; gt_name := "me"; gt_args := None; gt_headers := [];
     gt_related := Related [("name", ("name", Related []))]; gt_selection := None |}.
Definition name31 : gfield := GField "name" "name" "String" (Some "User") [] "" [].
Definition field31 : gfield := GField "me" "me" "User" (Some "Query") [] "" [name31].

(** Finding: for a GraphQL upstream neither the server nor the credentials of the caller are
    part of the key, so one user is answered with another user's data, or with the data of
    another server. *)
Theorem C31_graphql_credentials_refuted : exists t f e1 e2,
  gql_key_tokens t e1 f = gql_key_tokens t e2 f /\
  sent_header (gql_request base30 t e1 f) "authorization" = Some "Ann" /\
  sent_header (gql_request base30 t e2 f) "authorization" = Some "Bob".
Proof. exists (me31 "http://a"), field31, (eval30 [] ann31), (eval30 [] bob31). repeat split. Qed.
Print Assumptions C31_graphql_credentials_refuted.
Theorem C31_graphql_servers_refuted : exists t1 t2 f e r1 r2,
  gql_key_tokens t1 e f = gql_key_tokens t2 e f /\
  gql_request base30 t1 e f = Ok r1 /\ gql_request base30 t2 e f = Ok r2 /\ q_url r1 = "http://a" /\ q_url r2 = "http://b".
Proof. exists (me31 "http://a"), (me31 "http://b"), field31, (eval30 [] []). do 2 eexists. repeat split. Qed.
Print Assumptions C31_graphql_servers_refuted.

(** Finding: for gRPC the headers are not part of the key. *)
Theorem C31_grpc_credentials_refuted : exists t e1 e2 k,
  grpc_key_tokens base30 t e1 = Ok k /\ grpc_key_tokens base30 t e2 = Ok k /\
  sent_header (grpc_request base30 t e1) "authorization" = Some "Ann" /\
  sent_header (grpc_request base30 t e2) "authorization" = Some "Bob".
Proof.
  exists {| g_url := [Literal "http://api/me"]; g_headers := []; g_body := None |}, (eval30 [] ann31), (eval30 [] bob31).
  eexists. repeat split.
Qed.
Print Assumptions C31_grpc_credentials_refuted.

(** * C53 *)

(** An HTTP call is made with the configured method, the URL of C30 and, if a body is
    configured, the rendered template or what the form encoding makes of it. *)
Theorem C53_http_call_is_the_configured_one : forall parse_base form_text t e r,
  to_request parse_base form_text t e = Ok r ->
  q_method r = t_method t /\
  (exists u, create_url parse_base t e = Ok u /\ q_url r = url_text u) /\
  match t_body t with
  | None => q_body r = None
  | Some m => exists s, rendered (e_string e) m s /\
                (if t_form t then exists f, form_text s = Some f /\ q_body r = Some f else q_body r = Some s)
  end.
Proof. exact http_sent. Qed.
Print Assumptions C53_http_call_is_the_configured_one.

(** It is not made only if the URL is none, or a body cannot be encoded as a form. *)
Theorem C53_when_no_http_call_is_made : forall parse_base form_text t e,
  (forall r, to_request parse_base form_text t e <> Ok r) <->
  (forall s, rendered (e_string e) (t_root t) s -> parse_url parse_base s = None) \/
  (exists m s, t_body t = Some m /\ t_form t = true /\ rendered (e_string e) m s /\ form_text s = None).
Proof. exact http_not_sent. Qed.
Print Assumptions C53_when_no_http_call_is_made.

(** A gRPC call is a POST to the rendered URL with the rendered message; without a configured
    message it is the empty one. *)
Theorem C53_grpc_call_is_the_configured_one : forall parse_base t e r,
  grpc_request parse_base t e = Ok r ->
  q_method r = "POST" /\
  (exists s u, rendered (e_string e) (g_url t) s /\ parse_url parse_base s = Some u /\ q_url r = url_text u) /\
  match g_body t with
  | None => q_body r = Some "{}"
  | Some m => exists s, rendered (e_string e) m s /\ q_body r = Some s
  end.
Proof. exact grpc_sent. Qed.
Print Assumptions C53_grpc_call_is_the_configured_one.

Example C53_witness :
  let e := eval30 [("team", VStr "red"); ("body", VStr "{}")] ann31 in
  to_request base30 (fun s => Some ("form:" ++ s)) (post31 true) e =
    Ok {| q_method := "POST"; q_url := "http://api/echo";
          q_headers := [("x-team", "red"); ("content-type", "application/x-www-form-urlencoded"); ("authorization", "Ann")];
          q_body := Some "form:{}" |} /\
  grpc_request base30 {| g_url := Literal "http://api/" :: arg30 "team"; g_headers := []; g_body := None |} e =
    Ok {| q_method := "POST"; q_url := "http://api/red";
          q_headers := [("content-type", "application/grpc"); ("authorization", "Ann")]; q_body := Some "{}" |}.
Proof. split; reflexivity. Qed.

(** Finding: if the client may send a content type, it replaces that of a gRPC call (or of
    any call with a body). *)
Theorem C53_content_type_of_the_client_refuted : exists t e r,
  grpc_request base30 t e = Ok r /\ h_get "content-type" (q_headers r) = Some "application/json".
Proof.
  exists {| g_url := [Literal "http://api/me"]; g_headers := []; g_body := None |},
    (eval30 [] [("content-type", "application/json")]). eexists. split; reflexivity.
Qed.
Print Assumptions C53_content_type_of_the_client_refuted.

(** Finding: a header template for a GraphQL upstream is rendered as if it were part of a
    GraphQL document, so its value arrives in quotes. *)
Theorem C53_graphql_headers_are_quoted_refuted : exists t e f m,
  gt_headers t = [("x-region", m)] /\ e_render e m = "eu" /\
  sent_header (gql_request base30 t e f) "x-region" = Some """eu""".
Proof.
  exists {| gt_url := "http://a"; gt_kind := "query"; gt_name := "me"; gt_args := None;
            gt_headers := [("x-region", [Expression ["vars"; "region"]])];
            gt_related := Related []; gt_selection := None |}, (eval30 [] []), field31, [Expression ["vars"; "region"]].
  repeat split.
Qed.
Print Assumptions C53_graphql_headers_are_quoted_refuted.

(** * C47 *)

(** The body sent to an upstream GraphQL server is a JSON text that carries the operation as
    rendered, if the texts consist of ordinary characters. *)
Theorem C47_body_carries_the_operation_partial : forall parse_base t e f q args,
  gql_request parse_base t e f = Ok q ->
  every json_plain (gt_kind t) -> every json_plain (gt_name t) ->
  Forall2 (fun a b => fst a = fst b /\ rendered (path_graphql (e_ext e) (e_ctx e)) (snd a) (snd b))
    (match gt_args t with Some l => l | None => [] end) args ->
  (forall n v, In (n, v) args -> every json_plain n /\ every ordinary v) ->
  ordinary_field f -> plain_related (gt_related t) ->
  forall sel, match gt_selection t with
              | Some s => json_chars s sel
              | None => sel = match format_selection_set (fun s => s) (s_selection (from_jit_field f)) (gt_related t) with Some s => s | None => "" end
              end ->
  q_method q = "POST" /\ exists body, q_body q = Some body /\ carries body (asked (gt_kind t) (gt_name t) args (f_directives f) sel).
Proof. exact gql_posts. Qed.
Print Assumptions C47_body_carries_the_operation_partial.

Definition user47 : gql_template :=
  {| gt_url := "http://a"; gt_kind := "query"; gt_name := "user"; gt_args := Some [("name", arg30 "name")]; gt_headers := [];
     gt_related := Related [("name", ("name", Related [])); ("pic", ("pic", Related []))]; gt_selection := None |}.
Definition pic47 : gfield := GField "pic" "pic" "String" (Some "User") [("kind", Some """big"""); ("size", None)] "" [].
Definition field47 : gfield := GField "user" "user" "User" (Some "Query") [] "" [name31; pic47].
Example C47_witness :
  let e := eval30 [("name", VStr "Ann")] [] in
  gql_body user47 e field47 = "{ ""query"": ""query { user(name: \""Ann\"") { name pic(kind: \""big\"") } }"" }" /\
  gql_operation (fun s => s) user47 e field47 = "query { user(name: ""Ann"") { name pic(kind: ""big"") } }" /\
  ordinary_field field47 /\ plain_related (gt_related user47) /\
  Forall2 (fun a b => fst a = fst b /\ rendered (path_graphql (e_ext e) (e_ctx e)) (snd a) (snd b)) [("name", arg30 "name")] [("name", """Ann""")] /\
  (exists q, gql_request base30 user47 e field47 = Ok q).
Proof.
  cbn zeta. split; [reflexivity|]. split; [reflexivity|]. split; [|split; [|split]].
  - constructor; cbn; [reflexivity|tauto|]. intros g [<-|[<-|[]]]; constructor; cbn; try reflexivity; try tauto.
    intros n v [[= <- <-]|[E|[]]]; [split; reflexivity|discriminate].
  - assert (E : plain_related (Related [])) by (constructor; intros k n r []).
    constructor. intros k n r [[= <- <- <-]|[[= <- <- <-]|[]]]; (split; [reflexivity|exact E]).
  - constructor; [|constructor]. split; [reflexivity|]. apply (R_present _ _ """Ann""" [] ""); [reflexivity|constructor].
  - eexists. vm_compute. reflexivity.
Qed.

(** Finding: an apostrophe, or a character beyond ASCII, makes the body invalid JSON. *)
Theorem C47_apostrophes_refuted : exists t e f,
  c_args (e_ctx e) = Some [("name", VStr "O'Hara")] /\ forall op, ~ carries (gql_body t e f) op.
Proof.
  exists user47, (eval30 [("name", VStr "O'Hara")] []), field47. split; [reflexivity|]. intros op (content & E & J).
  apply json_scan in J.
  assert (X : content = "query { user(name: \""O\'Hara\"") { name pic(kind: \""big\"") } }").
  { change (gql_body user47 (eval30 [("name", VStr "O'Hara")] []) field47) with
      ("{ ""query"": """ ++ "query { user(name: \""O\'Hara\"") { name pic(kind: \""big\"") } }" ++ """ }") in E.
    cbn [String.append] in E. injection E as E. symmetry.
    apply (quoted_inj "query { user(name: \""O\'Hara\"") { name pic(kind: \""big\"") } }" content). exact E. }
  subst content. discriminate.
Qed.
Print Assumptions C47_apostrophes_refuted.

(** * C48 *)

(** The selection sent upstream is the client's own, if it has no aliases and the types below
    the field are met at most once. *)
Theorem C48_selection_is_forwarded_partial : forall c f l,
  unfolds c (f_type f) l -> NoDup l -> selects c f ->
  format_selection_set (fun s => s) (s_selection (from_jit_field f)) (related_fields c (f_type f)) =
  selection_text (map client_text (filter (meant_for (f_type f)) (f_selection f))).
Proof. exact selection_sent. Qed.
Print Assumptions C48_selection_is_forwarded_partial.

(** A field is asked for by the name the upstream knows, whether or not it was renamed; fields
    with resolvers of their own and omitted fields are not asked for; the fields of a union
    are those of its members. *)
Theorem C48_names_asked_upstream_partial : forall c T k n,
  ((exists r, related_get (related_fields c T) k = Some (n, r)) -> offers c T k n) /\
  (forall fields, aget T (g_types c) = Some fields -> (forall n', offers c T k n' -> n' = n) -> offers c T k n ->
     exists r, related_get (related_fields c T) k = Some (n, r)).
Proof. exact related_names. Qed.
Print Assumptions C48_names_asked_upstream_partial.
Definition renamed48 : gconfig :=
  {| g_types := [("User", [("id", {| cf_type := "ID"; cf_resolver := false; cf_modify := Some (Some "key") |});
                           ("posts", {| cf_type := "Post"; cf_resolver := true; cf_modify := None |});
                           ("secret", {| cf_type := "String"; cf_resolver := false; cf_modify := Some None |})])];
     g_unions := [("Any", ["User"])] |}.
Example C48_renamed_witness : related_fields renamed48 "User" = Related [("key", ("id", Related []))] /\
  related_fields renamed48 "Any" = Related [("key", ("id", Related []))] /\
  offers renamed48 "User" "key" "id" /\ (forall n, offers renamed48 "User" "key" n -> n = "id").
Proof.
  split; [reflexivity|]. split; [reflexivity|]. split.
  - eapply (offers_field _ "User"); [reflexivity|left; reflexivity|reflexivity|now right].
  - intros n O. inversion O as [T fs n' f k H I R M|T ms U k n' H]; subst; [|discriminate]. injection H as <-.
    destruct I as [E|[E|[E|[]]]]; injection E as <- <-; [reflexivity|discriminate|destruct M as [[M _]|M]; discriminate].
Qed.

(** Finding: the fields of a member of a union are not asked for if an earlier member holds
    that type. *)
Definition holding48 : gconfig :=
  {| g_types := [("Post", [("author", {| cf_type := "User"; cf_resolver := false; cf_modify := None |})]);
                 ("User", [("name", {| cf_type := "String"; cf_resolver := false; cf_modify := None |})])];
     g_unions := [("Any", ["Post"; "User"])] |}.
Theorem C48_union_members_refuted : exists c T k n, offers c T k n /\ related_get (related_fields c T) k = None.
Proof.
  exists holding48, "Any", "name", "name". split; [|reflexivity].
  eapply offers_member; [reflexivity|reflexivity|right; left; reflexivity|].
  eapply (offers_field _ "User"); [reflexivity|left; reflexivity|reflexivity|now left].
Qed.
Print Assumptions C48_union_members_refuted.

Definition cf48 (t : string) : cfield := {| cf_type := t; cf_resolver := false; cf_modify := None |}.
Definition conf48 : gconfig :=
  {| g_types := [("Post", [("author", cf48 "User"); ("editor", cf48 "User"); ("tag", cf48 "Tag"); ("title", cf48 "String")]);
                 ("Tag", [("name", cf48 "String")]); ("User", [("name", cf48 "String")]);
                 ("Page", [("tag", cf48 "Tag"); ("title", cf48 "String")])];
     g_unions := [] |}.
Definition leaf48 (n t : string) : gfield := GField n n "String" (Some t) [] "" [].
Definition sub48 (n alias t of : string) (l : list gfield) : gfield := GField n alias t (Some of) [] "" l.
Example C48_witness :
  let f := sub48 "page" "page" "Page" "Query" [leaf48 "title" "Page"; sub48 "tag" "tag" "Tag" "Page" [leaf48 "name" "Tag"]] in
  unfolds conf48 (f_type f) ["Page"; "Tag"] /\ NoDup ["Page"; "Tag"] /\ selects conf48 f /\
  format_selection_set (fun s => s) (s_selection (from_jit_field f)) (related_fields conf48 "Page") = Some "{ title tag { name } }".
Proof.
  cbn zeta. assert (Us : unfolds conf48 "String" []) by (apply unfolds_scalar; reflexivity).
  assert (Ut : unfolds conf48 "Tag" ["Tag"]).
  { apply (unfolds_type conf48 "Tag" [("name", cf48 "String")] [[]]); [reflexivity|repeat constructor; intros []| |repeat constructor; exact Us].
    intros n f [[= <- <-]|[]]. split; reflexivity. }
  split; [|split; [|split; [|reflexivity]]].
  - apply (unfolds_type conf48 "Page" [("tag", cf48 "Tag"); ("title", cf48 "String")] [["Tag"]; []]);
      [reflexivity| | |constructor; [exact Ut|constructor; [exact Us|constructor]]].
    + cbn. constructor; [intros [E|[]]; discriminate|]. constructor; [intros []|constructor].
    + intros n f [[= <- <-]|[[= <- <-]|[]]]; split; reflexivity.
  - constructor; [intros [E|[]]; discriminate|]. constructor; [intros []|constructor].
  - assert (L : forall n t, selects conf48 (leaf48 n t)) by (intros n t; constructor; [reflexivity|intros g []]).
    constructor; [reflexivity|]. intros g [<-|[<-|[]]] _.
    + do 2 eexists. do 3 (split; [reflexivity|]). apply L.
    + do 2 eexists. do 3 (split; [reflexivity|]). constructor; [reflexivity|]. intros h [<-|[]] _.
      do 2 eexists. do 3 (split; [reflexivity|]). apply L.
Qed.

(** Finding: a field with an alias is not asked for at all. *)
Theorem C48_aliases_refuted : exists c f,
  f_selection f = [sub48 "title" "headline" "String" "Page" []] /\
  format_selection_set (fun s => s) (s_selection (from_jit_field f)) (related_fields c (f_type f)) = None.
Proof. exists conf48, (sub48 "page" "page" "Page" "Query" [sub48 "title" "headline" "String" "Page" []]). split; reflexivity. Qed.
Print Assumptions C48_aliases_refuted.

(** Finding: of two fields of the same type only the first is asked for its fields; the other
    is sent without a selection. *)
Theorem C48_second_field_of_a_type_refuted : exists c f,
  map f_name (f_selection f) = ["author"; "editor"] /\
  (forall g, In g (f_selection f) -> map f_name (f_selection g) = ["name"]) /\
  format_selection_set (fun s => s) (s_selection (from_jit_field f)) (related_fields c (f_type f)) =
    Some "{ author { name } editor }".
Proof.
  exists conf48, (sub48 "post" "post" "Post" "Query"
    [sub48 "author" "author" "User" "Post" [leaf48 "name" "User"]; sub48 "editor" "editor" "User" "Post" [leaf48 "name" "User"]]).
  repeat split. intros g [<-|[<-|[]]]; reflexivity.
Qed.
Print Assumptions C48_second_field_of_a_type_refuted.
