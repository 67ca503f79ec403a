(** C18 and C19: REST endpoints. *)
From Coq Require Import String Ascii ZArith NArith Bool Lia Arith List.
From Verif Require Import Base BaseFacts JsonModel JsonSpec RestModel RestSpec RestProofs.
Import ListNotations.
Open Scope string_scope.
Open Scope list_scope.

(** A declared path is its pieces between slashes: "$name" is a parameter of the type of
    the variable [name], any other piece stands for itself. *)
Theorem C18_declared_shape types method path query body e :
  make_endpoint types method path query body = Ok e ->
  e_method e = method /\ exists l, cut path l /\ Forall2 (stands_for types) l (e_path e).
Proof.
  intros H. apply make_endpoint_iff in H as (segs & ps & P & _ & ->). split; [reflexivity|].
  exists (pieces path). split; [now apply cut_iff|]. now apply parse_segments_iff.
Qed.
Print Assumptions C18_declared_shape.

(** Exactly which requests an endpoint answers.  The request's segments must fit the
    declared ones one by one, but the request may stop early. *)
Theorem C18_exact_behaviour parse_f64 e r :
  (exists vars, match_endpoint parse_f64 e r = Some vars) <->
  e_method e = u_method r /\ query_readable parse_f64 (e_query e) (u_query r) /\
  exists rs p1 p2 b, cut (u_path r) rs /\ e_path e = p1 ++ p2 /\ fits parse_f64 p1 rs b.
Proof. exact (match_exact parse_f64 e r). Qed.
Print Assumptions C18_exact_behaviour.

(** The property, for requests that do not have fewer segments than declared: such a
    request matches iff it fits, and the variables are its segments. *)
Theorem C18_matches_iff_fits_partial parse_f64 e r rs :
  cut (u_path r) rs -> u_query r = [] -> length (e_path e) <= length rs ->
  forall vars, match_endpoint parse_f64 e r = Some vars ->
    e_method e = u_method r /\
    exists b, fits parse_f64 (e_path e) rs b /\ forall n, aget n vars = bound b n.
Proof. intros C Q L. exact (match_same_length parse_f64 e r rs C L Q). Qed.
Print Assumptions C18_matches_iff_fits_partial.

(** Every request that fits is matched, with its segments as variables. *)
Theorem C18_fitting_requests_match parse_f64 e r rs b :
  cut (u_path r) rs -> u_query r = [] -> e_method e = u_method r -> fits parse_f64 (e_path e) rs b ->
  exists vars, match_endpoint parse_f64 e r = Some vars /\ forall n, aget n vars = bound b n.
Proof. exact (same_length_match parse_f64 e r rs b). Qed.
Print Assumptions C18_fitting_requests_match.

(** Longer requests never match. *)
Theorem C18_longer_requests_do_not_match parse_f64 e r rs :
  cut (u_path r) rs -> length (e_path e) < length rs -> match_endpoint parse_f64 e r = None.
Proof.
  intros C L. destruct (match_endpoint parse_f64 e r) as [vars|] eqn:M; [|reflexivity].
  apply match_endpoint_iff in M as (_ & _ & rs' & p1 & p2 & b & C' & D & F & _).
  apply cut_iff in C, C'. rewrite C in C'. subst rs'. apply fits_length in F. rewrite D, app_length in L. lia.
Qed.
Print Assumptions C18_longer_requests_do_not_match.

(** Of several endpoints the first one that matches answers. *)
Theorem C18_first_match_answers parse_f64 es r n vars :
  match_set parse_f64 es r = Some (n, vars) <->
  (exists e, nth_error es n = Some e /\ match_endpoint parse_f64 e r = Some vars) /\
  forall m e, (m < n)%nat -> nth_error es m = Some e -> match_endpoint parse_f64 e r = None.
Proof. exact (match_set_some parse_f64 es r n vars). Qed.
Print Assumptions C18_first_match_answers.

(** Through the server: a call to /api/... reaches the first endpoint its path fits,
    with its segments as variables; missing: declared paths longer than the request
    and paths that contain "/api" again. *)
Theorem C18_served_partial parse_f64 es r p rs n vars :
  u_path r = String.append "/api" p -> (exists q, p = String "/" q) -> ~ contains "/api" p -> cut p rs ->
  (forall e, In e es -> (length (e_path e) <= length rs)%nat) ->
  handle_rest parse_f64 es r = Found n vars ->
  exists e b, nth_error es n = Some e /\ e_method e = u_method r /\ fits parse_f64 (e_path e) rs b /\
    (forall x, aget x vars = bound b x) /\
    forall m e', (m < n)%nat -> nth_error es m = Some e' ->
      ~ (e_method e' = u_method r /\ exists b', fits parse_f64 (e_path e') rs b').
Proof. exact (handled_exact parse_f64 es r p rs n vars). Qed.
Print Assumptions C18_served_partial.

Theorem C18_not_found parse_f64 es r p rs :
  u_path r = String.append "/api" p -> (exists q, p = String "/" q) -> ~ contains "/api" p -> cut p rs ->
  handle_rest parse_f64 es r = NotFound ->
  forall e, In e es -> ~ (e_method e = u_method r /\ exists b, fits parse_f64 (e_path e) rs b).
Proof. exact (not_found_exact parse_f64 es r p rs). Qed.
Print Assumptions C18_not_found.

(** * Witnesses *)
Definition no_float (_ : string) : option value := None.
Definition types18 : list (string * var_type) := [("id", TNamed "Int"); ("q", TNamed "String")].
Definition user18 : endpoint :=
  {| e_method := "GET"; e_path := [Literal "users"; Param {| v_type := UInt; v_name := "id" |}; Literal "posts"];
     e_query := []; e_body := None |}.
Definition get18 (p : string) : request := {| u_method := "GET"; u_path := p; u_query := [] |}.

Example user18_declared : make_endpoint types18 "GET" "/users/$id/posts" [] None = Ok user18.
Proof. reflexivity. Qed.
Example user18_answers : match_endpoint no_float user18 (get18 "/users//7/posts/") = Some [("id", VNum (NInt 7))].
Proof. reflexivity. Qed.
Example user18_served : handle_rest no_float [user18] (get18 "/api/users/-42/posts") = Found 0 [("id", VNum (NInt (-42)))].
Proof. reflexivity. Qed.
Example user18_typed : handle_rest no_float [user18] (get18 "/api/users/bob/posts") = NotFound.
Proof. reflexivity. Qed.
Example user18_range : handle_rest no_float [user18] (get18 "/api/users/9223372036854775808/posts") = NotFound.
Proof. reflexivity. Qed.
Example user18_fits : exists b, fits no_float (e_path user18) ["users"; "7"; "posts"] b /\ bound b "id" = Some (VNum (NInt 7)).
Proof.
  eexists. split.
  - apply fits_literal. apply fits_param.
    + apply reads_int with (z := 7%Z); [|lia]. exists "7", 7%N. split; [|left; auto].
      apply (digits_one "7" 7); [reflexivity|reflexivity].
    + apply fits_literal. constructor.
  - reflexivity.
Qed.

(** A request that stops early is answered too, without the missing parameters. *)
Theorem C18_shorter_requests_match_refuted :
  exists e r rs, cut (u_path r) rs /\ (length rs < length (e_path e))%nat /\
    match_endpoint no_float e r = Some [] /\ (forall b, ~ fits no_float (e_path e) rs b).
Proof.
  exists user18, (get18 "/"), []. split; [apply cut_iff; reflexivity|]. split; [cbn; lia|].
  split; [reflexivity|]. intros b F. inversion F.
Qed.
Print Assumptions C18_shorter_requests_match_refuted.

(** "/api" is removed everywhere, not only in front: another resource answers. *)
Theorem C18_api_removed_everywhere_refuted :
  exists e r p rs vars, u_path r = String.append "/api" p /\ cut p rs /\
    (forall b, ~ fits no_float (e_path e) rs b) /\ (length (e_path e) < length rs)%nat /\
    handle_rest no_float [e] r = Found 0 vars.
Proof.
  exists {| e_method := "GET"; e_path := [Literal "users"]; e_query := []; e_body := None |},
         (get18 "/api/users/api"), "/users/api", ["users"; "api"], [].
  split; [reflexivity|]. split; [apply cut_iff; reflexivity|]. split; [|split; [cbn; lia|reflexivity]].
  intros b F. inversion F as [|? ? ? ? G|]; subst. inversion G.
Qed.
Print Assumptions C18_api_removed_everywhere_refuted.

(** A path that merely begins with the letters of "/api" reaches every endpoint's
    matcher as the empty path, and so the first one of its method. *)
Theorem C18_foreign_paths_are_answered_refuted :
  exists r vars, u_path r = "/apiary" /\ handle_rest no_float [user18] r = Found 0 vars.
Proof. exists (get18 "/apiary"), []. split; reflexivity. Qed.
Print Assumptions C18_foreign_paths_are_answered_refuted.

(** * C19 *)

(** Called directly, the matcher gives every declared parameter that is present, typed.
    Missing: the declared type looked up is the one of the variable called like the
    parameter, so the two must agree; and the request that reaches the matcher has no
    query any more. *)
Theorem C19_query_parameters_partial parse_f64 types method path query body e r vars :
  make_endpoint types method path query body = Ok e ->
  match_endpoint parse_f64 e r = Some vars ->
  NoDup (map snd query) ->
  forall k v ty u x, In (k, v) query -> aget k types = aget v types ->
    aget v types = Some ty -> url_type_of ty = Some u -> given (u_query r) k = Some x ->
    exists y, aget v vars = Some y /\ reads parse_f64 u x y.
Proof.
  intros H M D k v ty u x I S1 Ht Hu G. apply make_endpoint_iff in H as (segs & ps & _ & Q & ->).
  apply query_params_iff in Q.
  assert (A : exists tv, In (k, tv) ps /\ v_name tv = v /\ v_type tv = u).
  { clear - Q I S1 Ht Hu. induction Q as [|kv [k' tv] m ps (A & B & ty' & T & U) Q IH]; [destruct I|].
    destruct I as [->|I].
    - cbn in *. subst k'. exists tv. split; [now left|]. split; [exact B|]. congruence.
    - destruct (IH I) as (tv' & J & K). exists tv'. split; [now right|exact K]. }
  destruct A as (tv & J & <- & <-).
  apply (query_variables parse_f64 _ r vars M) with (k := k); [|exact J|exact G].
  cbn [e_query]. replace (map (fun p => v_name (snd p)) ps) with (map snd query); [exact D|].
  clear - Q. induction Q as [|kv p m ps (A & B & _) Q IH]; cbn; [reflexivity|]. now rewrite B, IH.
Qed.
Print Assumptions C19_query_parameters_partial.

(** Through the server the query string has no effect whatsoever. *)
Theorem C19_query_is_ignored parse_f64 es method path q1 q2 :
  handle_rest parse_f64 es {| u_method := method; u_path := path; u_query := q1 |} =
  handle_rest parse_f64 es {| u_method := method; u_path := path; u_query := q2 |}.
Proof. exact (handler_ignores_query parse_f64 es {| u_method := method; u_path := path; u_query := q2 |} q1). Qed.
Print Assumptions C19_query_is_ignored.

Definition search19 : endpoint :=
  {| e_method := "GET"; e_path := [Literal "search"]; e_query := [("q", {| v_type := UString; v_name := "q" |})];
     e_body := None |}.
Definition ask19 (p : string) : request := {| u_method := "GET"; u_path := p; u_query := [("q", "cats")] |}.
Example search19_declared : make_endpoint types18 "GET" "/search" [("q", "q")] None = Ok search19.
Proof. reflexivity. Qed.
Example search19_matches : match_endpoint no_float search19 (ask19 "/search") = Some [("q", VStr "cats")].
Proof. reflexivity. Qed.

(** A declared, present, readable parameter does not reach the operation. *)
Theorem C19_parameters_lost_refuted :
  exists e r vars x, make_endpoint types18 "GET" "/search" [("q", "q")] None = Ok e /\
    given (u_query r) "q" = Some x /\ reads no_float UString x (VStr x) /\
    handle_rest no_float [e] r = Found 0 vars /\ aget "q" vars = None.
Proof.
  exists search19, (ask19 "/api/search"), [], "cats". repeat split; try reflexivity. constructor.
Qed.
Print Assumptions C19_parameters_lost_refuted.

(** The value is typed by the variable called like the parameter, not by the one it is
    bound to. *)
Theorem C19_typed_by_another_variable_refuted :
  exists types e r vars, aget "b" types = Some (TNamed "String") /\
    make_endpoint types "GET" "/x" [("a", "b")] None = Ok e /\
    given (u_query r) "a" = Some "7" /\ match_endpoint no_float e r = Some vars /\
    aget "b" vars = Some (VNum (NInt 7)).
Proof.
  eexists [("a", TNamed "Int"); ("b", TNamed "String")], _, {| u_method := "GET"; u_path := "/x"; u_query := [("a", "7")] |}, _.
  repeat split; reflexivity.
Qed.
Print Assumptions C19_typed_by_another_variable_refuted.

(** A parameter that is not itself called like a variable makes the declaration fail,
    although the variable it is bound to is declared. *)
Theorem C19_renamed_parameter_rejected_refuted :
  exists types, aget "text" types = Some (TNamed "String") /\
    make_endpoint types "GET" "/search" [("q", "text")] None = Err (UndefinedQueryParam "q").
Proof. exists [("text", TNamed "String")]. split; reflexivity. Qed.
Print Assumptions C19_renamed_parameter_rejected_refuted.
