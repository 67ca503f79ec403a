(** C99: REST endpoints are what the operations say. *)
From Coq Require Import String Ascii ZArith NArith Bool List Permutation.
From Verif Require Import Base BaseFacts JsonModel RestModel RdModel RdSpec RdProofs.
Import ListNotations.
Open Scope string_scope.

(** A directive that is read says what was read: the path, the method in any case, all variables of the query and the variable of the body. *)
Theorem C99_read_as_written : forall args path method query body,
  given_once args -> objects_once args -> read_rest args = Ok (path, method, query, body) -> says args path method query body.
Proof. exact read_ok. Qed.
(** A directive with a path and a method is read. *)
Theorem C99_written_is_read : forall args path n method,
  given_once args -> In ("path", AStr path) args -> In ("method", AName n) args -> names_method n method -> http_method method ->
  exists query body, read_rest args = Ok (path, method, query, body).
Proof. exact read_written. Qed.
(** If something is said to be missing then it is. *)
Theorem C99_missing : forall args msg, given_once args -> read_rest args = Err (Missing msg) ->
  (msg = "Path not provided in the directive" /\ (forall a, ~ In ("path", a) args) /\ exists a, In ("method", a) args) \/
  (msg = "Method not provided in the directive" /\ (forall a, ~ In ("method", a) args) /\ exists a, In ("path", a) args) \/
  (msg = "Method and Path not provided in the directive" /\ (forall a, ~ In ("path", a) args) /\ forall a, ~ In ("method", a) args).
Proof. exact read_missing. Qed.
(** Every operation with the directive is an endpoint, and no other is. *)
Theorem C99_endpoints : forall ops es, try_new ops = Ok es <-> endpoints ops es.
Proof. exact try_new_iff. Qed.
(** In whatever order the operations of a document come, the same endpoints are read; a request that fits at most one of them is answered alike. *)
Theorem C99_order_partial : forall parse_f64 ops ops' es,
  Permutation ops ops' -> try_new ops = Ok es ->
  exists es', try_new ops' = Ok es' /\ Permutation es es' /\
    forall r, unambiguous parse_f64 es r -> answers parse_f64 es r = answers parse_f64 es' r.
Proof.
  intros parse_f64 ops ops' es P E. apply try_new_iff in E. destruct (endpoints_permuted _ _ P _ E) as (es' & E' & Q). exists es'. split; [now apply try_new_iff|]. split; [exact Q|].
  intros r U. now apply answers_permuted.
Qed.
(** The check gives exactly the variables of the path, with values of their types; so the endpoints whose required variables are in the path pass. *)
Theorem C99_checked_variables_partial : forall es,
  into_checked es = true <-> forall n, In n es -> forall v, In v (p_required (n_operation n)) -> exists t, In (Param t) (e_path (n_endpoint n)) /\ v_name t = v.
Proof.
  intros es. unfold into_checked. rewrite forallb_forall. apply forall_in_iff. intros n. unfold variables_given. rewrite forallb_forall. split; intros H v I; specialize (H v I).
  - unfold amem in H. assert (X : aget v (default_variables (e_path (n_endpoint n)) []) <> None) by (intros N; rewrite N in H; discriminate H).
    apply default_given in X as [X|X]; [exact X|now destruct X].
  - unfold amem. destruct (aget v (default_variables (e_path (n_endpoint n)) [])) eqn:A; [reflexivity|]. exfalso. apply (proj2 (default_given (e_path (n_endpoint n)) [] v)); [now left|exact A].
Qed.
Theorem C99_checked_types : forall segs k x, aget k (default_variables segs []) = Some x -> exists t, In (Param t) segs /\ v_name t = k /\ of_type (v_type t) x.
Proof. intros segs k x H. apply default_typed in H as [H|H]; [exact H|discriminate]. Qed.

(** Two operations that both fit a request: which of them answers depends on the order of a hash map (endpoint.rs:44), which differs from start to start. *)
Definition op (name path : string) (types : list (string * var_type)) (required : list string) (more : list (string * arg)) : operation :=
  {| p_name := name; p_types := types; p_required := required; p_directives := [("rest", ("method", AName "get") :: ("path", AStr path) :: more)] |}.
Definition me : operation := op "me" "/user/me" [] [] [].
Definition user : operation := op "user" "/user/$id" [("id", TNamed "String")] ["id"] [].
Definition answered (ops : list operation) : option (string * list (string * value)) :=
  match try_new ops with Ok es => answers (fun _ => None) es {| u_method := "GET"; u_path := "/user/me"; u_query := [] |} | Err _ => None end.
Theorem C99_order_refuted : Permutation [me; user] [user; me] /\ answered [me; user] = Some ("me", []) /\ answered [user; me] = Some ("user", [("id", VStr "me")]).
Proof. split; [constructor|]. split; vm_compute; reflexivity. Qed.
(** An endpoint with a required variable in its query is refused by the check (endpoint.rs:98-121 looks at the path only). *)
Definition paged : operation := op "paged" "/users" [("page", TNamed "Int")] ["page"] [("query", AObject [("page", AVar "page")])].
Theorem C99_required_query_refuted : exists es, try_new [paged] = Ok es /\ into_checked es = false /\
  exists vars, answers (fun _ => None) es {| u_method := "GET"; u_path := "/users"; u_query := [("page", "2")] |} = Some ("paged", vars).
Proof. eexists. split; [vm_compute; reflexivity|]. split; [vm_compute; reflexivity|]. eexists. vm_compute. reflexivity. Qed.
(** Constants of the query or the body are left out without a word. *)
Theorem C99_constants_refuted :
  read_rest [("method", AName "GET"); ("path", AStr "/users"); ("query", AObject [("limit", AOther)]); ("body", AStr "x")] = Ok ("/users", "GET", [], None).
Proof. reflexivity. Qed.
Example C99_example : read_rest [("path", AStr "/user/$id"); ("method", AName "Post"); ("query", AObject [("a", AVar "x"); ("b", AVar "y")]); ("body", AVar "z")] = Ok ("/user/$id", "POST", [("a", "x"); ("b", "y")], Some "z").
Proof. reflexivity. Qed.
Example C99_once_example : given_once [("path", AStr "/"); ("query", AObject [("a", AVar "x")])] /\ objects_once [("path", AStr "/"); ("query", AObject [("a", AVar "x")])].
Proof.
  split; [repeat constructor; cbn; intuition discriminate|]. intros k l [E|[E|[]]]; [discriminate E|]. injection E as _ <-. repeat constructor. intros [].
Qed.
Example C99_missing_example : read_rest [("path", AStr "/")] = Err (Missing "Method not provided in the directive") /\ read_rest [("method", AStr "GET"); ("path", AStr "/")] = Err NotAMethod.
Proof. split; reflexivity. Qed.
Example C99_order_example : exists es, try_new [user; op "posts" "/posts" [] [] []] = Ok es /\ unambiguous (fun _ => None) es {| u_method := "GET"; u_path := "/user/me"; u_query := [] |} /\ into_checked es = true.
Proof.
  eexists. split; [vm_compute; reflexivity|]. split; [|reflexivity]. intros [|a1 [|a2 a]] [|b1 b] c x y E.
  - injection E as <- <- _. right. vm_compute. reflexivity.
  - injection E as _ _ E. destruct b; discriminate E.
  - injection E as _ _ E. discriminate E.
  - injection E as _ _ E. discriminate E.
  - injection E as _ _ E. destruct a; discriminate E.
  - injection E as _ _ E. destruct a; discriminate E.
Qed.

Print Assumptions C99_read_as_written.
Print Assumptions C99_written_is_read.
Print Assumptions C99_missing.
Print Assumptions C99_endpoints.
Print Assumptions C99_order_partial.
Print Assumptions C99_checked_variables_partial.
Print Assumptions C99_checked_types.
Print Assumptions C99_order_refuted.
Print Assumptions C99_required_query_refuted.
Print Assumptions C99_constants_refuted.
