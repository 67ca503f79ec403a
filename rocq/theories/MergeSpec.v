(** What merging two configurations should mean, setting by setting. *)
From Coq Require Import String Ascii ZArith NArith Bool List.
From Verif Require Import Base Ordered JsonModel TypeModel ConfigModel.
Import ListNotations.
Open Scope string_scope.
Open Scope list_scope.

(** A setting that holds one value: [Single p] for the projection [p]. *)
Definition through {A B} (o : option A) (p : A -> option B) : option B :=
  match o with Some a => p a | None => None end.
Definition through_list {A B} (o : option A) (p : A -> list B) : list B :=
  match o with Some a => p a | None => [] end.

Inductive Single : forall A, (config -> option A) -> Prop :=
| S_port : Single Z (fun c => s_port (c_server c))
| S_tracing : Single bool (fun c => s_apollo_tracing (c_server c))
| S_batch_requests : Single bool (fun c => s_batch_requests (c_server c))
| S_timeout : Single Z (fun c => s_timeout (c_server c))
| S_hostname : Single string (fun c => s_hostname (c_server c))
| S_introspection : Single bool (fun c => s_introspection (c_server c))
| S_federation : Single bool (fun c => s_federation (c_server c))
| S_flush : Single bool (fun c => s_pipeline_flush (c_server c))
| S_query_validation : Single bool (fun c => s_query_validation (c_server c))
| S_response_validation : Single bool (fun c => s_response_validation (c_server c))
| S_script_timeout : Single Z (fun c => through (s_script (c_server c)) (fun x => x))
| S_showcase : Single bool (fun c => s_showcase (c_server c))
| S_version : Single string (fun c => s_version (c_server c))
| S_workers : Single Z (fun c => s_workers (c_server c))
| S_cache_control : Single bool (fun c => through (s_headers (c_server c)) h_cache_control)
| S_set_cookies : Single bool (fun c => through (s_headers (c_server c)) h_set_cookies)
| S_cors_credentials : Single bool
    (fun c => through (s_headers (c_server c)) (fun h => through (h_cors h) co_credentials))
| S_cors_private : Single bool
    (fun c => through (s_headers (c_server c)) (fun h => through (h_cors h) co_private))
| S_cors_max_age : Single Z
    (fun c => through (s_headers (c_server c)) (fun h => through (h_cors h) co_max_age))
| S_on_request : Single string (fun c => up_on_request (c_upstream c))
| S_connect_timeout : Single Z (fun c => up_connect_timeout (c_upstream c))
| S_http_cache : Single Z (fun c => up_http_cache (c_upstream c))
| S_http2_only : Single bool (fun c => up_http2_only (c_upstream c))
| S_ka_interval : Single Z (fun c => up_keep_alive_interval (c_upstream c))
| S_ka_timeout : Single Z (fun c => up_keep_alive_timeout (c_upstream c))
| S_ka_idle : Single bool (fun c => up_keep_alive_while_idle (c_upstream c))
| S_pool_max : Single Z (fun c => up_pool_max_idle (c_upstream c))
| S_pool_timeout : Single Z (fun c => up_pool_idle_timeout (c_upstream c))
| S_proxy : Single string (fun c => up_proxy (c_upstream c))
| S_tcp : Single Z (fun c => up_tcp_keep_alive (c_upstream c))
| S_up_timeout : Single Z (fun c => up_timeout (c_upstream c))
| S_user_agent : Single string (fun c => up_user_agent (c_upstream c))
| S_verify_ssl : Single bool (fun c => up_verify_ssl (c_upstream c))
| S_batch_max_size : Single Z (fun c => through (up_batch (c_upstream c)) b_max_size)
| S_query : Single string (fun c => r_query (c_schema c))
| S_mutation : Single string (fun c => r_mutation (c_schema c))
| S_subscription : Single string (fun c => r_subscription (c_schema c))
| S_export : Single string (fun c => te_export (c_telemetry c))
| S_var : forall k, Single string (fun c => oget scmp k (get_vars (c_server c)))
| S_type_doc : forall t, Single string (fun c => through (find_type c t) t_doc)
| S_type_cache : forall t, Single Z (fun c => through (find_type c t) t_cache)
| S_union_doc : forall t, Single string (fun c => through (find_union c t) u_doc)
| S_enum_doc : forall t, Single string (fun c => through (find_enum c t) e_doc)
| S_field : forall t f, Single field
    (fun c => through (find_type c t) (fun ty => oget scmp f (t_fields ty))).

(** Settings that are lists, concatenated. *)
Inductive Listed : forall A, (config -> list A) -> Prop :=
| L_links : Listed string c_links
| L_request_headers : Listed string (fun c => te_headers (c_telemetry c))
| L_custom_headers : Listed key_value (fun c => through_list (s_headers (c_server c)) h_custom)
| L_cors_headers : Listed string
    (fun c => through_list (s_headers (c_server c)) (fun h => through_list (h_cors h) co_headers))
| L_cors_methods : Listed string
    (fun c => through_list (s_headers (c_server c)) (fun h => through_list (h_cors h) co_methods))
| L_cors_origins : Listed string
    (fun c => through_list (s_headers (c_server c)) (fun h => through_list (h_cors h) co_origins))
| L_cors_expose : Listed string
    (fun c => through_list (s_headers (c_server c)) (fun h => through_list (h_cors h) co_expose))
| L_cors_vary : Listed string
    (fun c => through_list (s_headers (c_server c)) (fun h => through_list (h_cors h) co_vary))
| L_protected : forall t, Listed string
    (fun c => through_list (find_type c t)
       (fun ty => through_list (t_protected ty) (fun p => through_list (prot_id p) (fun l => l))))
| L_added : forall t, Listed string (fun c => through_list (find_type c t) t_added)
| L_directives : forall t, Listed string (fun c => through_list (find_type c t) t_directives).

(** Settings that are sets, united. *)
Inductive Collected : forall A, (config -> list A) -> Prop :=
| C_allowed : Collected string
    (fun c => through_list (up_allowed_headers (c_upstream c)) (fun l => l))
| C_batch_headers : Collected string (fun c => through_list (up_batch (c_upstream c)) b_headers)
| C_experimental : Collected string
    (fun c => through_list (s_headers (c_server c))
       (fun h => through_list (h_experimental h) (fun l => l)))
| C_implements : forall t, Collected string (fun c => through_list (find_type c t) t_implements)
| C_members : forall t, Collected string (fun c => through_list (find_union c t) u_types)
| C_variants : forall t, Collected variant (fun c => through_list (find_enum c t) e_variants)
| C_resolvers : forall t, Collected resolver (fun c => through_list (find_type c t) t_resolvers)
| C_type_names : Collected string (fun c => map fst (c_types c))
| C_union_names : Collected string (fun c => map fst (c_unions c))
| C_enum_names : Collected string (fun c => map fst (c_enums c)).

(** The invariants of Rust's ordered containers, for every container in a
    configuration. *)
Definition wf_map {V} (P : V -> Prop) (m : list (string * V)) : Prop :=
  osorted scmp m /\ forall k v, In (k, v) m -> P v.
Definition wf_gtype (t : gtype) : Prop :=
  osorted scmp (t_fields t) /\ ssorted scmp (t_implements t).
Definition wf_gunion (u : gunion) : Prop := ssorted scmp (u_types u).
Definition wf_genum (e : genum) : Prop := ssorted vcmp (e_variants e).
Definition wf_oset (o : option (list string)) : Prop :=
  match o with Some l => ssorted scmp l | None => True end.
Record wf_config (c : config) : Prop := {
  wf_types : wf_map wf_gtype (c_types c);
  wf_unions : wf_map wf_gunion (c_unions c);
  wf_enums : wf_map wf_genum (c_enums c);
  wf_allowed : wf_oset (up_allowed_headers (c_upstream c));
  wf_batch : match up_batch (c_upstream c) with Some b => ssorted scmp (b_headers b) | None => True end;
  wf_experimental :
    match s_headers (c_server c) with Some h => wf_oset (h_experimental h) | None => True end
}.

(** The same configuration with its server variables written in key order. *)
Definition with_vars (vars : list key_value) (s : server) : server :=
  {| s_enable_jit := s_enable_jit s; s_apollo_tracing := s_apollo_tracing s;
     s_batch_requests := s_batch_requests s; s_headers := s_headers s;
     s_timeout := s_timeout s; s_hostname := s_hostname s;
     s_introspection := s_introspection s; s_federation := s_federation s;
     s_pipeline_flush := s_pipeline_flush s; s_port := s_port s;
     s_query_validation := s_query_validation s;
     s_response_validation := s_response_validation s; s_script := s_script s;
     s_showcase := s_showcase s; s_vars := vars; s_version := s_version s;
     s_workers := s_workers s; s_routes := s_routes s |}.
Definition with_server (s : server) (c : config) : config :=
  {| c_server := s; c_upstream := c_upstream c; c_schema := c_schema c;
     c_types := c_types c; c_unions := c_unions c; c_enums := c_enums c;
     c_links := c_links c; c_telemetry := c_telemetry c |}.
Definition vars_in_order (c : config) : config :=
  with_server (with_vars (get_vars (c_server c)) (c_server c)) c.

(** Shapes of JSON documents, for the merge of resolver results: where two
    documents disagree on being a list, an object or something else, merging is
    not associative (see the refutation), so associativity is claimed for
    documents of a common shape. *)
Inductive shape : Type :=
| ShScalar
| ShList
| ShObj (members : string -> shape).

Fixpoint has_shape (v : value) (s : shape) {struct v} : Prop :=
  match v, s with
  | VList _, ShList => True
  | VObj m, ShObj f =>
      NoDup (akeys m) /\
      (fix all (l : list (string * value)) : Prop :=
         match l with
         | [] => True
         | (k, w) :: t => has_shape w (f k) /\ all t
         end) m
  | VNull, ShScalar | VBool _, ShScalar | VNum _, ShScalar
  | VStr _, ShScalar | VEnum _, ShScalar => True
  | _, _ => False
  end.
