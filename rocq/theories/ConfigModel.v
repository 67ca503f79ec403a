(** Configurations: the data types of src/core/config. *)
From Coq Require Import String Ascii ZArith NArith Bool List.
From Verif Require Import Base Ordered JsonModel TypeModel.
Import ListNotations.
Open Scope string_scope.
Open Scope list_scope.

(** Settings whose content plays no role in the modelled code (default values,
    documentation, select expressions, ...) are kept as the text they were
    written with, type [string]: simplification. *)

(** src/core/config/key_values.rs:23-27 *)
Definition key_value := (string * string)%type.

(** src/core/config/resolver.rs:13-41.  Only the settings the modelled code looks
    at are explicit: [batch_key] of src/core/config/directives/http.rs:55 and
    grpc.rs:42, [batch] of graphql.rs:38; the other settings of each directive
    are one text. *)
Inductive resolver : Type :=
| RHttp (batch_key : list string) (rest : string)
| RGrpc (batch_key : list string) (rest : string)
| RGraphql (batch : bool) (rest : string)
| RCall (rest : string)
| RJs (rest : string)
| RExpr (rest : string)
| REntity (by_type : list (string * resolver))
| RService.

(** The derived [PartialEq] of src/core/config/resolver.rs:19-31. *)
Fixpoint list_eqb {A} (eqb : A -> A -> bool) (x y : list A) : bool :=
  match x, y with
  | [], [] => true
  | a :: x', b :: y' => eqb a b && list_eqb eqb x' y'
  | _, _ => false
  end.

Fixpoint resolver_eqb (x y : resolver) : bool :=
  match x, y with
  | RHttp k r, RHttp k' r' => list_eqb String.eqb k k' && String.eqb r r'
  | RGrpc k r, RGrpc k' r' => list_eqb String.eqb k k' && String.eqb r r'
  | RGraphql b r, RGraphql b' r' => Bool.eqb b b' && String.eqb r r'
  | RCall r, RCall r' => String.eqb r r'
  | RJs r, RJs r' => String.eqb r r'
  | RExpr r, RExpr r' => String.eqb r r'
  | REntity m, REntity m' =>
      (fix go (l l' : list (string * resolver)) : bool :=
         match l, l' with
         | [], [] => true
         | (k, v) :: t, (k', v') :: t' => String.eqb k k' && resolver_eqb v v' && go t t'
         | _, _ => false
         end) m m'
  | RService, RService => true
  | _, _ => false
  end.

(** src/core/config/resolver.rs:44-57 *)
Fixpoint resolver_is_batched (r : resolver) : bool :=
  match r with
  | RHttp k _ => negb (match k with [] => true | _ => false end)
  | RGrpc k _ => negb (match k with [] => true | _ => false end)
  | RGraphql b _ => b
  | REntity m => existsb (fun kv => resolver_is_batched (snd kv)) m
  | _ => false
  end.

(** src/core/config/resolver.rs:64-66 *)
Definition has_resolver (rs : list resolver) : bool :=
  match rs with [] => false | _ => true end.

(** src/core/config/resolver.rs:68-74 *)
Definition is_batched (rs : list resolver) : bool :=
  match rs with [] => false | _ => forallb resolver_is_batched rs end.

(** src/core/config/directives/modify.rs:20-25 *)
Record modify := { mod_name : option string; mod_omit : option bool }.

(** src/core/config/config.rs:279-285 *)
Record arg := {
  arg_type : typ;
  arg_doc : option string;
  arg_modify : option modify;
  arg_default : option string
}.

(** src/core/config/directives/protected.rs:30-36 *)
Record protected := { prot_id : option (list string) }.

(** src/core/config/config.rs:180-226.  [max_age] of a cache
    (src/core/config/directives/cache.rs:23-27) is a positive integer. *)
Record field := {
  f_type : typ;
  f_args : list (string * arg);
  f_doc : option string;
  f_modify : option modify;
  f_omit : bool;
  f_cache : option Z;
  f_default : option string;
  f_protected : option protected;
  f_discriminate : option (option string);
  f_resolvers : list resolver;
  f_directives : list string
}.

(** src/core/config/config.rs:264-271 *)
Definition is_omitted (f : field) : bool :=
  f_omit f ||
  match f_modify f with
  | Some m => match mod_omit m with Some b => b | None => false end
  | None => false
  end.

(** src/core/config/config.rs:108-133.  [added_fields] are kept as texts. *)
Record gtype := {
  t_fields : list (string * field);
  t_added : list string;
  t_doc : option string;
  t_implements : list string;
  t_cache : option Z;
  t_protected : option protected;
  t_resolvers : list resolver;
  t_directives : list string
}.

(** src/core/config/config.rs:164-166 *)
Definition gtype_scalar (t : gtype) : bool :=
  match t_fields t with [] => true | _ => false end.

(** src/core/config/config.rs:288-291 *)
Record gunion := { u_types : list string; u_doc : option string }.

(** src/core/config/config.rs:302-306, src/core/config/directives/alias.rs:22-24 *)
Definition variant := (string * option (list string))%type.

(** Derived [Ord] of [Variant]. *)
Definition vcmp : variant -> variant -> comparison :=
  cmp_pair scmp (cmp_opt (cmp_list scmp)).

(** src/core/config/config.rs:295-298 *)
Record genum := { e_variants : list variant; e_doc : option string }.

(** src/core/config/config.rs:171-175 *)
Record root_schema := {
  r_query : option string;
  r_mutation : option string;
  r_subscription : option string
}.

(** src/core/config/cors.rs:13-62; methods as texts. *)
Record cors_cfg := {
  co_credentials : option bool;
  co_headers : list string;
  co_methods : list string;
  co_origins : list string;
  co_private : option bool;
  co_expose : list string;
  co_max_age : option Z;
  co_vary : list string
}.

(** src/core/config/headers.rs:14-40 *)
Record headers_cfg := {
  h_cache_control : option bool;
  h_custom : list key_value;
  h_experimental : option (list string);
  h_set_cookies : option bool;
  h_cors : option cors_cfg
}.

(** src/core/config/directives/server.rs:130-135 *)
Record routes := { ro_status : string; ro_graphql : string }.

(** src/core/config/directives/server.rs:31-127.  [version] is a text. *)
Record server := {
  s_enable_jit : option bool;
  s_apollo_tracing : option bool;
  s_batch_requests : option bool;
  s_headers : option headers_cfg;
  s_timeout : option Z;
  s_hostname : option string;
  s_introspection : option bool;
  s_federation : option bool;
  s_pipeline_flush : option bool;
  s_port : option Z;
  s_query_validation : option bool;
  s_response_validation : option bool;
  s_script : option (option Z);
  s_showcase : option bool;
  s_vars : list key_value;
  s_version : option string;
  s_workers : option Z;
  s_routes : option routes
}.

(** src/core/config/directives/upstream.rs:16-21 *)
Record batch := { b_delay : Z; b_headers : list string; b_max_size : option Z }.

(** src/core/config/directives/upstream.rs:57-150 *)
Record upstream := {
  up_on_request : option string;
  up_allowed_headers : option (list string);
  up_batch : option batch;
  up_connect_timeout : option Z;
  up_http_cache : option Z;
  up_http2_only : option bool;
  up_keep_alive_interval : option Z;
  up_keep_alive_timeout : option Z;
  up_keep_alive_while_idle : option bool;
  up_pool_max_idle : option Z;
  up_pool_idle_timeout : option Z;
  up_proxy : option string;
  up_tcp_keep_alive : option Z;
  up_timeout : option Z;
  up_user_agent : option string;
  up_verify_ssl : option bool
}.

(** src/core/config/directives/telemetry.rs:89-97; the exporter is a text. *)
Record telemetry := { te_export : option string; te_headers : list string }.

(** src/core/config/config.rs:66-102; links are texts. *)
Record config := {
  c_server : server;
  c_upstream : upstream;
  c_schema : root_schema;
  c_types : list (string * gtype);
  c_unions : list (string * gunion);
  c_enums : list (string * genum);
  c_links : list string;
  c_telemetry : telemetry
}.

(** The derived [Default]s. *)
Definition empty_field : field :=
  {| f_type := TNamed "JSON" false; f_args := []; f_doc := None; f_modify := None;
     f_omit := false; f_cache := None; f_default := None; f_protected := None;
     f_discriminate := None; f_resolvers := []; f_directives := [] |}.
Definition empty_gtype : gtype :=
  {| t_fields := []; t_added := []; t_doc := None; t_implements := []; t_cache := None;
     t_protected := None; t_resolvers := []; t_directives := [] |}.
Definition empty_server : server :=
  {| s_enable_jit := None; s_apollo_tracing := None; s_batch_requests := None;
     s_headers := None; s_timeout := None; s_hostname := None; s_introspection := None;
     s_federation := None; s_pipeline_flush := None; s_port := None;
     s_query_validation := None; s_response_validation := None; s_script := None;
     s_showcase := None; s_vars := []; s_version := None; s_workers := None; s_routes := None |}.
Definition empty_upstream : upstream :=
  {| up_on_request := None; up_allowed_headers := None; up_batch := None;
     up_connect_timeout := None; up_http_cache := None; up_http2_only := None;
     up_keep_alive_interval := None; up_keep_alive_timeout := None;
     up_keep_alive_while_idle := None; up_pool_max_idle := None;
     up_pool_idle_timeout := None; up_proxy := None; up_tcp_keep_alive := None;
     up_timeout := None; up_user_agent := None; up_verify_ssl := None |}.
Definition empty_telemetry : telemetry := {| te_export := None; te_headers := [] |}.
Definition empty_schema : root_schema :=
  {| r_query := None; r_mutation := None; r_subscription := None |}.
Definition empty_config : config :=
  {| c_server := empty_server; c_upstream := empty_upstream; c_schema := empty_schema;
     c_types := []; c_unions := []; c_enums := []; c_links := [];
     c_telemetry := empty_telemetry |}.

(** src/core/config/config.rs:382-392 *)
Definition find_type (c : config) (n : string) : option gtype := oget scmp n (c_types c).
Definition find_union (c : config) (n : string) : option gunion := oget scmp n (c_unions c).
Definition find_enum (c : config) (n : string) : option genum := oget scmp n (c_enums c).

(** src/core/config/directives/server.rs:229-235 *)
Definition get_vars (s : server) : list (string * string) := omap_of scmp (s_vars s).
