(** [merge_right]: src/core/merge_right.rs and its derived implementations. *)
From Coq Require Import String Ascii ZArith NArith Bool List.
From Verif Require Import Base Ordered JsonModel TypeModel ConfigModel.
Import ListNotations.
Open Scope string_scope.
Open Scope list_scope.

(** src/core/primitive.rs:25-29 (numbers, booleans, strings); also every enum
    with the derive macro, tailcall-macros/src/merge_right.rs:143-152. *)
Definition m_last {A} (_ other : A) : A := other.

(** src/core/merge_right.rs:10-19 *)
Definition m_opt {A} (m : A -> A -> A) (a b : option A) : option A :=
  match a, b with
  | Some x, Some y => Some (m x y)
  | None, Some y => Some y
  | Some x, None => Some x
  | None, None => None
  end.

(** src/core/merge_right.rs:21-26 *)
Definition m_vec {A} (a b : list A) : list A := a ++ b.

(** src/core/merge_right.rs:28-36 *)
Definition m_set {A} (cmp : A -> A -> comparison) (a b : list A) : list A := sextend cmp a b.

(** src/core/merge_right.rs:48-63, one round of the loop *)
Definition m_btree_step {V} (m : V -> V -> V) (acc : list (string * V)) (kv : string * V) :
  list (string * V) :=
  match oget scmp (fst kv) acc with
  | Some self_value => oins scmp (fst kv) (m self_value (snd kv)) (odel scmp (fst kv) acc)
  | None => oins scmp (fst kv) (snd kv) acc
  end.

(** src/core/merge_right.rs:48-63 *)
Definition m_btree {V} (m : V -> V -> V) (a b : list (string * V)) : list (string * V) :=
  fold_left (m_btree_step m) b a.

(** src/core/merge_right.rs:82-108 *)
Definition m_index {V} (m : V -> V -> V) (a b : list (string * V)) : list (string * V) :=
  fold_left (fun acc kv =>
    match aget (fst kv) acc with
    | Some v => aset (fst kv) (m v (snd kv)) acc
    | None => aset (fst kv) (snd kv) acc
    end) b a.

(** src/core/merge_right.rs:116-129.  The left value is the one taken apart; the
    inner loop is [m_index] over the right object's entries. *)
Fixpoint m_json (x : value) (y : value) {struct y} : value :=
  match x, y with
  | VList a, VList b => VList (m_vec a b)
  | VList a, _ => VList (a ++ [y])
  | VObj a, VObj b =>
      VObj ((fix go (acc : list (string * value)) (l : list (string * value))
               {struct l} : list (string * value) :=
               match l with
               | [] => acc
               | (k, w) :: t =>
                   go (match aget k acc with
                       | Some v => aset k (m_json v w) acc
                       | None => aset k w acc
                       end) t
               end) a b)
  | _, _ => y
  end.

(** src/core/config/resolver.rs:144-154 *)
Definition m_resolvers (a b : list resolver) : list resolver :=
  fold_left (fun acc r => if existsb (resolver_eqb r) acc then acc else acc ++ [r]) b a.

(** src/core/config/key_values.rs:33-47 through server.rs:161-164 *)
Definition m_vars (a b : list key_value) : list key_value :=
  fold_left (fun acc kv => oins scmp (fst kv) (snd kv) acc) b
    (fold_left (fun acc kv => oins scmp (fst kv) (snd kv) acc) a []).

(** The derive macro on structs merges field by field
    (tailcall-macros/src/merge_right.rs:77-130); the following are its expansions. *)

(** src/core/config/directives/protected.rs:26-36 *)
Definition m_protected (a b : protected) : protected :=
  {| prot_id := m_opt m_vec (prot_id a) (prot_id b) |}.

(** src/core/config/config.rs:229-233 *)
Definition m_field (_ other : field) : field := other.

(** src/core/config/config.rs:107-133 *)
Definition m_gtype (a b : gtype) : gtype :=
  {| t_fields := m_btree m_field (t_fields a) (t_fields b);
     t_added := m_vec (t_added a) (t_added b);
     t_doc := m_opt m_last (t_doc a) (t_doc b);
     t_implements := m_set scmp (t_implements a) (t_implements b);
     t_cache := m_opt m_last (t_cache a) (t_cache b);
     t_protected := m_opt m_protected (t_protected a) (t_protected b);
     t_resolvers := m_resolvers (t_resolvers a) (t_resolvers b);
     t_directives := m_vec (t_directives a) (t_directives b) |}.

(** src/core/config/config.rs:287-291 *)
Definition m_gunion (a b : gunion) : gunion :=
  {| u_types := m_set scmp (u_types a) (u_types b);
     u_doc := m_opt m_last (u_doc a) (u_doc b) |}.

(** src/core/config/config.rs:293-298 *)
Definition m_genum (a b : genum) : genum :=
  {| e_variants := m_set vcmp (e_variants a) (e_variants b);
     e_doc := m_opt m_last (e_doc a) (e_doc b) |}.

(** src/core/config/config.rs:169-175 *)
Definition m_schema (a b : root_schema) : root_schema :=
  {| r_query := m_opt m_last (r_query a) (r_query b);
     r_mutation := m_opt m_last (r_mutation a) (r_mutation b);
     r_subscription := m_opt m_last (r_subscription a) (r_subscription b) |}.

(** src/core/config/cors.rs:9-62 *)
Definition m_cors (a b : cors_cfg) : cors_cfg :=
  {| co_credentials := m_opt m_last (co_credentials a) (co_credentials b);
     co_headers := m_vec (co_headers a) (co_headers b);
     co_methods := m_vec (co_methods a) (co_methods b);
     co_origins := m_vec (co_origins a) (co_origins b);
     co_private := m_opt m_last (co_private a) (co_private b);
     co_expose := m_vec (co_expose a) (co_expose b);
     co_max_age := m_opt m_last (co_max_age a) (co_max_age b);
     co_vary := m_vec (co_vary a) (co_vary b) |}.

(** src/core/config/headers.rs:10-40 *)
Definition m_headers (a b : headers_cfg) : headers_cfg :=
  {| h_cache_control := m_opt m_last (h_cache_control a) (h_cache_control b);
     h_custom := m_vec (h_custom a) (h_custom b);
     h_experimental := m_opt (m_set scmp) (h_experimental a) (h_experimental b);
     h_set_cookies := m_opt m_last (h_set_cookies a) (h_set_cookies b);
     h_cors := m_opt m_cors (h_cors a) (h_cors b) |}.

(** src/core/config/directives/server.rs:129-135 *)
Definition m_routes (a b : routes) : routes :=
  {| ro_status := m_last (ro_status a) (ro_status b);
     ro_graphql := m_last (ro_graphql a) (ro_graphql b) |}.

(** src/core/config/directives/server.rs:13-127; [script] is a struct with one
    optional field (166-170). *)
Definition m_server (a b : server) : server :=
  {| s_enable_jit := m_opt m_last (s_enable_jit a) (s_enable_jit b);
     s_apollo_tracing := m_opt m_last (s_apollo_tracing a) (s_apollo_tracing b);
     s_batch_requests := m_opt m_last (s_batch_requests a) (s_batch_requests b);
     s_headers := m_opt m_headers (s_headers a) (s_headers b);
     s_timeout := m_opt m_last (s_timeout a) (s_timeout b);
     s_hostname := m_opt m_last (s_hostname a) (s_hostname b);
     s_introspection := m_opt m_last (s_introspection a) (s_introspection b);
     s_federation := m_opt m_last (s_federation a) (s_federation b);
     s_pipeline_flush := m_opt m_last (s_pipeline_flush a) (s_pipeline_flush b);
     s_port := m_opt m_last (s_port a) (s_port b);
     s_query_validation := m_opt m_last (s_query_validation a) (s_query_validation b);
     s_response_validation := m_opt m_last (s_response_validation a) (s_response_validation b);
     s_script := m_opt (m_opt m_last) (s_script a) (s_script b);
     s_showcase := m_opt m_last (s_showcase a) (s_showcase b);
     s_vars := m_vars (s_vars a) (s_vars b);
     s_version := m_opt m_last (s_version a) (s_version b);
     s_workers := m_opt m_last (s_workers a) (s_workers b);
     s_routes := m_opt m_routes (s_routes a) (s_routes b) |}.

(** src/core/config/directives/upstream.rs:12-21 *)
Definition m_batch (a b : batch) : batch :=
  {| b_delay := m_last (b_delay a) (b_delay b);
     b_headers := m_set scmp (b_headers a) (b_headers b);
     b_max_size := m_opt m_last (b_max_size a) (b_max_size b) |}.

(** src/core/config/directives/upstream.rs:37-150; [proxy] is a struct with one
    string field (32-35). *)
Definition m_upstream (a b : upstream) : upstream :=
  {| up_on_request := m_opt m_last (up_on_request a) (up_on_request b);
     up_allowed_headers := m_opt (m_set scmp) (up_allowed_headers a) (up_allowed_headers b);
     up_batch := m_opt m_batch (up_batch a) (up_batch b);
     up_connect_timeout := m_opt m_last (up_connect_timeout a) (up_connect_timeout b);
     up_http_cache := m_opt m_last (up_http_cache a) (up_http_cache b);
     up_http2_only := m_opt m_last (up_http2_only a) (up_http2_only b);
     up_keep_alive_interval := m_opt m_last (up_keep_alive_interval a) (up_keep_alive_interval b);
     up_keep_alive_timeout := m_opt m_last (up_keep_alive_timeout a) (up_keep_alive_timeout b);
     up_keep_alive_while_idle :=
       m_opt m_last (up_keep_alive_while_idle a) (up_keep_alive_while_idle b);
     up_pool_max_idle := m_opt m_last (up_pool_max_idle a) (up_pool_max_idle b);
     up_pool_idle_timeout := m_opt m_last (up_pool_idle_timeout a) (up_pool_idle_timeout b);
     up_proxy := m_opt m_last (up_proxy a) (up_proxy b);
     up_tcp_keep_alive := m_opt m_last (up_tcp_keep_alive a) (up_tcp_keep_alive b);
     up_timeout := m_opt m_last (up_timeout a) (up_timeout b);
     up_user_agent := m_opt m_last (up_user_agent a) (up_user_agent b);
     up_verify_ssl := m_opt m_last (up_verify_ssl a) (up_verify_ssl b) |}.

(** src/core/config/directives/telemetry.rs:100-110; exporters are an enum, so
    the right one wins. *)
Definition m_telemetry (a b : telemetry) : telemetry :=
  {| te_export :=
       match te_export a, te_export b with
       | None, None => None
       | None, Some e => Some e
       | Some e, None => Some e
       | Some l, Some r => Some (m_last l r)
       end;
     te_headers := te_headers a ++ te_headers b |}.

(** src/core/config/config.rs:65-102 *)
Definition m_config (a b : config) : config :=
  {| c_server := m_server (c_server a) (c_server b);
     c_upstream := m_upstream (c_upstream a) (c_upstream b);
     c_schema := m_schema (c_schema a) (c_schema b);
     c_types := m_btree m_gtype (c_types a) (c_types b);
     c_unions := m_btree m_gunion (c_unions a) (c_unions b);
     c_enums := m_btree m_genum (c_enums a) (c_enums b);
     c_links := m_vec (c_links a) (c_links b);
     c_telemetry := m_telemetry (c_telemetry a) (c_telemetry b) |}.

(** Deserialising the [batch] and [routes] settings: absent members take the
    struct's default (src/core/config/directives/upstream.rs:15 and 22-30,
    server.rs:131-149). *)
Definition batch_of_written (delay : option Z) (headers : list string) (max_size : option Z) : batch :=
  {| b_delay := match delay with Some d => d | None => 0%Z end;
     b_headers := headers; b_max_size := max_size |}.
Definition routes_of_written (status graphql : option string) : routes :=
  {| ro_status := match status with Some s => s | None => "/status" end;
     ro_graphql := match graphql with Some s => s | None => "/graphql" end |}.
