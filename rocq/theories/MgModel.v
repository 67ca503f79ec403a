(** Configurations generated of several sources: src/core/generator/generator.rs and from_json.rs. *)
From Coq Require Import String Ascii ZArith NArith Bool List.
From Verif Require Import Base Ordered JsonModel TypeModel ConfigModel MergeModel RenameModel FedModel GenModel OpGenModel.
Import ListNotations.
Open Scope string_scope.
Open Scope list_scope.

(** src/core/generator/generator.rs:31-52.  Samples come with the names of the headers of their request; configurations ([from_source],
    112-114) and those made of proto files ([generate_from_proto] and [ConnectRPC], 137-145) are given as what they come to. *)
Inductive source : Type :=
| SSample (s : sample) (headers : option (list string))
| SConfig (read : valid config).

(** [upstream.allowed_headers(..)] of schema_generator.rs:46 *)
Definition with_allowed (hs : option (list string)) (u : upstream) : upstream :=
  {| up_on_request := up_on_request u; up_allowed_headers := hs; up_batch := up_batch u; up_connect_timeout := up_connect_timeout u;
     up_http_cache := up_http_cache u; up_http2_only := up_http2_only u; up_keep_alive_interval := up_keep_alive_interval u;
     up_keep_alive_timeout := up_keep_alive_timeout u; up_keep_alive_while_idle := up_keep_alive_while_idle u; up_pool_max_idle := up_pool_max_idle u;
     up_pool_idle_timeout := up_pool_idle_timeout u; up_proxy := up_proxy u; up_tcp_keep_alive := up_tcp_keep_alive u; up_timeout := up_timeout u;
     up_user_agent := up_user_agent u; up_verify_ssl := up_verify_ssl u |}.

Section Generator.
  Variable is_f64 : string -> bool.
  Variable is_utf8 : string -> bool.
  Variable camel : string -> string.
  Variable http_text : gen_http -> string.
  (** src/core/generator/generator.rs:23-29: the names of the roots and the prefix of names *)
  Variable query : string.
  Variable mutation : option string.
  Variable prefix : string.

  (** from_json.rs:96-109: the name of the root in the generated configuration *)
  Definition suggested (s : sample) : string :=
    if sa_mutation s then match mutation with Some n => n | None => "Mutation" end else query.
  (** schema_generator.rs:28-49 after types_generator.rs, from an empty configuration *)
  Definition sample_schema (s : sample) (headers : option (list string)) (types : list (string * gtype)) : config :=
    {| c_server := c_server empty_config; c_upstream := with_allowed headers (c_upstream empty_config);
       c_schema := {| r_query := if sa_mutation s then None else Some "Query"; r_mutation := if sa_mutation s then Some "Mutation" else None;
                      r_subscription := None |};
       c_types := types; c_unions := c_unions empty_config; c_enums := c_enums empty_config; c_links := c_links empty_config;
       c_telemetry := c_telemetry empty_config |}.
  (** from_json.rs:88-137 for one sample (generator.rs:79-94, 115-136), with the next number for names (mod.rs:13-29).  Headers: a
      [BTreeSet] of their names (from_json.rs:111-117).  A panic of the directive's generator (C71) as an error. *)
  Definition sample_config (s : sample) (headers : option (list string)) (next : Z) : valid (config * Z) :=
    match generate_sample is_f64 is_utf8 camel http_text prefix s {| gs_next := next; gs_types := [] |} with
    | None => Err ["panic"]
    | Some (_, st) =>
        let c := sample_schema s (option_map (sextend scmp []) headers) (gs_types st) in
        match rename_types [(root_name s, suggested s)] c with
        | Ok c => Ok (m_config empty_config c, gs_next st)
        | Err _ => Err ["Type not found"]
        end
    end.

  (** generator.rs:109-148 *)
  Fixpoint generate_from (sources : list source) (c : config) (next : Z) : valid (config * Z) :=
    match sources with
    | [] => Ok (c, next)
    | SConfig read :: rest =>
        match read with Ok r => generate_from rest (m_config c r) next | Err e => Err e end
    | SSample s headers :: rest =>
        match sample_config s headers next with
        | Ok (r, next) => generate_from rest (m_config c r) next
        | Err e => Err e
        end
    end.
  (** generator.rs:150-154, transform.rs *)
  Fixpoint transform_all (ts : list (config -> valid config)) (c : config) : valid config :=
    match ts with
    | [] => Ok c
    | t :: ts => match t c with Ok c => transform_all ts c | Err e => Err e end
    end.
  (** generator.rs:103-157; names are numbered from 1 (mod.rs:20) *)
  Definition generate (sources : list source) (ts : list (config -> valid config)) (use_transformers : bool) : valid config :=
    match generate_from sources empty_config 1 with
    | Ok (c, _) => if use_transformers then transform_all ts c else Ok c
    | Err e => Err e
    end.
End Generator.
