(** Calling gRPC methods over HTTP with the Connect protocol: src/core/generator/proto/connect_rpc.rs,
    and the compiler of [@grpc] as far as the request is concerned: src/core/blueprint/operators/grpc.rs. *)
From Coq Require Import String Ascii ZArith NArith Bool List.
From Verif Require Import Base Ordered JsonModel UrlModel HeadersModel RequestModel TypeModel ConfigModel
  MustacheModel IrModel ComposeModel FieldModel CallModel CheckModel.
From Verif Require PgModel GsModel.
Import ListNotations.
Open Scope string_scope.
Open Scope list_scope.

(** config/directives/grpc.rs:29-78 without [on_response_body]; a missing [dedupe] is [false]
    (operators/grpc.rs:182). *)
Record call : Type := {
  gc_url : string;
  gc_method : string;
  gc_headers : list (string * string);
  gc_body : option value;
  gc_batch_key : list string;
  gc_dedupe : bool;
  gc_select : option value
}.

Section Grpc.
  (** As in CheckModel. *)
  Variable header_name : string -> option string.
  Variable json_text : value -> string.

  (** operators/grpc.rs:184-205, 221-228, helpers/body.rs, helpers/url.rs: the template of the
      request.  The checks of the method and of the types are those of GsModel. *)
  Definition grpc_template_of (g : call) : valid grpc_template :=
    match PgModel.grpc_method (gc_method g) with
    | None => fail (Other "Invalid method format")
    | Some (package, service, name) =>
        rmap (fun hs => {| g_url := parse (GsModel.to_url (gc_url g) package service name);
                           g_headers := hs;
                           g_body := option_map (fun b => parse (json_text b)) (gc_body g) |})
             (to_mustache_headers header_name (gc_headers g))
    end.
  (** operators/grpc.rs:221-252 without a batch key *)
  Definition compile_call (g : call) : valid (ir io) :=
    rmap (fun t => apply_select (IIO (IoGrpc t)) (gc_select g)) (grpc_template_of g).
End Grpc.

(** connect_rpc.rs:52-90.  [str::split] gives at least one part. *)
Definition to_http (g : call) : http :=
  let parts := split_on "." (gc_method g) in
  let method := String.concat "." (removelast parts) in
  let endpoint := last parts "" in
  {| ht_url := (gc_url g ++ "/" ++ method ++ "/" ++ endpoint)%string;
     ht_method := "POST";
     ht_query := [];
     ht_headers := gc_headers g ++ [("Connect-Protocol-Version", "1")];
     ht_body := Some (match gc_body g with Some b => b | None => VObj [] end);
     ht_form := false;
     ht_batch_key := gc_batch_key g;
     ht_dedupe := gc_dedupe g;
     ht_select := gc_select g |}.

Section Connect.
  (** The settings of a [@grpc] behind its text, and the text of a [@http] (see
      ConfigModel.resolver). *)
  Variable read_grpc : list string -> string -> call.
  Variable http_text : http -> string.

  (** connect_rpc.rs:38-41 *)
  Definition convert (r : resolver) : resolver :=
    match r with
    | RGrpc k t => let h := to_http (read_grpc k t) in RHttp (ht_batch_key h) (http_text h)
    | other => other
    end.
  (** connect_rpc.rs:32-46 *)
  Definition connect_field (f : field) : field :=
    {| f_type := f_type f; f_args := f_args f; f_doc := f_doc f; f_modify := f_modify f; f_omit := f_omit f;
       f_cache := f_cache f; f_default := f_default f; f_protected := f_protected f;
       f_discriminate := f_discriminate f; f_resolvers := map convert (f_resolvers f); f_directives := f_directives f |}.
  Definition connect_type (t : gtype) : gtype :=
    {| t_fields := map (fun kf => (fst kf, connect_field (snd kf))) (t_fields t); t_added := t_added t; t_doc := t_doc t;
       t_implements := t_implements t; t_cache := t_cache t; t_protected := t_protected t;
       t_resolvers := t_resolvers t; t_directives := t_directives t |}.
  Definition connect_types (l : list (string * gtype)) : list (string * gtype) :=
    map (fun kt => (fst kt, connect_type (snd kt))) l.
  (** connect_rpc.rs:31-49 *)
  Definition connect (c : config) : config :=
    {| c_server := c_server c; c_upstream := c_upstream c; c_schema := c_schema c; c_types := connect_types (c_types c);
       c_unions := c_unions c; c_enums := c_enums c; c_links := c_links c; c_telemetry := c_telemetry c |}.
End Connect.
