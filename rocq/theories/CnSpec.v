(** Vocabulary for C81: calling a method with the Connect protocol. *)
From Coq Require Import String Ascii Bool List.
From Verif Require Import Base Ordered JsonModel HeadersModel RequestModel TypeModel ConfigModel CheckModel CnModel.
Import ListNotations.
Open Scope string_scope.
Open Scope list_scope.

(** Where a method is found: the server, the service with its package, the method. *)
Definition address (server service name : string) : string := (server ++ "/" ++ service ++ "/" ++ name)%string.
(** A text that does not end in a slash. *)
Definition no_final_slash (s : string) : Prop := forall t, s <> (t ++ "/")%string.
(** A text without dots. *)
Definition dotless (s : string) : Prop := ~ In "."%char (list_ascii_of_string s).

(** [h] is the call [g] made with the Connect protocol: a POST request to the address of the
    method with the message as JSON, the empty one if there is none, and the version of the
    protocol as a further header; everything else as it was. *)
Record over_http (g : call) (h : http) : Prop := {
  oh_url : forall service name, gc_method g = (service ++ "." ++ name)%string -> dotless name -> ht_url h = address (gc_url g) service name;
  oh_method : ht_method h = "POST";
  oh_query : ht_query h = [];
  oh_body : ht_body h = Some (match gc_body g with Some b => b | None => VObj [] end);
  oh_form : ht_form h = false;
  oh_headers : ht_headers h = gc_headers g ++ [("Connect-Protocol-Version", "1")];
  oh_batch : ht_batch_key h = gc_batch_key g;
  oh_dedupe : ht_dedupe h = gc_dedupe g;
  oh_select : ht_select h = gc_select g }.

(** How a resolver may change. *)
Inductive rewritten (read_grpc : list string -> string -> call) (http_text : http -> string) : resolver -> resolver -> Prop :=
| Re_grpc k t h : over_http (read_grpc k t) h -> rewritten read_grpc http_text (RGrpc k t) (RHttp (ht_batch_key h) (http_text h))
| Re_other r : (forall k t, r <> RGrpc k t) -> rewritten read_grpc http_text r r.
(** Two fields that differ at most in their resolvers, which may have changed in that way. *)
Definition field_rewritten (read_grpc : list string -> string -> call) (http_text : http -> string) (f f' : field) : Prop :=
  Forall2 (rewritten read_grpc http_text) (f_resolvers f) (f_resolvers f') /\
  f' = {| f_type := f_type f; f_args := f_args f; f_doc := f_doc f; f_modify := f_modify f; f_omit := f_omit f;
          f_cache := f_cache f; f_default := f_default f; f_protected := f_protected f;
          f_discriminate := f_discriminate f; f_resolvers := f_resolvers f'; f_directives := f_directives f |}.
(** Two types that differ at most in their fields, each of which may have changed in that way. *)
Definition type_rewritten (read_grpc : list string -> string -> call) (http_text : http -> string) (t t' : gtype) : Prop :=
  Forall2 (fun x y => fst x = fst y /\ field_rewritten read_grpc http_text (snd x) (snd y)) (t_fields t) (t_fields t') /\
  t' = {| t_fields := t_fields t'; t_added := t_added t; t_doc := t_doc t; t_implements := t_implements t; t_cache := t_cache t;
          t_protected := t_protected t; t_resolvers := t_resolvers t; t_directives := t_directives t |}.
Definition config_rewritten (read_grpc : list string -> string -> call) (http_text : http -> string) (c c' : config) : Prop :=
  Forall2 (fun x y => fst x = fst y /\ type_rewritten read_grpc http_text (snd x) (snd y)) (c_types c) (c_types c') /\
  c' = {| c_server := c_server c; c_upstream := c_upstream c; c_schema := c_schema c; c_types := c_types c';
          c_unions := c_unions c; c_enums := c_enums c; c_links := c_links c; c_telemetry := c_telemetry c |}.

(** [r] is the request [q] made with the Connect protocol, for a client that sent [client]. *)
Record same_call (client : headers) (q r : request) : Prop := {
  sc_method : q_method r = q_method q;
  sc_url : q_url r = q_url q;
  sc_body : q_body r = q_body q;
  sc_headers : forall n, n <> "content-type" -> n <> "connect-protocol-version" -> h_all n (q_headers r) = h_all n (q_headers q);
  sc_type : ~ In "content-type" (map fst client) -> h_all "content-type" (q_headers r) = ["application/json"];
  sc_version : ~ In "connect-protocol-version" (map fst client) -> h_all "connect-protocol-version" (q_headers r) = ["1"] }.

(** The call that is generated for a method: without headers, batching or selection. *)
Definition plain_call (url : string) (body : option string) (method : string) : call :=
  {| gc_url := url; gc_method := method; gc_headers := []; gc_body := option_map VStr body; gc_batch_key := []; gc_dedupe := false; gc_select := None |}.
