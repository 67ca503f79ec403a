(** Building upstream requests and their cache keys: src/core/http/query_encoder.rs,
    src/core/http/request_template.rs, src/core/grpc/request_template.rs and the key of
    src/core/graphql/request_template.rs. *)
From Coq Require Import String Ascii NArith ZArith Bool List.
From Verif Require Import Base JsonModel CtxModel MustacheModel HeadersModel UrlModel.
Import ListNotations.
Open Scope list_scope.
Open Scope string_scope.

(** query_encoder.rs:4-12 *)
Inductive encoder : Type := CommaSeparated | RepeatedKey.

(** [Vec::join] *)
Definition join (sep : string) (l : list string) : string := String.concat sep l.

(** What a resolver's templates are rendered with: the context, the headers taken from
    the client (eval_context.rs:82-84). *)
Record evaluation : Type := { e_ext : req_ext; e_ctx : ctx; e_headers : headers }.
Definition e_string (e : evaluation) : list string -> option string := path_string (e_ext e) (e_ctx e).
Definition e_render (e : evaluation) (m : mustache) : string := render (e_string e) m.

Section Encode.
  Variable rx : req_ext.

  (** query_encoder.rs:62-70.  The text of a number is its JSON text. *)
  Definition scalar_text (v : value) : option string :=
    match v with
    | VStr s => Some s
    | VNum n => Some (x_json_text rx (VNum n))
    | VBool b => Some (if b then "true" else "false")
    | VEnum n => Some n
    | _ => None
    end.
  (** query_encoder.rs:38-40, 54-56 *)
  Definition encode_scalar (key : string) (v : value) : string :=
    match scalar_text v with Some t => key ++ "=" ++ t | None => key end.

  (** query_encoder.rs:42-57 *)
  Fixpoint encode_repeated (key : string) (v : value) : string :=
    match v with
    | VList ((_ :: _) as l) => join "&" (map (encode_repeated key) l)
    | _ => encode_scalar key v
    end.
  (** query_encoder.rs:27-41 *)
  Definition encode_commas (key : string) (v : value) : string :=
    match v with
    | VList ((_ :: _) as l) =>
        match flat_map (fun x => match scalar_text x with Some t => [t] | None => [] end) l with
        | [] => key
        | texts => key ++ "=" ++ join "," texts
        end
    | _ => encode_scalar key v
    end.

  (** query_encoder.rs:15-24 *)
  Definition encode (enc : encoder) (key : string) (o : option value_string) : string :=
    match o with
    | Some (RawValue v) => match enc with
                           | CommaSeparated => encode_commas key (cow_value v)
                           | RepeatedKey => encode_repeated key (cow_value v)
                           end
    | Some (RawString s) => key ++ "=" ++ s
    | None => key
    end.
End Encode.

(** request_template.rs:291-307: the first segment that yields a value. *)
Fixpoint first_value (e : evaluation) (m : mustache) : option value_string :=
  match m with
  | [] => None
  | Literal t :: _ => Some (RawValue (Owned (VStr t)))
  | Expression p :: rest =>
      match to_raw_value (e_ext e) (e_ctx e) p with
      | Some v => Some v
      | None => first_value e rest
      end
  end.

(** request_template.rs:35-40 *)
Record query : Type := { qy_key : string; qy_value : mustache; qy_skip_empty : bool }.
(** request_template.rs:23-33 without the endpoint; [t_form]: the encoding. *)
Record http_template : Type := {
  t_root : mustache;
  t_query : list query;
  t_method : string;
  t_headers : list (string * mustache);
  t_body : option mustache;
  t_form : bool;
  t_encoder : encoder }.

(** request_template.rs:55-65 *)
Definition extra_param (t : http_template) (e : evaluation) (q : query) : list string :=
  let v := first_value e (qy_value q) in
  match v with
  | None => if qy_skip_empty q then [] else [encode (e_ext e) (t_encoder t) (qy_key q) None]
  | Some _ => [encode (e_ext e) (t_encoder t) (qy_key q) v]
  end.
(** request_template.rs:67-71 *)
Definition base_params (u : url) : list string :=
  flat_map (fun kv => if String.eqb (snd kv) "" then [] else [fst kv ++ "=" ++ snd kv]) (query_pairs u).
(** request_template.rs:72-80 *)
Definition add_param (acc item : string) : string :=
  if String.eqb acc "" then item else if String.eqb item "" then acc else acc ++ "&" ++ item.

(** reqwest::Request as sent: [q_body] is [None] when no body was set. *)
Record request : Type := { q_method : string; q_url : string; q_headers : headers; q_body : option string }.
Inductive req_error : Type := BadUrl (s : string) | BadForm (s : string).

(** What is fed to the hasher, one item for each [hash] call.  A text ends with a byte no
    UTF-8 text contains and byte strings are preceded by their length, so the items can be
    told apart; that encoding is not modelled. *)
Inductive token : Type :=
| TMethod (m : string) | TName (n : string) | TText (s : string) | TBytes (s : string).

Section Http.
  Variable parse_base : string -> option string.
  (** request_template.rs:143-146: the form text of a JSON text, or an error; a text that
      is not JSON is sent as it is. *)
  Variable form_text : string -> option string.

  (** request_template.rs:45-89 *)
  Definition create_url (t : http_template) (e : evaluation) : result url req_error :=
    let s := e_render e (t_root t) in
    match parse_url parse_base s with
    | None => Err (BadUrl s)
    | Some u =>
        if (match t_query t with [] => true | _ => false end && mustache_is_const (t_root t))%bool then Ok u
        else
          let qp := fold_left add_param (base_params u ++ flat_map (extra_param t e) (t_query t))%list "" in
          Ok (set_query (if String.eqb qp "" then None else Some qp) u)
    end.

  Definition rendered_headers (t : http_template) (e : evaluation) : headers :=
    map (fun kv => (fst kv, e_render e (snd kv))) (t_headers t).

  (** request_template.rs:126-156; the value used for batching is [body_key]. *)
  Definition create_body (t : http_template) (e : evaluation) : result (option string) req_error :=
    match t_body t with
    | None => Ok None
    | Some m =>
        let s := e_render e m in
        if t_form t then match form_text s with Some f => Ok (Some f) | None => Err (BadForm s) end
        else Ok (Some s)
    end.

  (** request_template.rs:114-123 *)
  Definition to_request (t : http_template) (e : evaluation) : result request req_error :=
    rbind (create_url t e) (fun u =>
    rbind (create_body t e) (fun b =>
    Ok {| q_method := t_method t; q_url := url_text u;
          q_headers := set_headers (String.eqb (t_method t) "GET") (t_form t)
                         (create_headers (rendered_headers t e)) (e_headers e);
          q_body := b |})).

  (** request_template.rs:255-279; an error is the panic of the [unwrap]. *)
  Definition http_key_tokens (t : http_template) (e : evaluation) : result (list token) req_error :=
    rbind (create_url t e) (fun u =>
    Ok ([TMethod (t_method t)]
        ++ flat_map (fun kv => [TName (fst kv); TText (snd kv)]) (rendered_headers t e)
        ++ flat_map (fun kv => [TName (fst kv); TBytes (snd kv)]) (e_headers e)
        ++ match t_body t with Some m => [TText (e_render e m)] | None => [] end
        ++ [TText (url_text u)])%list).

  (** grpc/request_template.rs:20-43 without the protobuf operation. *)
  Record grpc_template : Type := { g_url : mustache; g_headers : list (string * mustache); g_body : option mustache }.

  (** grpc/request_template.rs:61-65, 88-94 *)
  Definition grpc_url (t : grpc_template) (e : evaluation) : result url req_error :=
    let s := e_render e (g_url t) in
    match parse_url parse_base s with Some u => Ok u | None => Err (BadUrl s) end.
  Definition grpc_body (t : grpc_template) (e : evaluation) : string :=
    match g_body t with Some m => e_render e m | None => "{}" end.
  (** grpc/request_template.rs:67-79, 96-107 *)
  Definition grpc_headers (t : grpc_template) (e : evaluation) : headers :=
    h_extend (e_headers e)
      (h_extend (fold_left (fun new kv => match header_value (snd kv) with Some v => h_insert (fst kv) v new | None => new end)
                   (map (fun kv => (fst kv, e_render e (snd kv))) (g_headers t)) [("content-type", "application/grpc")]) []).
  (** grpc/request_template.rs:81-86, 110-118; the body before it is converted. *)
  Definition grpc_request (t : grpc_template) (e : evaluation) : result request req_error :=
    rbind (grpc_url t e) (fun u =>
    Ok {| q_method := "POST"; q_url := url_text u; q_headers := grpc_headers t e; q_body := Some (grpc_body t e) |}).
  (** grpc/request_template.rs:53-58, 120-127 *)
  Definition grpc_key_tokens (t : grpc_template) (e : evaluation) : result (list token) req_error :=
    rbind (grpc_url t e) (fun u => Ok [TText (url_text u); TText (grpc_body t e)]).
End Http.
