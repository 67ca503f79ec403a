(** JavaScript hooks of an HTTP call: src/core/worker_hooks.rs, src/core/worker/worker.rs,
    src/cli/javascript/{codec,runtime,mod}.rs and [execute_with_worker] of src/core/ir/eval_http.rs. *)
From Coq Require Import String Ascii ZArith NArith Bool List.
From Verif Require Import Base Ordered JsonModel UrlModel.
Import ListNotations.
Open Scope string_scope.
Open Scope list_scope.

(** What precedes the query in a URL, as the url crate takes it apart; [o_user] is the text before
    the host, with its [@]; ports are texts. *)
Record origin : Type := { o_scheme : string; o_user : string; o_host : option string; o_port : option string; o_path : string }.

(** reqwest::Request with the batching value of src/core/ir/request.rs:2-6.  A header map is the list
    of its entries in the order of iteration; names are in lower case. *)
Record wreq : Type := {
  w_method : string; w_origin : origin; w_query : option string; w_headers : list (string * string);
  w_body : option string; w_value : option string }.

(** src/core/http/response.rs:15-20 *)
Record wresp : Type := { p_status : Z; p_headers : list (string * string); p_body : value }.

(** worker.rs:13-31 *)
Record uri : Type := { i_path : string; i_query : list (string * string); i_https : bool; i_host : option string; i_port : option string }.
(** The object a script is given and returns (codec.rs:39-56, 58-104, 178-212). *)
Record js_request : Type := { j_uri : uri; j_method : string; j_headers : list (string * string); j_body : option string }.
Record js_response : Type := { js_status : Z; js_headers : list (string * string); js_body : option string }.
(** What a call of a script's function comes to: an exception, an object with a request, one with a
    response, or something else (codec.rs:11-37). *)
Inductive js_out : Type := JThrows | JRequest (r : js_request) | JResponse (r : js_response) | JOther.

(** worker.rs:33-49; the body of a response is still a text. *)
Inductive command : Type :=
| CRequest (r : wreq)
| CResponse (status : Z) (headers : list (string * string)) (body : string).

(** [HeaderValue::to_str] and [HeaderValue::from_str]: tabs and visible characters *)
Definition visible_char (c : ascii) : bool := let n := N_of_ascii c in (N.eqb n 9 || (N.leb 32 n && N.ltb n 127))%bool.
Fixpoint visible (s : string) : bool :=
  match s with EmptyString => true | String c t => (visible_char c && visible t)%bool end.

(** worker.rs:199-211: the pairs are collected into a map, a later one replacing an earlier. *)
Definition uri_of (o : origin) (q : option string) : uri :=
  {| i_path := o_path o;
     i_query := omap_of scmp (match q with Some q => form_pairs q | None => [] end);
     i_https := String.eqb (o_scheme o) "https"; i_host := o_host o; i_port := o_port o |}.

(** worker.rs:122-146 *)
Definition uri_text (u : uri) : string :=
  let query := String.concat "&" (map (fun kv => (fst kv ++ "=" ++ snd kv)%string) (i_query u)) in
  ((if i_https u then "https" else "http") ++ "://" ++ (match i_host u with Some h => h | None => "localhost" end) ++
   (match i_port u with Some p => ":" ++ p | None => "" end) ++ i_path u ++
   (if String.eqb query "" then "" else "?" ++ query))%string.

(** worker.rs:56-62, 157-164: into a map; [None] if a value is not text *)
Fixpoint header_texts (hs : list (string * string)) : option (list (string * string)) :=
  match hs with
  | [] => Some []
  | (k, v) :: t =>
      if visible v then match header_texts t with Some t => Some ((k, v) :: t) | None => None end else None
  end.

Section Codec.
  (** [Url::parse] on what precedes the query and the fragment *)
  Variable parse_base : string -> option origin.
  (** [String::from_utf8_lossy] *)
  Variable lossy : string -> string.
  (** [Method::from_bytes]: whether it accepts *)
  Variable valid_method : string -> bool.
  (** [HeaderName::from_str]: the name in lower case *)
  Variable header_name : string -> option string.
  (** [StatusCode::from_u16]: whether it accepts *)
  Variable valid_status : Z -> bool.

  (** codec.rs:39-56 *)
  Definition request_to_js (w : wreq) : option js_request :=
    match header_texts (w_headers w) with
    | Some hs =>
        Some {| j_uri := uri_of (w_origin w) (w_query w); j_method := w_method w; j_headers := omap_of scmp hs;
                j_body := option_map lossy (w_body w) |}
    | None => None
    end.

  (** codec.rs:83-99, mod.rs:21-29: each name replaces what it had. *)
  Fixpoint headers_from_js (hs acc : list (string * string)) : option (list (string * string)) :=
    match hs with
    | [] => Some acc
    | (k, v) :: t =>
        match header_name k with
        | Some n => if visible v then headers_from_js t (aset n v acc) else None
        | None => None
        end
    end.

  (** [Url::parse] on the whole text; the fragment is never sent. *)
  Definition parse_uri (s : string) : option (origin * option string) :=
    let '(s, _) := cut_at "#" s in
    let '(b, q) := cut_at "?" s in
    match parse_base b with Some o => Some (o, option_map encode_query q) | None => None end.

  (** codec.rs:58-104, then worker.rs:191-197, which leaves no batching value *)
  Definition request_from_js (j : js_request) : option wreq :=
    if valid_method (j_method j) then
      match parse_uri (uri_text (j_uri j)) with
      | Some (o, q) =>
          match headers_from_js (j_headers j) [] with
          | Some hs => Some {| w_method := j_method j; w_origin := o; w_query := q; w_headers := hs; w_body := j_body j; w_value := None |}
          | None => None
          end
      | None => None
      end
    else None.

  (** codec.rs:188-212 *)
  Definition response_from_js (j : js_response) : option command :=
    if valid_status (js_status j) then
      match headers_from_js (js_headers j) [] with
      | Some hs => Some (CResponse (js_status j) hs (match js_body j with Some b => b | None => "" end))
      | None => None
      end
    else None.

  (** worker_hooks.rs:31-45 and runtime.rs:152-181: an exception is dropped ([.ok()]). *)
  Definition on_request (script : option (js_request -> js_out)) (w : wreq) : result (option command) string :=
    match script with
    | None => Ok None
    | Some f =>
        match request_to_js w with
        | None => Err "Rquickjs"
        | Some j =>
            match f j with
            | JThrows => Ok None
            | JRequest r => match request_from_js r with Some w => Ok (Some (CRequest w)) | None => Err "DeserializeFailed" end
            | JResponse r => match response_from_js r with Some c => Ok (Some c) | None => Err "DeserializeFailed" end
            | JOther => Err "DeserializeFailed"
            end
        end
    end.
End Codec.

(** worker_hooks.rs:47-65; the script's function is given the body and returns one. *)
Definition on_response (script : option (value -> result value string)) (p : wresp) : result wresp string :=
  match script with
  | Some f => match f (p_body p) with
              | Ok v => Ok {| p_status := p_status p; p_headers := p_headers p; p_body := v |}
              | Err e => Err e
              end
  | None => Ok p
  end.

(** What is done on the way: requests handed to [on_request], calls made, bodies shown to the script. *)
Inductive event : Type := EvRequest (w : wreq) | EvCall (w : wreq) | EvResponse (v : value).

Section Execute.
  Variable ask : wreq -> result (option command) string.
  Variable responder : option (value -> result value string).
  (** [EvalHttp::execute] (eval_http.rs:77-101) *)
  Variable execute : wreq -> result wresp string.
  (** [serde_json::from_str] *)
  Variable parse_json : string -> option value.
  (** [Url::set_path]: the path as it is then in the URL *)
  Variable norm_path : string -> string.

  (** eval_http.rs:125-128 *)
  Definition set_path (p : string) (w : wreq) : wreq :=
    let o := w_origin w in
    {| w_method := w_method w;
       w_origin := {| o_scheme := o_scheme o; o_user := o_user o; o_host := o_host o; o_port := o_port o; o_path := norm_path p |};
       w_query := w_query w; w_headers := w_headers w; w_body := w_body w; w_value := w_value w |}.

  (** worker.rs:83-94; the body is always a text. *)
  Definition to_response (status : Z) (hs : list (string * string)) (body : string) : result wresp string :=
    match parse_json body with
    | Some v => Ok {| p_status := status; p_headers := hs; p_body := v |}
    | None => Err "Serde"
    end.

  (** eval_http.rs:138-143 *)
  Definition finish (tr : list event) (r : result wresp string) : list event * result wresp string :=
    match r with
    | Ok p => ((tr ++ match responder with Some _ => [EvResponse (p_body p)] | None => [] end)%list, on_response responder p)
    | Err e => (tr, Err e)
    end.

  (** eval_http.rs:103-144; an error given up with [?] passes the last step by, as does one in
      [response]. *)
  Fixpoint execute_with_worker (fuel : nat) (w : wreq) : option (list event * result wresp string) :=
    match fuel with
    | O => None
    | S fuel =>
        match ask w with
        | Err e => Some ([EvRequest w], Err e)
        | Ok None => Some (finish [EvRequest w; EvCall w] (execute w))
        | Ok (Some (CRequest q)) => Some (finish [EvRequest w; EvCall q] (execute q))
        | Ok (Some (CResponse status hs body)) =>
            match (if Z.eqb status 301 || Z.eqb status 302 then aget "location" hs else None) with
            | Some location =>
                match execute_with_worker fuel (set_path location w) with
                | Some (tr, r) => Some (finish (EvRequest w :: tr) r)
                | None => None
                end
            | None => Some (finish [EvRequest w] (to_response status hs body))
            end
        end
    end.
End Execute.
