(** What the server reads of a request and which headers it answers with:
    src/core/http/request_handler.rs, src/core/http/request_context.rs and
    src/core/blueprint/server.rs. *)
From Coq Require Import String Ascii ZArith NArith Bool List.
From Verif Require Import Base HeadersModel.
Import ListNotations.
Open Scope list_scope.
Open Scope string_scope.

(** * Configured headers: blueprint/server.rs *)

(** http crate, [HeaderName::from_bytes] and [from_str]: the characters of a name, in lower
    case.  The limit on the length is left out. *)
Definition name_char (c : ascii) : bool :=
  let n := N_of_ascii c in
  (((48 <=? n) && (n <=? 57)) || ((65 <=? n) && (n <=? 90)) || ((97 <=? n) && (n <=? 122))
   || existsb (N.eqb n) [33; 35; 36; 37; 38; 39; 42; 43; 45; 46; 94; 95; 96; 124; 126])%N%bool.
Definition header_name (s : string) : option string :=
  if (negb (String.eqb s "") && all_chars name_char s)%bool then Some (lower s) else None.

Inductive server_error : Type :=
| InvalidHeaderName (s : string)
| InvalidHeaderValue (s : string)
| ExperimentalHeaderInvalidFormat (s : string).

(** server.rs:194-215: all errors are reported; a name may be given several times. *)
Definition static_header (kv : string * string) : list server_error + (string * string) :=
  match header_name (fst kv), header_value (snd kv) with
  | Some n, Some v => inr (n, v)
  | None, Some _ => inl [InvalidHeaderName (fst kv)]
  | Some _, None => inl [InvalidHeaderValue (snd kv)]
  | None, None => inl [InvalidHeaderName (fst kv); InvalidHeaderValue (snd kv)]
  end.
(** [Valid::from_iter] *)
Fixpoint all_valid {A B E : Type} (f : A -> list E + B) (l : list A) : list E + list B :=
  match l with
  | [] => inr []
  | a :: t =>
      match f a, all_valid f t with
      | inr b, inr bs => inr (b :: bs)
      | inl e, inl es => inl (e ++ es)%list
      | inl e, inr _ => inl e
      | inr _, inl es => inl es
      end
  end.
Definition static_headers (l : list (string * string)) : list server_error + headers := all_valid static_header l.

(** server.rs:217-235 *)
Definition experimental_header (s : string) : list server_error + string :=
  if negb (prefix "x-" (lower s)) then inl [ExperimentalHeaderInvalidFormat s]
  else match header_name s with Some n => inr n | None => inl [InvalidHeaderName s] end.
Definition experimental_headers (l : list string) : list server_error + list string := all_valid experimental_header l.

(** The parts of [Server] used here. *)
Record server : Type := {
  v_static : headers;
  v_cookies : bool;
  v_experimental : list string }.

(** * Headers of upstream answers: request_context.rs *)

(** The headers kept for the answer to one request. *)
Record kept : Type := { k_x : headers; k_cookies : option headers }.
(** request_context.rs:183-194 *)
Definition kept_new (v : server) : kept := {| k_x := []; k_cookies := if v_cookies v then Some [] else None |}.

(** [HeaderValue::to_str] *)
Definition readable (s : string) : bool := all_chars value_char s.
(** request_context.rs:102-135 *)
Definition set_cookie_headers (hs : headers) (k : kept) : kept :=
  match k_cookies k with
  | None => k
  | Some m =>
      match h_get "set-cookie" hs with
      | None => k
      | Some new =>
          {| k_x := k_x k;
             k_cookies := Some (match h_get "set-cookie" m with
                                | Some old => if (readable old && readable new)%bool
                                              then h_insert "set-cookie" (old ++ "; " ++ new) m else m
                                | None => h_insert "set-cookie" new m
                                end) |}
      end
  end.
(** request_context.rs:161-170; the order of the names, that of a hash set, does not matter *)
Definition add_x_headers (names : list string) (hs : headers) (k : kept) : kept :=
  {| k_x := fold_left (fun m n => match h_get n hs with Some v => h_insert n v m | None => m end) names (k_x k);
     k_cookies := k_cookies k |}.

(** An upstream answer: its status is a success, and its headers. *)
Record upstream_answer : Type := { w_success : bool; w_headers : headers }.
(** ir/eval_http.rs:176-210, without the cache policy (AnswerModel.v).  Run once for every
    call, also if several calls share one upstream answer. *)
Definition note_headers (v : server) (k : kept) (a : upstream_answer) : kept :=
  add_x_headers (v_experimental v) (w_headers a) (if w_success a then set_cookie_headers (w_headers a) k else k).

(** request_context.rs:173-180 *)
Definition extend_x_headers (v : server) (k : kept) (h : headers) : headers :=
  match v_experimental v with
  | [] => h
  | _ => fold_left (fun m nv => h_insert (fst nv) (snd nv) m) (k_x k) h
  end.
(** request_handler.rs:63-82 *)
Definition update_response_headers (v : server) (k : kept) (h : headers) : headers :=
  let h := match v_static v with [] => h | _ => h_extend (v_static v) h end in
  let h := match k_cookies k with Some c => h_extend c h | None => h end in
  extend_x_headers v k h.
(** The headers of the answer to an operation that used these upstream answers, in this
    order; [own]: those of the answer itself, content type and cache control
    (async_graphql_hyper.rs:361-380). *)
Definition client_headers (v : server) (answers : list upstream_answer) (own : headers) : headers :=
  update_response_headers v (fold_left (note_headers v) answers (kept_new v)) own.

(** * The body of a request: request_handler.rs:94-106 *)

(** [Debug] of [str].  Exact for ASCII; of printable characters beyond ASCII the bytes are
    kept, which are taken to be printable. *)
Definition hex_small (n : N) : ascii := if N.ltb n 10 then ascii_of_N (48 + n) else ascii_of_N (87 + n).
Definition debug_char (c : ascii) : string :=
  let n := N_of_ascii c in
  if N.eqb n 0 then "\0" else if N.eqb n 9 then "\t" else if N.eqb n 13 then "\r" else if N.eqb n 10 then "\n"
  else if (N.eqb n 34 || N.eqb n 92)%bool then String "\" (String c "")
  else if (N.ltb n 32 || N.eqb n 127)%bool
  then "\u{" ++ (if N.ltb n 16 then "" else String (hex_small (N.div n 16)) "") ++ String (hex_small (N.modulo n 16)) "" ++ "}"
  else String c "".
Fixpoint debug_text (s : string) : string :=
  match s with EmptyString => "" | String c t => debug_char c ++ debug_text t end.
Definition has_backslash (s : string) : bool := negb (all_chars (fun c => negb (Ascii.eqb c "\")) s).
(** The JSON text that is parsed. *)
Definition request_text (hs : headers) (body : string) : string :=
  match h_get "content-type" hs with
  | Some t =>
      if String.eqb t "application/graphql" then
        if has_backslash body then "{""query"": " ++ body ++ " }"
        else "{""query"": " ++ """" ++ debug_text body ++ """" ++ " }"
      else body
  | None => body
  end.

(** * Routes: request_handler.rs:287-337 *)
Inductive handler : Type := RestApi | Graphql | Showcase | Status | Metrics | NotFound.
Record routes : Type := { o_graphql : string; o_status : string; o_showcase : bool; o_metrics : option string }.
Definition route (o : routes) (method path : string) : handler :=
  if prefix "/api" path then RestApi
  else if (String.eqb method "POST" && String.eqb path (o_graphql o))%bool then Graphql
  else if (String.eqb method "POST" && (o_showcase o && String.eqb path "/showcase/graphql"))%bool then Showcase
  else if (String.eqb method "GET" && String.eqb path (o_status o))%bool then Status
  else if String.eqb method "GET" then
    match o_metrics o with Some p => if String.eqb path p then Metrics else NotFound | None => NotFound end
  else NotFound.
