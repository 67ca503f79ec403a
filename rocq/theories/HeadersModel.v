(** Header maps (the http crate's [HeaderMap]) and what src/core/http/request_handler.rs
    does with them. *)
From Coq Require Import String Ascii ZArith NArith Bool Arith List.
From Verif Require Import Base.
Import ListNotations.
Open Scope string_scope.
Open Scope list_scope.

(** Names are lower case, as [HeaderName] guarantees; a name may occur several times.
    Simplification: the order between different names is the order of insertion. *)
Definition headers := list (string * string).

Definition h_all (n : string) (h : headers) : list string :=
  map snd (filter (fun p => String.eqb n (fst p)) h).
(** [get]: the first value. *)
Definition h_get (n : string) (h : headers) : option string := aget n h.
Definition h_remove (n : string) (h : headers) : headers :=
  filter (fun p => negb (String.eqb n (fst p))) h.
(** [insert] replaces every value of the name. *)
Definition h_insert (n v : string) (h : headers) : headers := h_remove n h ++ [(n, v)].
Definition h_append (n v : string) (h : headers) : headers := h ++ [(n, v)].
(** [extend] with (name, value) pairs, e.g. an [Option] of one: appends. *)
Definition h_extend_opt (o : option (string * string)) (h : headers) : headers :=
  match o with Some (n, v) => h_append n v h | None => h end.
(** [extend] with another map or what it drains: replaces the names of [other]. *)
Definition h_extend (other h : headers) : headers :=
  filter (fun p => negb (smem (fst p) (akeys other))) h ++ other.

(** [u8::to_ascii_lowercase], [str::eq_ignore_ascii_case]. *)
Definition lower_char (c : ascii) : ascii :=
  let n := N_of_ascii c in if ((65 <=? n) && (n <=? 90))%N then ascii_of_N (n + 32) else c.
Fixpoint lower (s : string) : string :=
  match s with EmptyString => EmptyString | String c t => String (lower_char c) (lower t) end.
Definition eq_ignore_case (a b : string) : bool := String.eqb (lower a) (lower b).

(** [HeaderValue::from_str]: visible ASCII, space and tab. *)
Definition value_char (c : ascii) : bool :=
  let n := N_of_ascii c in (((32 <=? n) && (n <? 127)) || (n =? 9))%N.
Fixpoint all_chars (p : ascii -> bool) (s : string) : bool :=
  match s with EmptyString => true | String c t => p c && all_chars p t end.
Definition header_value (s : string) : option string := if all_chars value_char s then Some s else None.

(** request_handler.rs:151-162 *)
Definition create_allowed_headers (hs : headers) (allowed : list string) : headers :=
  fold_left (fun new kv => if existsb (fun a => eq_ignore_case a (fst kv)) allowed
                           then h_insert (fst kv) (snd kv) new else new) hs [].

(** http/request_template.rs:159-187, with the configured headers already rendered
    (101-111); [form]: the encoding.  graphql/request_template.rs:74-91 is the case
    [get := false, form := false]. *)
Definition set_headers (get form : bool) (configured : headers) (from_client : headers) : headers :=
  let hs := h_extend configured [] in
  let hs := if get then hs
            else h_insert "content-type" (if form then "application/x-www-form-urlencoded" else "application/json") hs in
  h_extend from_client hs.

(** http/request_template.rs:101-111: later entries replace earlier ones, unreadable
    values are left out. *)
Definition create_headers (rendered : headers) : headers :=
  fold_left (fun new kv => match header_value (snd kv) with Some v => h_insert (fst kv) v new | None => new end)
            rendered [].

(** * CORS: src/core/blueprint/cors.rs *)

(** config/cors.rs:12-62, without [max_age] and with the methods as their names. *)
Record cors_config : Type := {
  k_credentials : option bool;
  k_headers : list string;
  k_methods : list string;
  k_origins : list string;
  k_private_network : option bool;
  k_expose : list string;
  k_vary : list string
}.

(** blueprint/cors.rs:10-19 *)
Record cors : Type := {
  r_credentials : bool;
  r_headers : option string;
  r_methods : option string;
  r_origins : list string;
  r_private_network : bool;
  r_expose : option string;
  r_vary : list string
}.

Inductive cors_error : Type := BadHeaderValue (s : string) | InvalidCors (header : string).

(** cors.rs:196-199 *)
Definition is_wildcard (s : string) : bool := String.eqb s "*".

Definition parse_value (s : string) : result string cors_error :=
  match header_value s with Some v => Ok v | None => Err (BadHeaderValue s) end.

(** cors.rs:119-168 *)
Definition ensure_usable (c : cors) : result unit cors_error :=
  if r_credentials c then
    if match r_headers c with Some v => is_wildcard v | None => false end
    then Err (InvalidCors "Access-Control-Allow-Headers")
    else if match r_methods c with Some v => is_wildcard v | None => false end
    then Err (InvalidCors "Access-Control-Allow-Methods")
    else if existsb is_wildcard (r_origins c)
    then Err (InvalidCors "Access-Control-Allow-Origin")
    else if match r_expose c with Some v => is_wildcard v | None => false end
    then Err (InvalidCors "Access-Control-Expose-Headers")
    else Ok tt
  else Ok tt.

(** cors.rs:170-237 *)
Definition cors_of (k : cors_config) : result cors cors_error :=
  rbind (parse_value (String.concat ", " (k_headers k))) (fun hs =>
  rbind (parse_value (match k_methods k with [] => "*" | ms => String.concat ", " ms end)) (fun ms =>
  rbind (mapM parse_value (k_origins k)) (fun os =>
  rbind (parse_value (String.concat ", " (k_expose k))) (fun ex =>
  rbind (mapM parse_value (k_vary k)) (fun vs =>
  let c := {| r_credentials := match k_credentials k with Some b => b | None => false end;
              r_headers := match k_headers k with [] => None | _ => Some hs end;
              r_methods := Some ms; r_origins := os;
              r_private_network := match k_private_network k with Some b => b | None => false end;
              r_expose := Some ex; r_vary := vs |} in
  rbind (ensure_usable c) (fun _ => Ok c)))))).

(** A request as far as this file looks at it. *)
Record http_request : Type := { q_options : bool; q_headers : headers }.

(** cors.rs:22-32 *)
Definition allow_origin (c : cors) (origin : option string) : option (string * string) :=
  match origin with
  | None => None
  | Some o => if existsb is_wildcard (r_origins c) then Some ("access-control-allow-origin", o)
              else if smem o (r_origins c) then Some ("access-control-allow-origin", o) else None
  end.
(** cors.rs:34-41 *)
Definition allow_credentials (c : cors) : option (string * string) :=
  if r_credentials c then Some ("access-control-allow-credentials", "true") else None.
(** cors.rs:43-71 *)
Definition allow_private_network (c : cors) (h : headers) : option (string * string) :=
  if r_private_network c then
    match h_get "access-control-request-private-network" h with
    | Some v => if String.eqb v "true" then Some ("access-control-allow-private-network", "true") else None
    | None => None
    end
  else None.
Definition named (n : string) (o : option string) : option (string * string) :=
  match o with Some v => Some (n, v) | None => None end.
(** cors.rs:101-111 *)
Definition vary_header (c : cors) : option (string * string) :=
  match r_vary c with
  | [] => None
  | vs => named "vary" (header_value (String.concat ", " vs))
  end.

(** request_handler.rs:196-247; [inner]: the headers of the answer without CORS. *)
Definition with_cors (c : cors) (inner : headers) (r : http_request) : headers :=
  let hs := h_extend_opt (allow_origin c (h_get "origin" (q_headers r))) [] in
  let hs := h_extend_opt (allow_credentials c) hs in
  let hs := h_extend_opt (allow_private_network c (q_headers r)) hs in
  let hs := h_extend_opt (vary_header c) hs in
  if q_options r then
    let hs := h_extend_opt (named "access-control-allow-methods" (r_methods c)) hs in
    h_extend_opt (named "access-control-allow-headers" (r_headers c)) hs
  else
    let hs := h_extend_opt (named "access-control-expose-headers" (r_expose c)) hs in
    let out := match h_get "vary" hs with Some v => h_append "vary" v inner | None => inner end in
    h_extend (h_remove "vary" hs) out.

(** request_handler.rs:164-194 and 353-366: without a CORS configuration. *)
Definition tailcall_https : string := "https://tailcall.run".
Definition tailcall_http : string := "http://tailcall.run".
Definition without_cors (inner : headers) (r : http_request) : headers :=
  match h_get "origin" (q_headers r) with
  | Some o =>
      if (String.eqb o tailcall_https || String.eqb o tailcall_http)%bool then
        if q_options r then
          [("access-control-allow-origin", tailcall_https);
           ("access-control-allow-methods", "GET, POST, OPTIONS");
           ("access-control-allow-headers", "*")]
        else h_insert "access-control-allow-origin" tailcall_https inner
      else inner
  | None => inner
  end.
Definition answer_headers (c : option cors) (inner : headers) (r : http_request) : headers :=
  match c with Some c => with_cors c inner r | None => without_cors inner r end.
