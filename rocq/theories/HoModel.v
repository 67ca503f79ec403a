(** Hosts: requests and answers on AWS Lambda and Cloudflare Workers, the contexts and values that workers keep, and whether usage is tracked (C100). *)
From Coq Require Import String Ascii NArith Bool List.
From Verif Require Import Base JsonModel.
Import ListNotations.
Open Scope string_scope.
Open Scope list_scope.

(** lambda_http::Request and worker::Request (external crates), as far as the code reads them: of the URL its parts, the parameters of the path as API Gateway gives them, headers in the order in which they are iterated *)
Record event := { ev_method : string; ev_scheme : option string; ev_host : option string; ev_port : option string; ev_path : string; ev_query : option string; ev_params : list (string * string); ev_headers : list (string * string); ev_body : string }.
(** http::Request<hyper::Body>, its URI as text *)
Record hreq := { hr_method : string; hr_uri : string; hr_headers : list (string * string); hr_body : string }.
(** http::Response<hyper::Body> and the responses of both hosts *)
Record hres := { rs_status : N; rs_headers : list (string * string); rs_body : string }.
Inductive outcome (A : Type) : Type := Good (a : A) | Bad (e : string) | Panic.
Arguments Good {A} a. Arguments Bad {A} e. Arguments Panic {A}.

Definition known_methods : list string := ["CONNECT"; "DELETE"; "GET"; "HEAD"; "OPTIONS"; "PATCH"; "POST"; "PUT"; "TRACE"].
(** [Vec::join] *)
Fixpoint join_with (sep : string) (l : list string) : string :=
  match l with
  | [] => ""
  | [x] => x
  | x :: t => (x ++ sep ++ join_with sep t)%string
  end.
(** tailcall-aws-lambda/src/http.rs:58-69 *)
Definition lambda_url (r : event) : outcome string :=
  match ev_host r with
  | None => Bad "Invalid request host"
  | Some h => Good ((match ev_scheme r with Some s => s | None => "http" end) ++ "://" ++ h ++ "/" ++
                    join_with "/" (map snd (filter (fun kv => String.eqb (fst kv) "proxy") (ev_params r))))%string
  end.
Section Requests.
  (** [http::Uri::try_from], whether it takes the text *)
  Variable uri_ok : string -> bool.
  (** tailcall-aws-lambda/src/http.rs:43-80; names and values of headers are checked by the same rules on both sides (74-75) *)
  Definition lambda_request (r : event) : outcome hreq :=
    if smem (ev_method r) known_methods then
      match lambda_url r with
      | Bad e => Bad e
      | Panic => Panic
      | Good u => if uri_ok u then Good {| hr_method := ev_method r; hr_uri := u; hr_headers := ev_headers r; hr_body := ev_body r |} else Bad "invalid uri"
      end
    else Panic.
  (** The text of a URL, as [Url::as_str] has it *)
  Definition url_text (r : event) : string :=
    ((match ev_scheme r with Some s => s | None => "http" end) ++ "://" ++ (match ev_host r with Some h => h | None => "" end) ++
     (match ev_port r with Some p => ":" ++ p | None => "" end) ++ ev_path r ++ (match ev_query r with Some q => "?" ++ q | None => "" end))%string.
  (** tailcall-cloudflare/src/http.rs:69-97; the methods of workers are in upper case already; that [text()] replaces what is not UTF-8 is left out *)
  Definition worker_request (r : event) : outcome hreq :=
    if smem (ev_method r) known_methods then
      if uri_ok (url_text r) then Good {| hr_method := ev_method r; hr_uri := url_text r; hr_headers := ev_headers r; hr_body := ev_body r |} else Bad "invalid uri"
    else Bad ("Unsupported HTTP method: " ++ ev_method r).
End Requests.
(** tailcall-aws-lambda/src/http.rs:82-95 *)
Definition lambda_response (r : hres) : hres := {| rs_status := rs_status r; rs_headers := map (fun kv => (fst kv, snd kv)) (rs_headers r); rs_body := rs_body r |}.
(** tailcall-cloudflare/src/http.rs:52-67: every value must be UTF-8 *)
Section Responses.
  Variable utf8 : string -> bool.
  Fixpoint append_headers (acc : list (string * string)) (l : list (string * string)) : option (list (string * string)) :=
    match l with
    | [] => Some acc
    | (k, v) :: t => if utf8 v then append_headers (acc ++ [(k, v)]) t else None
    end.
  Definition worker_response (r : hres) : outcome hres :=
    match append_headers [] (rs_headers r) with
    | Some hs => Good {| rs_status := rs_status r; rs_headers := hs; rs_body := rs_body r |}
    | None => Bad "invalid utf-8"
    end.
End Responses.

(** What [showcase::create_app_ctx] comes to: an error, a response that refuses, or a context *)
Inductive created (Ctx : Type) : Type := Failed | Refusal (r : string) | Made (c : Ctx).
Arguments Failed {Ctx}. Arguments Refusal {Ctx} r. Arguments Made {Ctx} c.
Section Contexts.
  Context {World Ctx : Type}.
  (** [serde_qs::from_str] *)
  Variable params : string -> option (list (string * string)).
  (** showcase.rs:30-70 (modelled in ScModel): the configuration of this name, read with the files, the environment and the network of the time *)
  Variable make : World -> string -> created Ctx.
  (** tailcall-cloudflare/src/handle.rs:49-53 *)
  Definition file_path (query : option string) : option string :=
    match query with
    | None => None
    | Some q => match params q with Some l => aget "config" l | None => None end
    end.
  (** showcase.rs:17-29 *)
  Definition create (w : World) (query : option string) : created Ctx :=
    match file_path query with
    | None => Refusal "No Config URL specified"
    | Some f => make w f
    end.
  (** handle.rs:55-62: what the worker keeps, asked *)
  Definition look (st : option (string * Ctx)) (query : option string) : option Ctx :=
    match file_path query with
    | None => None
    | Some f => match st with
                | Some (g, c) => if String.eqb g f then Some c else None
                | None => None
                end
    end.
  (** handle.rs:64-75: a context is created, and kept *)
  Definition store (st : option (string * Ctx)) (w : World) (query : option string) : option (string * Ctx) :=
    match create w query with
    | Made c => match file_path query with Some f => Some (f, c) | None => st end
    | _ => st
    end.
  (** handle.rs:44-76, when nothing else happens meanwhile *)
  Definition get_app_ctx (st : option (string * Ctx)) (w : World) (query : option string) : created Ctx * option (string * Ctx) :=
    match look st query with
    | Some c => (Made c, st)
    | None => (create w query, store st w query)
    end.
  (** The requests of a worker, one after the other *)
  Fixpoint serve (st : option (string * Ctx)) (l : list (World * option string)) : list (created Ctx) :=
    match l with
    | [] => []
    | (w, q) :: t => fst (get_app_ctx st w q) :: serve (snd (get_app_ctx st w q)) t
    end.
  (** With other requests in between: the steps of several requests in any order ([Asks]: lines 55-62, [Creates]: lines 64-75) *)
  Inductive step := Asks (q : option string) | Creates (w : World) (q : option string).
  Fixpoint steps (st : option (string * Ctx)) (l : list step) : list (option (created Ctx)) :=
    match l with
    | [] => []
    | Asks q :: t => option_map Made (look st q) :: steps st t
    | Creates w q :: t => Some (create w q) :: steps (store st w q) t
    end.
End Contexts.
Arguments Asks {World} q. Arguments Creates {World} w q.

Section Values.
  (** How [ConstValue] writes numbers and strings (external crate) *)
  Variable number_text : number -> string.
  Variable quoted : string -> string.
  (** [Display for ConstValue] (external crate): GraphQL, in which names are not quoted *)
  Fixpoint display (v : value) : string :=
    match v with
    | VNull => "null"
    | VBool b => if b then "true" else "false"
    | VNum n => number_text n
    | VStr s => quoted s
    | VEnum s => s
    | VList l => ("[" ++ join_with ", " (map display l) ++ "]")%string
    | VObj m => ("{" ++ join_with ", " (map (fun kv => (fst kv ++ ": " ++ display (snd kv))%string) m) ++ "}")%string
    end.
  (** How the store reads JSON (external) *)
  Variable from_json : string -> option value.
  (** The store of the worker (external): texts, and the time in milliseconds up to which they are kept *)
  Definition kv : Type := list (string * (string * N)).
  Definition kv_get (k : string) (now : N) (s : kv) : option string :=
    match aget k s with
    | Some (t, until) => if (now <? until)%N then Some t else None
    | None => None
    end.
  (** [expiration_ttl] is in seconds; that it must be at least 60 is left out *)
  Definition kv_put (k t : string) (now ttl : N) (s : kv) : kv := (k, (t, (now + 1000 * ttl)%N)) :: s.
  (** src/core/ir/eval.rs:47-65 with tailcall-cloudflare/src/cache.rs:33-65 *)
  Definition eval_cached (k : string) (max_age now : N) (io : outcome value) (s : kv) : outcome value * kv :=
    match kv_get k now s with
    | Some t => match from_json t with
                | Some v => (Good v, s)
                | None => (Bad "kv", s)
                end
    | None => match io with
              | Good v => (Good v, kv_put k (display v) now max_age s)
              | Bad e => (Bad e, s)
              | Panic => (Panic, s)
              end
    end.
End Values.

Definition lower (c : ascii) : ascii :=
  let n := N_of_ascii c in if ((65 <=? n) && (n <=? 90))%N then ascii_of_N (n + 32) else c.
(** [str::eq_ignore_ascii_case] *)
Fixpoint eq_ignore_case (a b : string) : bool :=
  match a, b with
  | "", "" => true
  | String c s, String d t => Ascii.eqb (lower c) (lower d) && eq_ignore_case s t
  | _, _ => false
  end.
(** tailcall-tracker/src/can_track.rs:18-24 *)
Definition can_track_inner (is_prod : bool) (enabled : option bool) : bool := match enabled with Some b => b | None => is_prod end.
(** can_track.rs:9-16; a variable that is not Unicode is as one that is not set *)
Definition can_track (is_dev : bool) (env : string -> option string) : bool :=
  can_track_inner (negb is_dev)
    (option_map (fun v => negb (eq_ignore_case v "false"))
       (match env "TAILCALL_TRACKER" with Some v => Some v | None => env "TC_TRACKER" end)).
