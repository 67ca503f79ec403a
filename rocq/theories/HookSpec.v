(** Vocabulary for hooks (C76). *)
From Coq Require Import String Ascii ZArith NArith Bool List Permutation.
From Verif Require Import Base JsonModel UrlModel RequestSpec HookModel.
Import ListNotations.
Open Scope string_scope.
Open Scope list_scope.

Definition pairs_of (w : wreq) : list (string * string) := match w_query w with Some q => form_pairs q | None => [] end.

(** The same call to an upstream: parameters and headers may come in another order. *)
Definition same_call (w w' : wreq) : Prop :=
  w_method w' = w_method w /\ w_origin w' = w_origin w /\ w_body w' = w_body w /\
  Permutation (pairs_of w') (pairs_of w) /\ Permutation (w_headers w') (w_headers w).

(** Tabs and visible characters only. *)
Definition printable (v : string) : Prop :=
  forall ch, In ch (list_ascii_of_string v) -> N_of_ascii ch = 9%N \/ (32 <= N_of_ascii ch <= 126)%N.
(** Each name has one value. *)
Definition single (l : list (string * string)) : Prop := NoDup (map fst l).

(** Requests a script can be given and return without loss. *)
Record simple (parse_base : string -> option origin) (lossy : string -> string) (valid_method : string -> bool)
    (header_name : string -> option string) (w : wreq) : Prop := {
  sp_scheme : o_scheme (w_origin w) = "http" \/ o_scheme (w_origin w) = "https";
  sp_host : exists h, o_host (w_origin w) = Some h;
  sp_user : o_user (w_origin w) = "";
  (** a URL without query that is written down and read again *)
  sp_url : forall h, o_host (w_origin w) = Some h ->
    let text := (o_scheme (w_origin w) ++ "://" ++ h ++ (match o_port (w_origin w) with Some p => ":" ++ p | None => "" end) ++ o_path (w_origin w))%string in
    lacks "#" text /\ lacks "?" text /\ parse_base text = Some (w_origin w);
  sp_method : valid_method (w_method w) = true;
  sp_pairs : single (pairs_of w) /\ forall k v, In (k, v) (pairs_of w) -> safe_key k /\ lacks "#" k /\ safe_text v /\ lacks "#" v;
  sp_headers : single (w_headers w) /\ forall k v, In (k, v) (w_headers w) -> header_name k = Some k /\ printable v;
  sp_body : forall b, w_body w = Some b -> lossy b = b }.

(** The script answers [w] with a redirect to [w']; after [n] redirects it answers [w'] with none. *)
Definition redirect (ask : wreq -> result (option command) string) (norm_path : string -> string) (w w' : wreq) : Prop :=
  exists status hs body location, ask w = Ok (Some (CResponse status hs body)) /\ (status = 301 \/ status = 302)%Z /\
    aget "location" hs = Some location /\
    w_origin w' = {| o_scheme := o_scheme (w_origin w); o_user := o_user (w_origin w); o_host := o_host (w_origin w);
                     o_port := o_port (w_origin w); o_path := norm_path location |} /\
    w_method w' = w_method w /\ w_query w' = w_query w /\ w_headers w' = w_headers w /\ w_body w' = w_body w /\ w_value w' = w_value w.
Inductive settles (ask : wreq -> result (option command) string) (norm_path : string -> string) : nat -> wreq -> wreq -> Prop :=
| settles_now w : (forall w', ~ redirect ask norm_path w w') -> settles ask norm_path 0 w w
| settles_later n w w' w'' : redirect ask norm_path w w' -> settles ask norm_path n w' w'' -> settles ask norm_path (S n) w w''.

Definition calls (tr : list event) : list wreq := flat_map (fun e => match e with EvCall w => [w] | _ => [] end) tr.
Definition shown (tr : list event) : list value := flat_map (fun e => match e with EvResponse v => [v] | _ => [] end) tr.

(** What the last request comes to before the script sees the response, and the calls made for it. *)
Inductive answered (ask : wreq -> result (option command) string) (execute : wreq -> result wresp string) (parse_json : string -> option value) (w : wreq) :
    list wreq -> result wresp string -> Prop :=
| by_itself : ask w = Ok None -> answered ask execute parse_json w [w] (execute w)
| by_other q : ask w = Ok (Some (CRequest q)) -> answered ask execute parse_json w [q] (execute q)
| by_script status hs body v : ask w = Ok (Some (CResponse status hs body)) -> parse_json body = Some v ->
    answered ask execute parse_json w [] (Ok {| p_status := status; p_headers := hs; p_body := v |})
| by_bad_script status hs body : ask w = Ok (Some (CResponse status hs body)) -> parse_json body = None ->
    answered ask execute parse_json w [] (Err "Serde")
| by_error e : ask w = Err e -> answered ask execute parse_json w [] (Err e).

(** [n] times through the script that rewrites bodies, the first error ending it. *)
Inductive rewritten (f : value -> result value string) : nat -> wresp -> result wresp string -> Prop :=
| rewritten_none p : rewritten f 0 p (Ok p)
| rewritten_ok n p v r : f (p_body p) = Ok v -> rewritten f n {| p_status := p_status p; p_headers := p_headers p; p_body := v |} r -> rewritten f (S n) p r
| rewritten_err n p e : f (p_body p) = Err e -> rewritten f (S n) p (Err e).

(** What a script returns is no request and no response, or one that cannot be sent. *)
Inductive unusable (valid_method : string -> bool) (header_name : string -> option string) (valid_status : Z -> bool) : js_out -> Prop :=
| unusable_other : unusable valid_method header_name valid_status JOther
| unusable_method r : valid_method (j_method r) = false -> unusable valid_method header_name valid_status (JRequest r)
| unusable_header r k v : In (k, v) (j_headers r) -> header_name k = None \/ ~ printable v -> unusable valid_method header_name valid_status (JRequest r)
| unusable_status r : valid_status (js_status r) = false -> unusable valid_method header_name valid_status (JResponse r)
| unusable_response_header r k v : In (k, v) (js_headers r) -> header_name k = None \/ ~ printable v -> unusable valid_method header_name valid_status (JResponse r).
