(** The answer sent to the client: src/core/async_graphql_hyper.rs, src/core/jit/response.rs
    and the cache policy collected in src/core/http/request_context.rs. *)
From Coq Require Import String Ascii ZArith NArith Bool Arith List.
From Verif Require Import Base JsonModel.
Import ListNotations.
Open Scope list_scope.
Open Scope string_scope.

(** The cache_control crate's result for a Cache-Control header, the parts used here.
    [p_no_store] is parsed by the crate but looked at nowhere. *)
Inductive cachability : Type := Public | Private | NoCache | OnlyIfCached.
Record policy : Type := { p_max_age : option Z; p_cachability : option cachability; p_no_store : bool }.

(** request_context.rs: [min_max_age] and [cache_public]. *)
Record cache_ctx : Type := { c_age : option Z; c_public : option bool }.
Definition cache_ctx_new : cache_ctx := {| c_age := None; c_public := None |}.

(** [u64 as i32] *)
Definition as_i32 (z : Z) : Z := ((z + 2 ^ 31) mod 2 ^ 32 - 2 ^ 31)%Z.

(** request_context.rs:73-84.  The lock is released between reading and writing; see
    [race_step] below. *)
Definition set_min_max_age (z : Z) (c : cache_ctx) : cache_ctx :=
  match c_age c with
  | Some m => if (z <? m)%Z then {| c_age := Some z; c_public := c_public c |} else c
  | None => {| c_age := Some z; c_public := c_public c |}
  end.

(** request_context.rs:65-67, 86-90 *)
Definition set_cache_visibility (o : option cachability) (c : cache_ctx) : cache_ctx :=
  match o with
  | Some Private => {| c_age := c_age c; c_public := Some false |}
  | _ => c
  end.

(** request_context.rs:92-100 *)
Definition set_policy (p : policy) (c : cache_ctx) : cache_ctx :=
  let c := match p_max_age p with Some a => set_min_max_age (as_i32 a) c | None => c end in
  let c := set_cache_visibility (p_cachability p) c in
  match p_cachability p with Some NoCache => set_min_max_age (-1) c | _ => c end.

(** An upstream answer used by an operation: its policy if its Cache-Control header can
    be read (http/cache.rs:5-10), and whether it was fetched by this request or taken
    over from another one, i.e. from the response cache of @cache or from a call of
    another request that was in flight (ir/eval_io.rs:28-37, ir/eval.rs). *)
Record upstream : Type := { a_success : bool; a_policy : option policy; a_reused : bool }.

(** ir/eval_http.rs:185-194 (only reached for answers fetched by this request). *)
Definition note_answer (enabled : bool) (c : cache_ctx) (a : upstream) : cache_ctx :=
  if a_reused a then c
  else if (enabled && a_success a)%bool then
    match a_policy a with Some p => set_policy p c | None => c end
  else c.
Definition note_answers (enabled : bool) (l : list upstream) : cache_ctx :=
  fold_left (note_answer enabled) l cache_ctx_new.

(** async_graphql_hyper.rs:292-301 *)
Record cache_control : Type := { cc_age : Z; cc_public : bool }.
Definition cc_default : cache_control := {| cc_age := 0; cc_public := true |}.

(** async_graphql_hyper.rs:304-325 *)
Definition cc_value (c : cache_control) : option string :=
  let v := if (0 <? cc_age c)%Z then "max-age=" ++ Z_to_string (cc_age c)
           else if (cc_age c =? -1)%Z then "no-cache" else "" in
  let v := if cc_public c then v
           else (if String.eqb v "" then v else v ++ ", ") ++ "private" in
  if String.eqb v "" then None else Some v.

(** async_graphql_hyper.rs:327-339 *)
Definition cc_merge (a b : cache_control) : cache_control :=
  {| cc_public := cc_public a && cc_public b;
     cc_age := if (cc_age a =? -1)%Z then (-1)%Z
               else if (cc_age b =? -1)%Z then (-1)%Z
               else if (cc_age b =? 0)%Z then cc_age a
               else if (cc_age a =? 0)%Z then cc_age b
               else Z.min (cc_age a) (cc_age b) |}.

(** jit/response.rs:92-104 *)
Record any_response : Type := { r_body : string; r_cc : cache_control; r_ok : bool }.
(** response.rs:137-140 *)
Inductive batch_response : Type := Single (r : any_response) | Batch (l : list any_response).

(** response.rs:143-148 *)
Definition batch_is_ok (b : batch_response) : bool :=
  match b with Single r => r_ok r | Batch l => forallb r_ok l end.

(** response.rs:151-164 *)
Definition batch_cache_control (cc : option cache_control) (b : batch_response) : cache_control :=
  match b with
  | Single r => match cc with Some c => c | None => r_cc r end
  | Batch l => fold_left (fun acc r => cc_merge acc (match cc with Some c => c | None => r_cc r end)) l cc_default
  end.

(** async_graphql_hyper.rs:352-357 with request_handler.rs:137-144 *)
Definition own_cache_control (enabled : bool) (c : cache_ctx) : option cache_control :=
  if enabled then Some {| cc_age := match c_age c with Some a => a | None => 0%Z end;
                          cc_public := match c_public c with Some b => b | None => true end |}
  else None.

Record http_answer : Type := { o_status : Z; o_cache : option string; o_body : string }.

(** async_graphql_hyper.rs:382-406 *)
Fixpoint commas (first : bool) (l : list any_response) : string :=
  match l with
  | [] => ""
  | r :: t => (if first then "" else ",") ++ r_body r ++ commas false t
  end.
Definition default_body (b : batch_response) : string :=
  match b with Single r => r_body r | Batch l => "[" ++ commas true l ++ "]" end.

(** async_graphql_hyper.rs:361-380, 408-410 *)
Definition graphql_answer (enabled : bool) (c : cache_ctx) (b : batch_response) : http_answer :=
  {| o_status := 200;
     o_cache := if batch_is_ok b then cc_value (batch_cache_control (own_cache_control enabled c) b) else None;
     o_body := default_body b |}.

(** async_graphql_hyper.rs:217-222 *)
Definition flatten_response (data : value) : value :=
  match data with
  | VObj [(_, v)] => v
  | _ => data
  end.

Section RestAnswer.
  Variable to_text : value -> string.     (** serde_json's text of a value *)
  Variable error_text : string.           (** the text of the whole response *)

  (** async_graphql_hyper.rs:227-249 for a single response, with 268-289. *)
  Definition rest_answer (enabled ok : bool) (c : cache_ctx) (data : value) : http_answer :=
    if ok then
      {| o_status := 200;
         o_cache := cc_value (match own_cache_control enabled c with Some cc => cc | None => cc_default end);
         o_body := to_text (flatten_response data) |}
    else {| o_status := 500; o_cache := None; o_body := error_text |}.
End RestAnswer.

(** * request_context.rs:73-84 on several threads

    Every thread sets a list of values; reading and writing are two separate critical
    sections. *)
Record thread : Type := { t_todo : list Z; t_pending : option Z }.
Record race : Type := { s_age : option Z; s_threads : list thread }.

(** What thread [i] does next. *)
Definition thread_step (age : option Z) (t : thread) : option Z * thread :=
  match t_pending t with
  | Some z => (Some z, {| t_todo := t_todo t; t_pending := None |})                 (* write *)
  | None =>
      match t_todo t with
      | [] => (age, t)
      | z :: rest =>                                                              (* read *)
          (age, {| t_todo := rest;
                   t_pending := match age with
                                | Some m => if (z <? m)%Z then Some z else None
                                | None => Some z
                                end |})
      end
  end.
Fixpoint set_nth {A} (n : nat) (x : A) (l : list A) : list A :=
  match n, l with
  | O, _ :: t => x :: t
  | S m, a :: t => a :: set_nth m x t
  | _, [] => []
  end.
Definition race_step (s : race) (i : nat) : race :=
  match nth_error (s_threads s) i with
  | None => s
  | Some t => let '(age, t') := thread_step (s_age s) t in
              {| s_age := age; s_threads := set_nth i t' (s_threads s) |}
  end.
Definition race_run (s : race) (schedule : list nat) : race := fold_left race_step schedule s.
Definition race_start (todos : list (list Z)) : race :=
  {| s_age := None; s_threads := map (fun l => {| t_todo := l; t_pending := None |}) todos |}.
Definition race_done (s : race) : Prop :=
  forall t, In t (s_threads s) -> t_todo t = [] /\ t_pending t = None.
