(** The settings of [@server] that bear on operations: the limit of time, validation and tracing, and where they are looked at (C102). *)
From Coq Require Import String ZArith NArith Bool List.
From Verif Require Import Base JsonModel.
Import ListNotations.
Open Scope string_scope.
Open Scope list_scope.

(** config/directives/server.rs:28-90, as far as operations are concerned; the getters: 180-217 *)
Record settings := { s_timeout : option Z; s_tracing : option bool; s_validation : option bool; s_introspection : option bool }.
Definition default {A} (d : A) (o : option A) : A := match o with Some a => a | None => d end.
(** async_graphql::Response, with the names of its extensions *)
Record response := { r_data : value; r_errors : list string; r_extensions : list string }.
(** A response, and the milliseconds after which it is there *)
Definition timed : Type := response * N.
Inductive mode := Strict | Fast.
Inductive extension := ApolloTracing | GlobalTimeout | Added (name : string).
(** async_graphql's schema, as far as it is built from the settings *)
Record schema := { sc_extensions : list extension; sc_data : option Z; sc_mode : mode; sc_introspection : bool; sc_resolvers : bool }.
(** blueprint/blueprint.rs:206-246; resolvers are dropped of all objects (185-195) *)
Definition to_schema_with (s : settings) (no_resolver : bool) (added : list string) : schema :=
  let tracing := if default false (s_tracing s) then [ApolloTracing] else [] in
  let limit := default 0%Z (s_timeout s) in
  let timeout := if (0 <? limit)%Z then [GlobalTimeout] else [] in
  {| sc_extensions := tracing ++ timeout ++ map Added added;
     sc_data := if (0 <? limit)%Z then Some limit else None;
     sc_mode := if default false (s_validation s) || no_resolver then Strict else Fast;
     sc_introspection := negb (negb (default true (s_introspection s)) || no_resolver);
     sc_resolvers := negb no_resolver |}.
(** An operation: whether it keeps to the rules that each mode checks, what its resolvers come to, with and without questions about the schema *)
Record operation := { o_strict : bool; o_fast : bool; o_questions : bool; o_fields : bool -> timed; o_schema : timed }.
(** async_graphql (external crate): what validation answers *)
Definition invalid : response := {| r_data := VNull; r_errors := ["invalid"]; r_extensions := [] |}.
(** blueprint/timeout.rs:22-47: [tokio::time::timeout] asks the operation before the clock *)
Definition global_timeout (data : option Z) (inner : timed) : timed :=
  match data with
  | Some z => let limit := Z.to_N z in
              if (0 <? limit)%N then
                if (snd inner <=? limit)%N then inner
                else ({| r_data := VNull; r_errors := ["Global timeout"]; r_extensions := [] |}, limit)
              else inner
  | None => inner
  end.
Section Library.
  (** What other extensions do (runtime.rs:30; none are added by the command line: cli/runtime/mod.rs:82) *)
  Variable other : string -> timed -> timed.
  Definition around (data : option Z) (e : extension) (inner : timed) : timed :=
    match e with
    | GlobalTimeout => global_timeout data inner
    | ApolloTracing => ({| r_data := r_data (fst inner); r_errors := r_errors (fst inner); r_extensions := r_extensions (fst inner) ++ ["tracing"] |}, snd inner)
    | Added n => other n inner
    end.
  (** Schema::execute (external crate): validation, then the operation within the extensions, the first of them outermost *)
  Definition library (sc : schema) (questions_only : bool) (o : operation) : timed :=
    if (match sc_mode sc with Strict => o_strict o | Fast => o_fast o end) then
      fold_right (around (sc_data sc)) (if questions_only then (if sc_introspection sc then o_schema o else ({| r_data := VObj []; r_errors := []; r_extensions := [] |}, 0%N)) else o_fields o (sc_resolvers sc)) (sc_extensions sc)
    else (invalid, 0%N).
  (** jit/response.rs: [merge_with] (modelled in C73) *)
  Variable merge : response -> response -> response.
  (** jit/exec_const.rs:36-103: the plan is run here, and the schema is asked only about itself *)
  Definition graphql (s : settings) (added : list string) (o : operation) : timed :=
    let own := o_fields o true in
    if default true (s_introspection s) && o_questions o then
      let answer := library (to_schema_with s false added) true o in
      (merge (fst own) (fst answer), (snd own + snd answer)%N)
    else own.
  (** http/request_handler.rs:266-271: REST endpoints are executed by the schema *)
  Definition rest (s : settings) (added : list string) (o : operation) : timed := library (to_schema_with s false added) false o.
  (** rest/operation.rs:22-52: the check of REST operations, without resolvers *)
  Definition checked (s : settings) (o : operation) : timed := library (to_schema_with s true []) false o.
End Library.
