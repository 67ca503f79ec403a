(** Theorems about fields that call other fields (C67). *)
From Coq Require Import String Ascii ZArith NArith Arith Bool Lia List.
From Verif Require Import Base Ordered JsonModel TypeModel ConfigModel AuthModel MustacheModel MustacheSpec IrModel ComposeModel CtxModel
  FieldModel FieldSpec CallModel CallSpec CallProofs.
Import ListNotations.
Open Scope string_scope.
Open Scope list_scope.

(** A field that calls others runs them one after the other: each with the arguments given for
    it, its templates filled in with what the one before gave, or with just that if none are
    given; the first error is the error of the call. *)
Theorem C67_steps_run_in_turn :
  forall {IO F Key St} compile valid_templates m rx ext req (do_io : IO -> ctx -> St -> result value F * St)
    (cache_key : IO -> ctx -> option Key) cache_get cache_set object steps e,
  compile_call valid_templates m compile object steps = Ok e ->
  exists l, Forall2 (runs_as compile valid_templates m object) steps l /\
    forall c st, in_turn rx (eval rx ext req do_io cache_key cache_get cache_set) (combine steps l) c st
                   (eval rx ext req do_io cache_key cache_get cache_set e c st).
Proof.
  intros IO F Key St compile valid_templates m rx ext req do_io cache_key cache_get cache_set object steps e H.
  exact (call_runs valid_templates m compile object rx ext req do_io cache_key cache_get cache_set steps e H).
Qed.
Print Assumptions C67_steps_run_in_turn.

(** It is accepted exactly if there is a step and every step names a field that can be
    resolved, with all its required arguments. *)
Theorem C67_accepted_exactly : forall {IO} compile valid_templates m object steps,
  (exists e : ir IO, compile_call valid_templates m compile object steps = Ok e) <->
  steps <> [] /\ forall s, In s steps -> exists e, runs_as compile valid_templates m object s e.
Proof. intros IO compile valid_templates m object steps. exact (call_some valid_templates m compile object steps). Qed.
Print Assumptions C67_accepted_exactly.

(** The protection of a called field holds for the caller too: a request it refuses gets an
    error, and nothing is called if it is the first step. *)
Theorem C67_protection_is_kept :
  forall {IO F Key St} compile valid_templates m rx ext req (do_io : IO -> ctx -> St -> result value F * St)
    (cache_key : IO -> ctx -> option Key) cache_get cache_set object steps e s t f p fl,
  compile_call valid_templates m compile object steps = Ok e -> In s steps -> calls m s t f ->
  marked m t f -> demanded m t f p -> verify_provider ext p req = Fail fl ->
  forall c st,
    (exists er, fst (eval rx ext req do_io cache_key cache_get cache_set e c st) = Err er) /\
    (hd_error steps = Some s ->
     exists er, eval rx ext req do_io cache_key cache_get cache_set e c st = (Err (EAuth er), st)).
Proof.
  intros IO F Key St compile valid_templates m rx ext req do_io cache_key cache_get cache_set object steps e s t f p fl A B C D E G.
  exact (call_refused valid_templates m compile object rx ext req do_io cache_key cache_get cache_set steps e s t f p fl A B C D E G).
Qed.
Print Assumptions C67_protection_is_kept.

(** Fields whose calls lead back to each other are never accepted, however large the stack. *)
Theorem C67_loops_are_not_accepted :
  forall {IO} valid_templates m (compile_other : string -> field -> resolver -> valid (option (ir IO))) steps_of (L : string -> Prop),
  (forall text, L text -> exists s t f text',
     In s (steps_of text) /\ calls m s t f /\ In (RCall text') (f_resolvers f) /\ L text') ->
  forall stack object f text, L text ->
    exists es, compile_resolver valid_templates m compile_other steps_of stack object f (RCall text) = Err es.
Proof.
  intros IO valid_templates m compile_other steps_of L H stack object f text I.
  exact (loops valid_templates m compile_other steps_of L H stack object f text I).
Qed.
Print Assumptions C67_loops_are_not_accepted.

(** A small world: an upstream call is its address; it gives the arguments back, and every call
    made is remembered. *)
Definition yf (args : list (string * arg)) (p : option protected) (r : list resolver) : field :=
  {| f_type := TNamed "JSON" false; f_args := args; f_doc := None; f_modify := None; f_omit := false; f_cache := None; f_default := None;
     f_protected := p; f_discriminate := None; f_resolvers := r; f_directives := [] |}.
Definition yarg (nn : bool) (d : option string) : arg := {| arg_type := TNamed "Int" nn; arg_doc := None; arg_modify := None; arg_default := d |}.
Definition yt (fs : list (string * field)) : gtype :=
  {| t_fields := fs; t_added := []; t_doc := None; t_implements := []; t_cache := None; t_protected := None; t_resolvers := []; t_directives := [] |}.
Definition ym (query : string) (types : list (string * gtype)) : cmodule :=
  {| m_config := {| c_server := empty_server; c_upstream := empty_upstream;
       c_schema := {| r_query := Some query; r_mutation := None; r_subscription := None |};
       c_types := types; c_unions := []; c_enums := []; c_links := []; c_telemetry := empty_telemetry |};
     m_inputs := []; m_interfaces := []; m_providers := [(None, PBasic "pw")] |}.
Definition ycompile (_ : string) (_ : field) (r : resolver) : valid (option (ir string)) :=
  match r with RHttp _ u => Ok (Some (IIO u)) | _ => Ok None end.
Definition yvalid (_ : gtype) (_ : fdef string) : valid unit := Ok tt.
Definition yrx : req_ext :=
  {| x_header := fun _ => None; x_var := fun _ => None; x_env := fun _ => None; x_vars_json := "{}";
     x_json_text := fun _ => "7"; x_graphql_text := fun _ => ""; x_parse := fun _ => None |}.
Definition yext : auth_ext :=
  {| x_htpasswd := fun file _ p => String.eqb file p; x_header_kid := fun _ => None; x_key_ok := fun _ => true;
     x_alg_ok := fun _ => true; x_sig_ok := fun _ _ => true; x_claims := fun _ => None |}.
Definition yio (u : string) (c : ctx) (st : list string) : result value string * list string :=
  (Ok (VObj [("from", VStr u); ("args", match path_arg c [] with Some v => cow_value v | None => VNull end)]), u :: st).
Definition yrun (e : ir string) (args : list (string * value)) :=
  eval (Key := unit) yrx yext {| r_basic := Ok None; r_bearer := Ok None |} yio (fun _ _ => None) (fun _ st => (Ok None, st)) (fun _ _ _ st => (Ok tt, st)) e
    {| c_value := None; c_args := Some args; c_over_value := None; c_over_args := None; c_is_query := true |} [].
Definition ystep (q : string) (args : list (string * value)) : step := {| s_query := Some q; s_mutation := None; s_args := args |}.
Definition y67 : cmodule := ym "Query" [("Query", yt
  [("loop", yf [] None [RCall "loop"]);
   ("page", yf [("n", yarg false (Some "10"))] None [RHttp [] "/page"]);
   ("post", yf [("id", yarg true None)] None [RHttp [] "/post"]);
   ("secret", yf [] (Some {| prot_id := None |}) [RHttp [] "/secret"]);
   ("user", yf [("id", yarg true None)] None [RHttp [] "/user"])])].
Definition ycall (steps : list step) := compile_call yvalid y67 ycompile "Query" steps.
Definition two67 : list step := [ystep "post" [("id", VStr "{{.args.id}}")]; ystep "user" [("id", VStr "by {{.args.from}}")]].

(** Two steps: the argument of the second is taken from what the first gave. *)
Example C67_witness :
  exists e, ycall two67 = Ok e /\
    yrun e [("id", VStr "1")] =
      (Ok (VObj [("from", VStr "/user"); ("args", VObj [("id", VStr "by /post")])]), ["/user"; "/post"]) /\
    runs_as ycompile yvalid y67 "Query" (ystep "post" [("id", VStr "{{.args.id}}")]) (IIO "/post").
Proof.
  eexists. split; [reflexivity|]. split; [vm_compute; reflexivity|].
  exists (yt [("loop", yf [] None [RCall "loop"]);
   ("page", yf [("n", yarg false (Some "10"))] None [RHttp [] "/page"]);
   ("post", yf [("id", yarg true None)] None [RHttp [] "/post"]);
   ("secret", yf [] (Some {| prot_id := None |}) [RHttp [] "/secret"]);
   ("user", yf [("id", yarg true None)] None [RHttp [] "/user"])]), (yf [("id", yarg true None)] None [RHttp [] "/post"]).
  eexists. split; [|split; reflexivity].
  exists "Query", "post". split; [left; auto|]. split; [reflexivity|]. split; [reflexivity|].
  intros k a [E | []] _. injection E as <- <-. cbn. auto.
Qed.
Example C67_missing_argument : exists es, ycall [ystep "post" []] = Err es.
Proof. eexists. reflexivity. Qed.
Example C67_protected_witness :
  let s := ystep "secret" [] in let f := yf [] (Some {| prot_id := None |}) [RHttp [] "/secret"] in
  exists e t, ycall [s; ystep "user" [("id", VNum (NInt 1))]] = Ok e /\ calls y67 s t f /\ marked y67 t f /\ demanded y67 t f (PBasic "pw") /\
    verify_provider yext (PBasic "pw") {| r_basic := Ok None; r_bearer := Ok None |} = Fail EMissing /\
    yrun e [] = (Err (EAuth EMissing), []).
Proof.
  eexists. exists (yt
  [("loop", yf [] None [RCall "loop"]);
   ("page", yf [("n", yarg false (Some "10"))] None [RHttp [] "/page"]);
   ("post", yf [("id", yarg true None)] None [RHttp [] "/post"]);
   ("secret", yf [] (Some {| prot_id := None |}) [RHttp [] "/secret"]);
   ("user", yf [("id", yarg true None)] None [RHttp [] "/user"])]). split; [reflexivity|]. split; [|split; [|split; [|split; reflexivity]]].
  - exists "Query", "secret". split; [left; auto|]. split; [reflexivity|]. split; [reflexivity|]. intros k a [].
  - left. discriminate.
  - right. split; [|exists None; cbn; auto]. intros id [A | A]; destruct A as (p & l & A & B & C); cbn in A; try discriminate.
    injection A as <-. discriminate.
Qed.

(** Finding: the default of an argument of the called field is not used. *)
Theorem C67_defaults_refuted :
  exists f e, oget scmp "page" (match find_type (m_config y67) "Query" with Some t => t_fields t | None => [] end) = Some f /\
    f_args f = [("n", yarg false (Some "10"))] /\
    ycall [ystep "page" [("other", VBool true)]] = Ok e /\
    yrun e [] = (Ok (VObj [("from", VStr "/page"); ("args", VObj [("other", VBool true)])]), ["/page"]).
Proof. eexists. eexists. split; [reflexivity|]. split; [reflexivity|]. split; reflexivity. Qed.
Print Assumptions C67_defaults_refuted.

(** Finding: fields of a query type of another name cannot be called. *)
Theorem C67_renamed_roots_refuted :
  exists m t, r_query (c_schema (m_config m)) = Some "Root" /\ find_type (m_config m) "Root" = Some t /\ In "user" (map fst (t_fields t)) /\
    exists es, compile_call yvalid m ycompile "Root" [ystep "user" []] = Err es.
Proof.
  exists (ym "Root" [("Root", yt [("user", yf [] None [RHttp [] "/user"])])]). eexists. split; [reflexivity|]. split; [reflexivity|].
  split; [cbn; auto|]. eexists. reflexivity.
Qed.
Print Assumptions C67_renamed_roots_refuted.

(** Finding: a field that calls itself is not reported: compiling it runs out of stack,
    whatever its size. *)
Theorem C67_loops_are_reported_refuted :
  exists m f text steps_of, find_type (m_config m) "Query" <> None /\ f_resolvers f = [RCall text] /\
    forall stack, exists path, compile_resolver yvalid m ycompile steps_of stack "Query" f (RCall text) = Err [Build_cause path Panic].
Proof.
  exists y67, (yf [] None [RCall "loop"]), "loop", (fun _ => [ystep "loop" []]). split; [discriminate|]. split; [reflexivity|].
  induction stack as [|stack [path IH]]; [exists []; reflexivity|].
  exists ("@call" :: path). cbn [compile_resolver]. unfold compile_call, all_checked, compile_step, get_field_and_field_name, find_type.
  cbn -[to_field_definition compile_resolver]. unfold to_field_definition.
  unfold and_, update_args, update_resolver, trace. cbn -[compile_resolver]. 
  change (compile_resolver yvalid y67 ycompile (fun _ => [ystep "loop" []]) stack "Query" _ (RCall "loop")) with
   (compile_resolver yvalid y67 ycompile (fun _ => [ystep "loop" []]) stack "Query" (yf [] None [RCall "loop"]) (RCall "loop")).
  rewrite IH. reflexivity.
Qed.
Print Assumptions C67_loops_are_reported_refuted.
Example C67_loop_witness : exists L : string -> Prop, L "loop" /\
  forall text, L text -> exists s t f text',
     In s ((fun _ : string => [ystep "loop" []]) text) /\ calls y67 s t f /\ In (RCall text') (f_resolvers f) /\ L text'.
Proof.
  exists (fun t => t = "loop"). split; [reflexivity|]. intros text ->. exists (ystep "loop" []). eexists. eexists. exists "loop".
  split; [now left|]. split; [|split; [|reflexivity]].
  - exists "Query", "loop". split; [left; auto|]. split; [reflexivity|]. split; [reflexivity|]. intros k a [].
  - cbn. auto.
Qed.
