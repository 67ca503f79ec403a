(** C32 (evaluation), C33 (caching a resolver) and C06 (hoisting guards). *)
From Coq Require Import String Ascii ZArith NArith Bool List.
From Verif Require Import Base JsonModel TypeModel MustacheModel CtxModel AuthModel DiscModel MergeModel IrModel TtlModel
  IrSpec IrProofs GuardProofs PlanModel OpModel OpSpec OpProofs.
Import ListNotations.
Open Scope string_scope.
Open Scope list_scope.

(** *** C32 *)

(** Evaluation is exactly what the rules of [Ev] (IrSpec.v) say, in every context
    and outside state: results, errors and effects. *)
Theorem C32_evaluation_follows_the_rules :
  forall (IO F Key St : Type) rx ext req (do_io : IO -> ctx -> St -> result value F * St)
         (cache_key : IO -> ctx -> option Key) cache_get cache_set e c st r st',
    eval rx ext req do_io cache_key cache_get cache_set e c st = (r, st') <->
    Ev rx ext req do_io cache_key cache_get cache_set e c st r st'.
Proof. intros. apply eval_meaning. Qed.
Print Assumptions C32_evaluation_follows_the_rules.

(** The meaning of an expression depends only on the meaning of its parts. *)
Theorem C32_parts_can_be_replaced :
  forall (IO F Key St : Type) rx ext req (do_io : IO -> ctx -> St -> result value F * St)
         (cache_key : IO -> ctx -> option Key) cache_get cache_set e e',
    (forall c st, eval rx ext req do_io cache_key cache_get cache_set e c st =
                  eval rx ext req do_io cache_key cache_get cache_set e' c st) ->
    forall x y, Replaced e e' x y -> forall c st,
      eval rx ext req do_io cache_key cache_get cache_set x c st =
      eval rx ext req do_io cache_key cache_get cache_set y c st.
Proof. intros IO F Key St rx ext req do_io ck cg cs e e' H x y R c st.
  exact (replace_equal rx ext req do_io ck cg cs e e' H x y R c st). Qed.
Print Assumptions C32_parts_can_be_replaced.

(** Every upstream call made stands outside all guards that the request fails;
    keeping a log of the calls changes nothing else. *)
Theorem C32_no_call_behind_a_failed_guard :
  forall (IO F Key St : Type) rx ext req (do_io : IO -> ctx -> St -> result value F * St)
         (cache_key : IO -> ctx -> option Key)
         (cache_get : Key -> St -> result (option value) F * St)
         (cache_set : Key -> value -> Z -> St -> result unit F * St) e c st log r st' log',
    eval rx ext req (logged do_io) cache_key
         (fun k => unlogged (cache_get k)) (fun k v age => unlogged (cache_set k v age))
         e c (st, log) = (r, (st', log')) ->
    eval rx ext req do_io cache_key cache_get cache_set e c st = (r, st') /\
    exists calls, log' = log ++ calls /\ forall io, In io calls -> Reachable ext req e io.
Proof. intros IO F Key St rx ext req do_io ck cg cs e c st log r st' log'.
  exact (only_reachable_calls rx ext req do_io ck cg cs e c st log r st' log'). Qed.
Print Assumptions C32_no_call_behind_a_failed_guard.

(** A world to try expressions in: calls are texts, each answers with its own
    text; one password is known. *)
Definition ext32 : auth_ext :=
  {| x_htpasswd := fun f u p => String.eqb (u ++ ":" ++ p) f; x_header_kid := fun _ => None;
     x_key_ok := fun _ => false; x_alg_ok := fun _ => false; x_sig_ok := fun _ _ => false;
     x_claims := fun _ => None |}.
Definition alice : request := {| r_basic := Ok (Some ("alice", "pw")); r_bearer := Ok None |}.
Definition nobody : request := {| r_basic := Ok None; r_bearer := Ok None |}.
Definition lock : auth := AProvider (PBasic "alice:pw").
Definition rx32 : req_ext :=
  {| x_header := fun _ => None; x_var := fun _ => None; x_env := fun _ => None; x_vars_json := "{}";
     x_json_text := fun _ => ""; x_graphql_text := fun _ => ""; x_parse := fun _ => None |}.
Definition ctx32 : ctx :=
  {| c_value := Some (VObj [("id", VStr "7")]); c_args := Some [("n", VStr "arg")]; c_over_value := None;
     c_over_args := None; c_is_query := true |}.
Definition io32 (io : string) (_ : ctx) (st : nat) : result value string * nat :=
  if String.eqb io "bad" then (Err "down", S st) else (Ok (VObj [(io, VStr "RED")]), S st).
Definition eval32 (req : request) (e : ir string) (st : nat) :=
  eval rx32 ext32 req io32 (fun _ _ => None) (fun (k : Z) st => (Ok None, st))
       (fun _ _ _ st => (Ok tt, st)) e ctx32 st.

Example C32_witness :
  (* a list cannot be selected from by name; the merge of an object and a text is the text *)
  eval32 alice (IMerge [IIO "a"; IIO "b"]) 0%nat = (Ok (VObj [("a", VStr "RED"); ("b", VStr "RED")]), 2%nat) /\
  eval32 alice (IPipe (IIO "b") (IDynamic (DMustache [Expression ["args"; "b"]]))) 0%nat = (Ok (VStr "RED"), 1%nat) /\
  eval32 alice (IMap (IPath (IProtect lock (IIO "a")) ["a"]) [("RED", "red")]) 0%nat = (Ok (VStr "red"), 1%nat) /\
  eval32 nobody (IMap (IPath (IProtect lock (IIO "a")) ["a"]) [("RED", "red")]) 0%nat = (Err (EAuth EMissing), 0%nat) /\
  (* all members of a merge run; the first failure is reported *)
  eval32 alice (IMerge [IIO "a"; IIO "bad"; IProtect lock (IIO "c")]) 0%nat = (Err (EOutside "down"), 3%nat).
Proof. repeat split. Qed.

(** *** C33 *)

(** Wrapping puts every upstream call behind a cache of the given age, and changes
    nothing else. *)
Theorem C33_every_call_is_wrapped_and_nothing_else :
  forall (IO : Type) age (e e' : ir IO), cache_wrap age e = e' <-> CachedCopy age e e'.
Proof.
  intros IO age e e'. split.
  - intros <-. exact (wrap_copy age e).
  - intros H. exact (copy_fun age e _ _ (wrap_copy age e) H).
Qed.
Print Assumptions C33_every_call_is_wrapped_and_nothing_else.

(** While the upstream answers calls of equal keys equally, the wrapped expression
    has the result of the plain one, from any cache content that agrees with the
    upstream, however much time passes; and the cache still agrees afterwards. *)
Theorem C33_caching_changes_no_result :
  forall (IO F : Type) rx ext req (answer : IO -> ctx -> result value F) elapsed cap key age (e : ir IO) c o,
    (forall io io' c c' k, key io c = Some k -> key io' c' = Some k -> answer io c = answer io' c') ->
    Consistent answer key o ->
    fst (eval rx ext req (stable_call answer elapsed) key stable_get (stable_set cap) (cache_wrap age e) c o) =
    fst (eval rx ext req (stable_call answer elapsed) key stable_get (stable_set cap) e c o) /\
    Consistent answer key
      (snd (eval rx ext req (stable_call answer elapsed) key stable_get (stable_set cap) (cache_wrap age e) c o)).
Proof.
  intros IO F rx ext req answer elapsed cap key age e c o K G.
  exact (caching_transparent rx ext req answer elapsed cap key K age e c o G).
Qed.
Print Assumptions C33_caching_changes_no_result.

Definition answer33 (io : string) (_ : ctx) : result value string := Ok (VStr ("answer of " ++ io)).

Example C33_witness :
  let key := fun (io : string) (_ : ctx) => if String.eqb io "users" then Some 1%Z else None in
  let start := {| o_cache := [(1%Z, (VStr "answer of users", 50%Z))]; o_now := 10%Z |} in
  let run := eval rx32 ext32 alice (stable_call answer33 (fun _ _ _ => 5%Z)) key stable_get (stable_set 10) in
  let e := IMerge [IIO "users"; IProtect lock (IIO "posts"); IIO "users"] in
  (forall io io' c c' k, key io c = Some k -> key io' c' = Some k -> answer33 io c = answer33 io' c') /\
  Consistent answer33 key start /\
  cache_wrap 60 e = IMerge [ICache 60 "users"; IProtect lock (ICache 60 "posts"); ICache 60 "users"] /\
  fst (run (cache_wrap 60 e) ctx32 start) = fst (run e ctx32 start) /\
  (* three calls take time without the cache, one with it *)
  o_now (snd (run e ctx32 start)) = 25%Z /\ o_now (snd (run (cache_wrap 60 e) ctx32 start)) = 15%Z.
Proof.
  cbn zeta. split.
  - intros io io' c c' k. destruct (String.eqb_spec io "users"), (String.eqb_spec io' "users"); try discriminate.
    now subst.
  - split; [|repeat split].
    intros k v t [E|[]] io c. injection E as <- <- <-.
    destruct (String.eqb_spec io "users") as [->|]; [reflexivity|discriminate].
Qed.

(** *** C06 *)

(** The checks in front of an operation are those of its guards outside maps,
    entities and fields below a field without resolver. *)
Theorem C06_checks_in_front :
  forall (IO : Type) (fs : list (pfield (ir IO))) a, In a (snd (update_fields fs)) <-> Demanded fs a.
Proof. intros. exact (demanded_spec fs a). Qed.
Print Assumptions C06_checks_in_front.

(** If one of them fails, the operation is answered with that error only: no
    resolver is evaluated. *)
Theorem C06_unauthenticated_runs_nothing :
  forall (IO F Key St : Type) rx ext req (do_io : IO -> ctx -> St -> result value F * St)
         (cache_key : IO -> ctx -> option Key) cache_get cache_set
         implements missing validate enum_value root vars st args is_query (fs : list (pfield (ir IO))) a,
    Demanded fs a -> verify ext a req <> Succeed ->
    exists er,
      execute implements (in_state rx ext req do_io cache_key cache_get cache_set st args is_query) missing
              validate enum_value (front_check rx ext req do_io cache_key cache_get cache_set st)
              root vars (plan_auth fs) = Rejected (EAuth er).
Proof.
  intros IO F Key St rx ext req do_io ck cg cs im mi va en root vars st args q fs a.
  exact (rejected rx ext req do_io ck cg cs im mi va en root vars st args q fs a).
Qed.
Print Assumptions C06_unauthenticated_runs_nothing.

(** If all succeed, the operation evaluates the same resolvers with the same
    results, and gives the same response, as the plan with its guards in place. *)
Theorem C06_authenticated_changes_nothing :
  forall (IO F Key St : Type) rx ext req (do_io : IO -> ctx -> St -> result value F * St)
         (cache_key : IO -> ctx -> option Key) cache_get cache_set
         implements missing validate enum_value root vars st args is_query (fs : list (pfield (ir IO))),
    (forall a, Demanded fs a -> verify ext a req = Succeed) ->
    execute implements (in_state rx ext req do_io cache_key cache_get cache_set st args is_query) missing
            validate enum_value (front_check rx ext req do_io cache_key cache_get cache_set st)
            root vars (plan_auth fs) =
    Answered (run implements
                (resolve_field (in_state rx ext req do_io cache_key cache_get cache_set st args is_query) missing)
                missing validate enum_value root vars fs).
Proof.
  intros IO F Key St rx ext req do_io ck cg cs im mi va en root vars st args q fs.
  exact (answered_same rx ext req do_io ck cg cs im mi va en root vars st args q fs).
Qed.
Print Assumptions C06_authenticated_changes_nothing.

(** Expression by expression, effects included. *)
Theorem C06_rewritten_resolver_is_the_same :
  forall (IO F Key St : Type) rx ext req (do_io : IO -> ctx -> St -> result value F * St)
         (cache_key : IO -> ctx -> option Key) cache_get cache_set (e : ir IO),
    (forall a, Hoisted e a -> verify ext a req = Succeed) ->
    forall c st, eval rx ext req do_io cache_key cache_get cache_set (fst (update_ir e)) c st =
                 eval rx ext req do_io cache_key cache_get cache_set e c st.
Proof.
  intros IO F Key St rx ext req do_io ck cg cs e. exact (hoisting_preserves rx ext req do_io ck cg cs e).
Qed.
Print Assumptions C06_rewritten_resolver_is_the_same.

Definition field06 (id : nat) (name : string) (e : option (ir string)) (sel : list (pfield (ir string))) :=
  PField id name name e (TNamed "User" false) None None None false None sel.
Definition plan06 : list (pfield (ir string)) :=
  [field06 0%nat "me" (Some (IIO "me"))
     [field06 1%nat "card" (Some (IPath (IProtect lock (IIO "card")) ["card"])) []];
   field06 2%nat "plain" None [field06 3%nat "inner" (Some (IProtect lock (IIO "inner"))) []]].
Definition run06 (req : request) :=
  execute (fun _ _ => true)
    (in_state rx32 ext32 req io32 (fun _ _ => None) (fun (k : Z) st => (Ok None, st)) (fun _ _ _ st => (Ok tt, st))
              0%nat (fun _ => None) true)
    (EExpr "missing") (fun _ _ => true) (fun _ _ => true)
    (front_check rx32 ext32 req io32 (fun _ _ => None) (fun (k : Z) st => (Ok None, st)) (fun _ _ _ st => (Ok tt, st)) 0%nat)
    "Query" [] (plan_auth plan06).

Example C06_witness :
  Demanded plan06 lock /\ verify ext32 lock alice = Succeed /\ verify ext32 lock nobody <> Succeed /\
  run06 nobody = Rejected (EAuth EMissing) /\
  (exists evs, run06 alice = Answered (evs, Ok (VObj [("me", VObj [("card", VStr "RED")]); ("plain", VNull)]))) /\
  (* the guard below the field without resolver stays in place *)
  map p_ir (flat_map p_selection (fst (plan_auth plan06))) =
    [Some (IPath (IIO "card") ["card"]); Some (IProtect lock (IIO "inner"))].
Proof.
  split.
  - exists (nth 0%nat plan06 (field06 0%nat "" None [])), (field06 1%nat "card" (Some (IPath (IProtect lock (IIO "card")) ["card"])) []),
      (IPath (IProtect lock (IIO "card")) ["card"]).
    split; [now left|]. split; [|split; [reflexivity|constructor; constructor]].
    eapply V_below; [discriminate|now left|]. constructor. discriminate.
  - split; [reflexivity|]. split; [discriminate|]. split; [reflexivity|]. split; [|reflexivity].
    eexists. reflexivity.
Qed.
