(** The executor with its caches of plans and constant responses, and the sharing of
    operations between concurrent requests: src/core/jit/graphql_executor.rs,
    src/core/jit/request.rs, src/core/data_loader/dedupe.rs. *)
From Coq Require Import String Ascii ZArith NArith Bool Arith List.
From Verif Require Import Base JsonModel CtxModel AuthModel IrModel PlanModel OpModel BuilderModel.
Import ListNotations.
Open Scope string_scope.
Open Scope list_scope.

(** [DashMap] with hashes as keys. *)
Definition zget {A} (k : Z) (m : list (Z * A)) : option A :=
  match find (fun e => Z.eqb (fst e) k) m with Some (_, a) => Some a | None => None end.
Definition zdel {A} (k : Z) (m : list (Z * A)) : list (Z * A) := filter (fun e => negb (Z.eqb (fst e) k)) m.
Definition zset {A} (k : Z) (a : A) (m : list (Z * A)) : list (Z * A) := (k, a) :: zdel k m.

(** src/core/jit/model.rs:307-321, [OperationPlan]. *)
Record plan (IO : Type) : Type :=
  { pl_root : string; pl_query : bool; pl_fields : list (pfield (ir IO)); pl_before : option (ir IO);
    pl_const : bool; pl_protected : bool; pl_dedupe : bool; pl_ttl : option Z }.
Arguments pl_root {IO}. Arguments pl_query {IO}. Arguments pl_fields {IO}. Arguments pl_before {IO}.
Arguments pl_const {IO}. Arguments pl_protected {IO}. Arguments pl_dedupe {IO}. Arguments pl_ttl {IO}.

(** src/core/jit/request.rs:48-54: the checks for constant and protected plans look
    at the resolvers before the guards are taken out, those for sharing and caching
    after.  The last transform (the text sent to GraphQL upstreams) is left out. *)
Definition finish_plan {IO} (dedupe : IO -> bool) (root : string) (is_query : bool) (fs : list (pfield (ir IO)))
  : plan IO :=
  let '(fs', before) := plan_auth fs in
  {| pl_root := root; pl_query := is_query; pl_fields := fs'; pl_before := before;
     pl_const := plan_is_const fs; pl_protected := plan_is_protected fs;
     pl_dedupe := plan_is_dedupe dedupe fs'; pl_ttl := plan_min_ttl fs' |}.

(** src/core/jit/model.rs:442-444 *)
Definition plan_can_dedupe {IO} (p : plan IO) : bool :=
  pl_query p && (pl_dedupe p || pl_const p || match pl_ttl p with Some _ => true | None => false end).

(** src/core/jit/request.rs:14-23 *)
Record gql_request : Type := { q_text : string; q_operation : option string; q_vars : variables }.

(** One operation of an HTTP request: its headers, all the operations in its body,
    and which of them this is. *)
Record member : Type := { m_headers : list (string * string); m_body : list gql_request; m_index : nat }.
Definition request_of (m : member) : gql_request :=
  nth (m_index m) (m_body m) {| q_text := ""; q_operation := None; q_vars := [] |}.

Section Executor.
  Context {IO World Resp BE : Type}.
  (** src/core/jit/graphql_executor.rs:65-70: the query text only *)
  Variable text_hash : string -> Z.
  (** src/core/async_graphql_hyper.rs:42-51, 57-71, 102-111: headers and all
      operations of the body *)
  Variable body_hash : list (string * string) -> list gql_request -> Z.
  (** src/core/jit/request.rs:40-60 *)
  Variable create : string -> option string -> result (plan IO) BE.
  (** src/core/jit/exec_const.rs:37-110: executing a plan for a request, while the
      upstreams are in this state *)
  Variable respond : plan IO -> member -> World -> Resp.
  Variable build_failed : BE -> Resp.
  (** the operations to be executed, in no order *)
  Variable ops : nat -> member.

  Definition text (i : nat) : string := q_text (request_of (ops i)).
  Definition key (i : nat) : Z := text_hash (text i).
  Definition opid (i : nat) : Z := body_hash (m_headers (ops i)) (m_body (ops i)).

  (** Where an operation is in [JITExecutor::execute]. *)
  Inductive phase : Type :=
  | Fresh
  | Missed                             (** no constant response, line 85 *)
  | Built (p : plan IO)                (** plan built, not stored yet, line 98 *)
  | Planned (p : plan IO)              (** line 105 *)
  | Alone (p : plan IO)                (** line 111 *)
  | Leading (p : plan IO)              (** executing for all that join, dedupe.rs:73 *)
  | Waiting (leader : nat) (p : plan IO)   (** dedupe.rs:62 *)
  | Executed (p : plan IO) (r : Resp)  (** line 114 *)
  | FromCache (r : Resp)               (** line 84 *)
  | Answered_ (r : Resp)               (** lines 94-96, 121 *)
  | Dropped.                           (** the future was dropped *)

  Record app : Type :=
    { a_consts : list (Z * Resp); a_plans : list (Z * plan IO); a_pending : list (Z * nat);
      a_phase : nat -> phase }.
  Definition start : app := {| a_consts := []; a_plans := []; a_pending := []; a_phase := fun _ => Fresh |}.

  Definition set_phase (i : nat) (ph : phase) (f : nat -> phase) : nat -> phase :=
    fun j => if Nat.eqb i j then ph else f j.

  (** What those waiting for [i] become. *)
  Definition release (i : nat) (g : plan IO -> phase) (f : nat -> phase) : nat -> phase :=
    fun j => match f j with Waiting l p => if Nat.eqb l i then g p else f j | _ => f j end.

  (** Each label is one access to shared state, or one completion. *)
  Inductive label : Type :=
  | ReadConst (i : nat)
  | ReadPlan (i : nat)
  | WritePlan (i : nat)
  | Enter (i : nat)
  | Finish (i : nat) (w : World)
  | WriteConst (i : nat)
  | Drop (i : nat).

  (** src/core/jit/graphql_executor.rs:74-123 *)
  Definition step (s : app) (l : label) : option app :=
    let put i ph := Some {| a_consts := a_consts s; a_plans := a_plans s; a_pending := a_pending s;
                            a_phase := set_phase i ph (a_phase s) |} in
    match l with
    | ReadConst i =>
        match a_phase s i with
        | Fresh => match zget (key i) (a_consts s) with
                   | Some r => put i (FromCache r)
                   | None => put i Missed
                   end
        | _ => None
        end
    | ReadPlan i =>
        match a_phase s i with
        | Missed =>
            match zget (key i) (a_plans s) with
            | Some p => put i (Planned p)
            | None =>
                match create (text i) (q_operation (request_of (ops i))) with
                | Ok p => put i (Built p)
                | Err e => put i (Answered_ (build_failed e))
                end
            end
        | _ => None
        end
    | WritePlan i =>
        match a_phase s i with
        | Built p =>
            Some {| a_consts := a_consts s; a_plans := zset (key i) p (a_plans s); a_pending := a_pending s;
                    a_phase := set_phase i (Planned p) (a_phase s) |}
        | _ => None
        end
    | Enter i =>
        match a_phase s i with
        | Planned p =>
            if plan_can_dedupe p then
              match zget (opid i) (a_pending s) with
              | Some j => put i (Waiting j p)
              | None =>
                  Some {| a_consts := a_consts s; a_plans := a_plans s; a_pending := zset (opid i) i (a_pending s);
                          a_phase := set_phase i (Leading p) (a_phase s) |}
              end
            else put i (Alone p)
        | _ => None
        end
    | Finish i w =>
        match a_phase s i with
        | Alone p => put i (Executed p (respond p (ops i) w))
        | Leading p =>
            let r := respond p (ops i) w in
            Some {| a_consts := a_consts s; a_plans := a_plans s; a_pending := zdel (opid i) (a_pending s);
                    a_phase := set_phase i (Executed p r) (release i (fun p' => Executed p' r) (a_phase s)) |}
        | _ => None
        end
    | WriteConst i =>
        match a_phase s i with
        | Executed p r =>
            Some {| a_consts := if pl_const p && negb (pl_protected p)
                                then zset (key i) r (a_consts s) else a_consts s;
                    a_plans := a_plans s; a_pending := a_pending s;
                    a_phase := set_phase i (Answered_ r) (a_phase s) |}
        | _ => None
        end
    | Drop i =>
        match a_phase s i with
        | Leading p =>
            (* the weak reference dies: the next to come leads, those waiting try again *)
            Some {| a_consts := a_consts s; a_plans := a_plans s; a_pending := zdel (opid i) (a_pending s);
                    a_phase := set_phase i Dropped (release i Planned (a_phase s)) |}
        | FromCache _ | Answered_ _ | Dropped => None
        | _ => put i Dropped
        end
    end.

  Fixpoint steps (s : app) (ls : list label) : option app :=
    match ls with
    | [] => Some s
    | l :: rest => match step s l with Some s' => steps s' rest | None => None end
    end.

  (** [None] until the operation is answered. *)
  Definition answer (s : app) (i : nat) : option Resp :=
    match a_phase s i with FromCache r | Answered_ r => Some r | _ => None end.
End Executor.
