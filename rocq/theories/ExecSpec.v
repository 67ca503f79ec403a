(** Vocabulary for the executor's caches (C07, C08, C09). *)
From Coq Require Import String Ascii ZArith NArith Bool Arith List.
From Verif Require Import Base JsonModel CtxModel AuthModel IrModel PlanModel OpModel OpSpec BuilderModel ExecModel.
Import ListNotations.
Open Scope string_scope.
Open Scope list_scope.

(** The plan an operation uses, once it has one. *)
Definition plan_used {IO Resp} (ph : phase (IO := IO) (Resp := Resp)) : option (plan IO) :=
  match ph with
  | Built p | Planned p | Alone p | Leading p | Waiting _ p | Executed p _ => Some p
  | _ => None
  end.

(** A resolver expression without guards and without entity lookups. *)
Inductive Open {IO} : ir IO -> Prop :=
| O_dynamic : forall d, Open (IDynamic d)
| O_io : forall io, Open (IIO io)
| O_cache : forall age io, Open (ICache age io)
| O_path : forall e p, Open e -> Open (IPath e p)
| O_context : forall p, Open (IContextPath p)
| O_map : forall e m, Open e -> Open (IMap e m)
| O_pipe : forall e1 e2, Open e1 -> Open e2 -> Open (IPipe e1 e2)
| O_merge : forall l, Forall Open l -> Open (IMerge l)
| O_discriminate : forall d e, Open e -> Open (IDiscriminate d e)
| O_service : forall sdl, Open (IService sdl).

(** A field, and all below it, without guards, entity lookups and conditions on
    variables. *)
Inductive OpenField {IO} : pfield (ir IO) -> Prop :=
| OpenField_ : forall i n o e t c en sc sel,
    (forall x, e = Some x -> Open x) -> Forall OpenField sel ->
    OpenField (PField i n o e t c None None en sc sel).

(** All an execution depends on beside the plan: the request (headers, variables,
    credentials), the environment, and the upstreams with their state. *)
Record env (IO F Key St : Type) : Type :=
  { e_rx : req_ext; e_auth : auth_ext; e_req : request;
    e_io : IO -> ctx -> St -> result value F * St;
    e_key : IO -> ctx -> option Key;
    e_get : Key -> St -> result (option value) F * St;
    e_set : Key -> value -> Z -> St -> result unit F * St;
    e_state : St; e_args : nat -> option (list (string * value)); e_vars : variables }.
Arguments e_rx {IO F Key St}. Arguments e_auth {IO F Key St}. Arguments e_req {IO F Key St}.
Arguments e_io {IO F Key St}. Arguments e_key {IO F Key St}. Arguments e_get {IO F Key St}.
Arguments e_set {IO F Key St}. Arguments e_state {IO F Key St}. Arguments e_args {IO F Key St}.
Arguments e_vars {IO F Key St}.

(** The schema: subtyping, scalar validation, enum members; and the error for a
    resolver without parent value. *)
Record schema (F : Type) : Type :=
  { s_implements : string -> string -> bool; s_validate : string -> value -> bool;
    s_enum : string -> string -> bool; s_missing : ir_error F }.
Arguments s_implements {F}. Arguments s_validate {F}. Arguments s_enum {F}. Arguments s_missing {F}.

Definition perform {IO F Key St} (sc : schema F) (en : env IO F Key St) (p : plan IO) :
  reply (ir_error F) (list (event (E := ir_error F)) * result value (synth_error (E := ir_error F))) :=
  execute (s_implements sc)
    (in_state (e_rx en) (e_auth en) (e_req en) (e_io en) (e_key en) (e_get en) (e_set en)
              (e_state en) (e_args en) (pl_query p))
    (s_missing sc) (s_validate sc) (s_enum sc)
    (front_check (e_rx en) (e_auth en) (e_req en) (e_io en) (e_key en) (e_get en) (e_set en) (e_state en))
    (pl_root p) (e_vars en) (pl_fields p, pl_before p).

Section History.
  Context {IO World Resp BE : Type}.
  Variable text_hash : string -> Z.
  Variable body_hash : list (string * string) -> list gql_request -> Z.
  Variable create : string -> option string -> result (plan IO) BE.
  Variable respond : plan IO -> member -> World -> Resp.
  Variable ops : nat -> member.

  (** The plan built from the [i]-th operation alone. *)
  Definition own_plan (i : nat) : result (plan IO) BE :=
    create (text ops i) (q_operation (request_of (ops i))).

  (** No two of the texts sent have the same hash. *)
  Definition TextsTold : Prop :=
    forall i j, text_hash (text ops i) = text_hash (text ops j) -> text ops i = text ops j.

  (** A text is always sent with the same operation name. *)
  Definition OneNamePerText : Prop :=
    forall i j, text ops i = text ops j -> q_operation (request_of (ops i)) = q_operation (request_of (ops j)).

  (** Only operations with the same headers, text, operation name and variables have
      the same operation identifier. *)
  Definition OperationsTold : Prop :=
    forall i j, opid body_hash ops i = opid body_hash ops j ->
      m_headers (ops i) = m_headers (ops j) /\ request_of (ops i) = request_of (ops j).

  (** [p] was built from an operation whose text has the hash of the [i]-th's. *)
  Definition PlanFor (i : nat) (p : plan IO) : Prop :=
    exists j, text_hash (text ops j) = text_hash (text ops i) /\ own_plan j = Ok p.

  (** [r] came out of executing, for the [i]-th operation or, if the plan allows
      sharing, for one of the same identifier. *)
  Definition CameFrom (i : nat) (p : plan IO) (r : Resp) : Prop :=
    exists k pk w, opid body_hash ops k = opid body_hash ops i /\ PlanFor k pk /\ r = respond pk (ops k) w /\
      (k = i /\ pk = p \/ plan_can_dedupe p = true /\ plan_can_dedupe pk = true).
End History.
