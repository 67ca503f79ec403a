(** Vocabulary for operations and their guards (C06). *)
From Coq Require Import String Ascii ZArith NArith Bool List.
From Verif Require Import Base JsonModel CtxModel AuthModel IrModel IrSpec PlanModel OpModel.
Import ListNotations.

(** [Visited f g]: [g] is [f], or a field below it with a resolver on every field
    from [f] down to [g]. *)
Inductive Visited {IO} : pfield (ir IO) -> pfield (ir IO) -> Prop :=
| V_here : forall f, p_ir f <> None -> Visited f f
| V_below : forall f c g, p_ir f <> None -> In c (p_selection f) -> Visited c g -> Visited f g.

(** [Demanded fs a]: the guard [a] is taken out of the resolver of a visited field. *)
Definition Demanded {IO} (fs : list (pfield (ir IO))) (a : auth) : Prop :=
  exists f g e, In f fs /\ Visited f g /\ p_ir g = Some e /\ Hoisted e a.

(** Evaluating a field's expression in a given outside state. *)
Definition in_state {IO F Key St} (rx : req_ext) (ext : auth_ext) (req : request)
  (do_io : IO -> ctx -> St -> result value F * St) (cache_key : IO -> ctx -> option Key)
  (cache_get : Key -> St -> result (option value) F * St)
  (cache_set : Key -> value -> Z -> St -> result unit F * St)
  (st : St) (args : nat -> option (list (string * value))) (is_query : bool)
  (e : ir IO) (id : nat) (parent : option value) : result value (ir_error F) :=
  fst (eval rx ext req do_io cache_key cache_get cache_set e
         {| c_value := parent; c_args := args id; c_over_value := None; c_over_args := None;
            c_is_query := is_query |} st).

(** Evaluating the chain in front of the operation (src/core/jit/exec_const.rs:45). *)
Definition front_check {IO F Key St} (rx : req_ext) (ext : auth_ext) (req : request)
  (do_io : IO -> ctx -> St -> result value F * St) (cache_key : IO -> ctx -> option Key)
  (cache_get : Key -> St -> result (option value) F * St)
  (cache_set : Key -> value -> Z -> St -> result unit F * St)
  (st : St) (e : ir IO) : result value (ir_error F) :=
  fst (eval rx ext req do_io cache_key cache_get cache_set e
         {| c_value := None; c_args := None; c_over_value := None; c_over_args := None;
            c_is_query := true |} st).
