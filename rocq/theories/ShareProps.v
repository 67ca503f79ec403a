(** C54: which operations share one execution with an identical one in flight. *)
From Coq Require Import String Ascii ZArith NArith Bool List.
From Verif Require Import Base JsonModel TypeModel MustacheModel CtxModel AuthModel DiscModel MergeModel IrModel
  PlanModel OpModel OpSpec ExecModel ExecSpec ExecProofs ConstProofs IrProps ExecProps ShareSpec ShareProofs.
Import ListNotations.
Open Scope string_scope.
Open Scope list_scope.

(** An operation may share an execution only if it is a query.  Then every upstream call in
    the resolvers of its root fields allows it, or the operation is constant, or these
    resolvers are all cached. *)
Theorem C54_what_may_be_shared_partial :
  forall (IO : Type) (dedupe : IO -> bool) root is_query fs,
    (forall f e, In f fs -> p_ir f = Some e -> NoMapping e) ->
    plan_can_dedupe (finish_plan dedupe root is_query fs) = true ->
    is_query = true /\
    ((forall f e io, In f fs -> p_ir f = Some e -> Makes e io -> dedupe io = true) \/
     (forall f e, Within fs f -> p_ir f = Some e -> Constant e) \/
     (forall f e, In f fs -> p_ir f = Some e -> Cached e)).
Proof.
  intros IO dedupe root q fs N H. apply shared_spec in H as [Q [H|H]]; split; auto. left.
  intros f e io I P M. exact (dedupe_sound dedupe e (N f e I P) (H f e I P) io M).
Qed.
Print Assumptions C54_what_may_be_shared_partial.

(** And these are shared. *)
Theorem C54_what_is_shared :
  forall (IO : Type) (dedupe : IO -> bool) root fs,
    ((forall f e io, In f fs -> p_ir f = Some e -> Makes e io -> dedupe io = true) \/
     (forall f e, Within fs f -> p_ir f = Some e -> Constant e) \/
     (forall f e, In f fs -> p_ir f = Some e -> Cached e)) ->
    plan_can_dedupe (finish_plan dedupe root true fs) = true.
Proof.
  intros IO dedupe root fs H. apply shared_spec. split; [reflexivity|]. destruct H as [H|H]; [left|now right].
  intros f e I P. apply dedupe_complete. eauto.
Qed.
Print Assumptions C54_what_is_shared.

(** A mutation is executed for every request, whatever else is in flight. *)
Theorem C54_mutations_are_never_shared :
  forall (IO World Resp BE : Type) text_hash body_hash (create : string -> option string -> result (plan IO) BE)
         (respond : plan IO -> member -> World -> Resp) build_failed ops ls s i r,
    (forall p, PlanFor text_hash create ops i p -> pl_query p = false) ->
    steps text_hash body_hash create respond build_failed ops start ls = Some s ->
    answer s i = Some r -> a_phase s i <> FromCache r ->
    (exists e, own_plan create ops i = Err e /\ r = build_failed e) \/
    exists p w, PlanFor text_hash create ops i p /\ r = respond p (ops i) w.
Proof.
  intros IO World Resp BE th bh create respond bf ops ls s i r Q St_ A NC.
  destruct (answered_uncached th bh create respond bf ops ls s i r St_ A NC)
    as [H|(p & P & k & pk & w & _ & Pk & -> & [[-> ->]|[Dp _]])]; [left; exact H|right; exists p, w; auto|].
  unfold plan_can_dedupe in Dp. rewrite (Q p P) in Dp. discriminate.
Qed.
Print Assumptions C54_mutations_are_never_shared.

(** An operation without guards on one of its fields is not protected as a whole, and one
    with guards on all of them is. *)
Theorem C54_protected_operations :
  forall (IO : Type) (dedupe : IO -> bool) root is_query fs,
    pl_protected (finish_plan dedupe root is_query fs) = true <->
    forall f e, Within fs f -> p_ir f = Some e -> Guarded e.
Proof.
  intros IO dedupe root q fs. unfold finish_plan. destruct (plan_auth fs) eqn:E. cbn. apply plan_protected_spec.
Qed.
Print Assumptions C54_protected_operations.

Definition allow54 (io : string) : bool := String.eqb io "shared".
Definition plan54 (e : ir string) (below : list (pfield (ir string))) :=
  [PField 0 "a" "a" (Some e) (TNamed "T" false) None None None false None below].
Definition node54 (e : ir string) : pfield (ir string) :=
  PField 1 "b" "b" (Some e) (TNamed "String" false) None None None false None [].

Example C54_witness :
  plan_can_dedupe (finish_plan allow54 "Query" true (plan54 (IProtect lock (IPath (IIO "shared") [])) [])) = true /\
  plan_can_dedupe (finish_plan allow54 "Query" true (plan54 (IPipe (IIO "shared") (IIO "own")) [])) = false /\
  plan_can_dedupe (finish_plan allow54 "Query" true (plan54 (ICache 5 "own") [])) = true /\
  plan_can_dedupe (finish_plan allow54 "Mutation" false (plan54 (IIO "shared") [])) = false /\
  (forall f e, In f (plan54 (IProtect lock (IPath (IIO "shared") [])) []) -> p_ir f = Some e -> NoMapping e).
Proof.
  repeat split. intros f e [<-|[]] [= <-]. repeat constructor.
Qed.

Definition create54 (text : string) (name : option string) : result (plan string) string :=
  Ok (finish_plan allow54 "Mutation" false (plan54 (IIO "shared") [])).
Definition ops54 (i : nat) : member := one07 [] (req07 "mutation{a}" None []).
Example C54_mutation_witness :
  (forall p, PlanFor hash07 create54 ops54 1 p -> pl_query p = false) /\
  exists s : app, steps hash07 body07 create54 respond07 BadQuery ops54 start
    [ReadConst 0; ReadPlan 0; WritePlan 0; Enter 0; ReadConst 1; ReadPlan 1; Enter 1; Finish 1 tt; WriteConst 1]%nat = Some s /\
    a_phase s 1%nat = Answered_ (respond07 (finish_plan allow54 "Mutation" false (plan54 (IIO "shared") [])) (ops54 1) tt).
Proof.
  split; [intros p (j & _ & [= <-]); reflexivity|]. apply ends_with. vm_compute. reflexivity.
Qed.

(** FINDING: only the root fields are looked at: a query whose inner fields make calls that
    must not be shared is shared nevertheless. *)
Theorem C54_inner_calls_refuted : exists fs f e io,
  Within fs f /\ p_ir f = Some e /\ Makes e io /\ allow54 io = false /\ ~ Cached e /\
  plan_can_dedupe (finish_plan allow54 "Query" true fs) = true.
Proof.
  exists (plan54 (IIO "shared") [node54 (IIO "own")]), (node54 (IIO "own")), (IIO "own"), "own".
  split; [eapply W_below; [now left|apply W_here; now left]|]. split; [reflexivity|]. split; [constructor|].
  split; [reflexivity|]. split; [intros C; inversion C|reflexivity].
Qed.
Print Assumptions C54_inner_calls_refuted.

(** FINDING: nor are calls below an enum mapping looked at. *)
Theorem C54_mapped_calls_refuted : exists fs f e io,
  In f fs /\ p_ir f = Some e /\ Makes e io /\ allow54 io = false /\ ~ Cached e /\
  plan_can_dedupe (finish_plan allow54 "Query" true fs) = true.
Proof.
  exists (plan54 (IMap (IIO "own") []) []). eexists. exists (IMap (IIO "own") []), "own".
  split; [now left|]. split; [reflexivity|]. split; [repeat constructor|].
  split; [reflexivity|]. split; [intros C; inversion C|reflexivity].
Qed.
Print Assumptions C54_mapped_calls_refuted.
