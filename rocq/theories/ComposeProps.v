(** C44: composed transformations. *)
From Coq Require Import String ZArith Bool List.
From Verif Require Import Base ComposeModel ComposeSpec ComposeProofs.
Import ListNotations.
Open Scope list_scope.

(** A pipeline of any length runs its parts from left to right: it succeeds with the
    outcome of the last when all succeed, and otherwise fails with exactly the errors of
    the first that fails. *)
Theorem C44_pipeline : forall (V E : Type) (first : transform V E) rest v,
  (forall v', fold_left pipe rest first v = Ok v' <-> succeeds (first :: rest) v v') /\
  (forall e, fold_left pipe rest first v = Err e <-> stops (first :: rest) v e).
Proof. intros V E first rest v. split; [intros v'; apply pipes_succeed|intros e; apply pipes_stop]. Qed.
Print Assumptions C44_pipeline.

Definition add44 (n : Z) : transform Z string := fun v => Ok (v + n)%Z.
Definition limit44 (n : Z) : transform Z string := fun v => if (v <? n)%Z then Ok v else Err [Build_cause [] "too large"%string].
Example pipeline44 : fold_left pipe [limit44 10; add44 5; limit44 10; add44 1] (add44 3) 4%Z = Err [Build_cause [] "too large"%string] /\
  fold_left pipe [limit44 10; add44 1] (add44 3) 4%Z = Ok 8%Z.
Proof. split; reflexivity. Qed.

(** How a pipeline is bracketed does not matter, the neutral transformation does nothing
    on either side, and a transformation that is switched off is neutral. *)
Theorem C44_pipeline_laws : forall (V E : Type) (a b c : transform V E) v,
  pipe (pipe a b) c v = pipe a (pipe b c) v /\ pipe default a v = a v /\ pipe a default v = a v /\
  when a true v = a v /\ when a false v = default v.
Proof.
  intros V E a b c v. exact (conj (pipe_assoc a b c v) (conj (pipe_default_l a v) (conj (pipe_default_r a v) (conj eq_refl eq_refl)))).
Qed.
Print Assumptions C44_pipeline_laws.

(** Folds collected from a list: success means that all succeed one after the other; a
    failure reports the errors of every fold that fails, in order, where the ones after a
    failed one see the state it was given. *)
Theorem C44_collected_folds : forall (I O E : Type) (l : list (try_fold I E O)) i s,
  (forall s', from_iter l i s = Ok s' <-> succeeds (map (fun a => a i) l) s s') /\
  (forall es, from_iter l i s = Err es <->
     (exists s', reports (map (fun a => a i) l) s s' es) /\ ~ exists s', succeeds (map (fun a => a i) l) s s').
Proof. intros I O E l i s. split; [intros s'; apply from_iter_ok|intros es; apply from_iter_err]. Qed.
Print Assumptions C44_collected_folds.

(** Folds chained with [and]: the same for success; after the first failure the others
    are run, but all of them on the state the whole chain was given. *)
Theorem C44_chained_folds : forall (I O E : Type) (first : try_fold I E O) rest i s,
  (forall s', fold_left and_ rest first i s = Ok s' <-> succeeds (map (fun a => a i) (first :: rest)) s s') /\
  (forall es, fold_left and_ rest first i s = Err es <->
     exists before f after s1 e, first :: rest = before ++ f :: after /\ succeeds (map (fun a => a i) before) s s1 /\ f i s1 = Err e /\
       es = e ++ flat_map (fun g => errors (g i s)) after).
Proof. intros I O E first rest i s. split; [intros s'; apply chain_ok|intros es; apply chain_err]. Qed.
Print Assumptions C44_chained_folds.

(** [and] has a neutral element; bracketing matters for no success. *)
Theorem C44_fold_laws : forall (I O E : Type) (a b c : try_fold I E O) i s,
  and_ empty a i s = a i s /\ and_ a empty i s = a i s /\
  forall s', and_ (and_ a b) c i s = Ok s' <-> and_ a (and_ b c) i s = Ok s'.
Proof. intros I O E a b c i s. exact (conj (and_empty_l a i s) (conj (and_empty_r a i s) (and_assoc_ok a b c i s))). Qed.
Print Assumptions C44_fold_laws.

(** Updating, moving to another state, and tracing. *)
Theorem C44_fold_maps : forall (I O O1 E : Type) (a : try_fold I E O) i,
  (forall f s, update a f i s = match a i s with Ok s' => Ok (f s') | Err e => Err e end) /\
  (forall (up : O -> O1 -> O1) down o1, transform_plain a up down i o1 = match a i (down o1) with Ok o => Ok (up o o1) | Err e => Err e end) /\
  (forall msg s s', trace a msg i s = Ok s' <-> a i s = Ok s') /\
  (forall msg s es, a i s = Err es -> exists es', trace a msg i s = Err es' /\ map message es' = map message es /\ map at_ es' = map (cons msg) (map at_ es)).
Proof.
  intros I O O1 E a i. refine (conj (fun f s => update_spec a f i s) (conj (fun up down o1 => transform_spec a up down i o1) (conj (fun msg s => proj1 (trace_spec a msg i s)) _))).
  intros msg s es H. eexists. split; [exact (proj2 (trace_spec a msg i s) es H)|]. rewrite !map_map. auto.
Qed.
Print Assumptions C44_fold_maps.

(** Working on a part of the state: doing two things to the part is doing them one after
    the other to the whole. *)
Theorem C44_folds_on_a_part : forall (I O O1 E : Type) (a b : try_fold I E O) (up : O -> O1 -> O1) (down : O1 -> O) i o1,
  (forall o o1, down (up o o1) = o) -> (forall o o' o1, up o (up o' o1) = up o o1) ->
  and_ (transform_plain a up down) (transform_plain b up down) i o1 = transform_plain (and_ a b) up down i o1.
Proof. intros I O O1 E a b up down i o1. exact (lift_and a b up down i o1). Qed.
Print Assumptions C44_folds_on_a_part.
Example part44 : let up := fun (o : Z) (p : Z * bool) => (o, snd p) in
  (forall o o1, fst (up o o1) = o) /\ (forall o o' o1, up o (up o' o1) = up o o1).
Proof. split; reflexivity. Qed.

(** Bracketing does matter for what is reported: the errors depend on it. *)
Definition fail44 (n : Z) : try_fold Z Z Z := fun a b => Err [Build_cause [] (a * b * n)%Z].
Definition times44 : try_fold Z Z Z := fun a b => Ok (a * b)%Z.
Theorem C44_fold_errors_associativity_refuted : exists (a b c : try_fold Z Z Z) i s,
  and_ (and_ a b) c i s <> and_ a (and_ b c) i s.
Proof. exists (fail44 1), times44, (fail44 100), 2%Z, 3%Z. discriminate. Qed.
Print Assumptions C44_fold_errors_associativity_refuted.
Example tests44 : and_ (and_ (fail44 1) times44) (fail44 100) 2%Z 3%Z = Err [Build_cause [] 6%Z; Build_cause [] 600%Z] /\
  and_ (fail44 1) (and_ times44 (fail44 100)) 2%Z 3%Z = Err [Build_cause [] 6%Z; Build_cause [] 1200%Z].
Proof. split; reflexivity. Qed.
