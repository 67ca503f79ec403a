(** C102: operations are answered within the time that is set, validated and traced if that is set. *)
From Coq Require Import String ZArith NArith Bool List Lia.
From Verif Require Import Base JsonModel LmModel LmSpec LmProofs.
Import ListNotations.
Open Scope string_scope.
Open Scope list_scope.

(** REST: an operation that takes longer than the limit is answered at the limit with null and an error; any other with its own answer, when it is there. *)
Theorem C102_rest_partial : forall other s o own took, accepted s o -> o_fields o true = (own, took) ->
  (forall ms, limited s ms -> (took <= ms)%N -> noted s own (fst (rest other s [] o)) /\ snd (rest other s [] o) = took) /\
  (forall ms, limited s ms -> (ms < took)%N -> noted s out_of_time (fst (rest other s [] o)) /\ snd (rest other s [] o) = ms) /\
  (unlimited s -> noted s own (fst (rest other s [] o)) /\ snd (rest other s [] o) = took).
Proof.
  intros other s o own took A F. unfold rest, library. rewrite (mode_accepted s o A). change (sc_resolvers (to_schema_with s false [])) with true. rewrite F.
  pose proof (around_settings other s false (own, took)) as W. split; [|split].
  - intros ms L B. rewrite (timeout_limited _ _ _ _ L) in W. replace (snd (own, took) <=? ms)%N with true in W by (symmetry; apply N.leb_le; exact B). exact W.
  - intros ms L B. rewrite (timeout_limited _ _ _ _ L) in W. replace (snd (own, took) <=? ms)%N with false in W by (symmetry; apply N.leb_gt; exact B). exact W.
  - intros U. rewrite (timeout_unlimited _ _ _ U) in W. exact W.
Qed.
Print Assumptions C102_rest_partial.

(** REST: so no answer is later than the limit, valid or not. *)
Theorem C102_rest_in_time : forall other s o ms, limited s ms -> (snd (rest other s [] o) <= ms)%N.
Proof.
  intros other s o ms L. unfold rest, library. destruct (match sc_mode _ with Strict => _ | Fast => _ end); [|simpl; lia].
  rewrite (proj2 (around_settings other s false _)). rewrite (timeout_limited _ _ _ _ L).
  match goal with |- context [(?a <=? ms)%N] => destruct (N.leb_spec a ms) end; [assumption|simpl; lia].
Qed.
Print Assumptions C102_rest_in_time.

(** REST: with validation, what breaks the rules is refused at once, and its resolvers are not asked. *)
Theorem C102_rest_validated : forall other s o, validates s -> o_strict o = false ->
  r_errors (fst (rest other s [] o)) <> [] /\ r_data (fst (rest other s [] o)) = VNull /\ snd (rest other s [] o) = 0%N.
Proof.
  intros other s o V N. unfold rest, library, to_schema_with, sc_mode. apply validates_default in V. rewrite V. simpl. rewrite N. simpl.
  repeat split; discriminate.
Qed.
Print Assumptions C102_rest_validated.

(** GraphQL: questions about the schema take at most the limit beyond the operation itself. *)
Theorem C102_questions_partial : forall other merge s o ms, limited s ms ->
  (snd (graphql other merge s [] o) <= snd (o_fields o true) + ms)%N.
Proof.
  intros other merge s o ms L. unfold graphql. destruct (default true (s_introspection s) && o_questions o); [|lia]. cbn [snd].
  unfold library. destruct (match sc_mode _ with Strict => _ | Fast => _ end); [|simpl; lia].
  rewrite (proj2 (around_settings other s false _)). rewrite (timeout_limited _ _ _ _ L).
  match goal with |- context [(?a <=? ms)%N] => destruct (N.leb_spec a ms) end; cbn [snd]; lia.
Qed.
Print Assumptions C102_questions_partial.

(** Refuted: limit, validation and tracing play no role for GraphQL operations without such questions: late answers are given, and operations that break the rules are run. *)
Theorem C102_graphql_refuted :
  (forall other merge s added o, o_questions o = false -> graphql other merge s added o = o_fields o true) /\
  exists s ms o, limited s ms /\ validates s /\ traces s /\ o_strict o = false /\
    forall other merge, (ms < snd (graphql other merge s [] o))%N /\ r_errors (fst (graphql other merge s [] o)) = [] /\ r_extensions (fst (graphql other merge s [] o)) = [] /\
      (snd (rest other s [] o) <= ms)%N.
Proof.
  split.
  - intros other merge s added o Q. unfold graphql. rewrite Q, andb_false_r. reflexivity.
  - exists {| s_timeout := Some 100%Z; s_tracing := Some true; s_validation := Some true; s_introspection := None |}, 100%N,
      {| o_strict := false; o_fast := true; o_questions := false; o_fields := fun _ => ({| r_data := VBool true; r_errors := []; r_extensions := [] |}, 5000%N); o_schema := (invalid, 0%N) |}.
    split; [split; [lia|reflexivity]|]. split; [reflexivity|]. split; [reflexivity|]. split; [reflexivity|].
    intros other merge. repeat split; vm_compute; congruence.
Qed.
Print Assumptions C102_graphql_refuted.

(** The check of REST operations always validates, and never asks resolvers, whatever is set. *)
Theorem C102_checked : forall other s o,
  (o_strict o = false -> checked other s o = (invalid, 0%N)) /\
  (o_strict o = true -> unlimited s -> noted s (fst (o_fields o false)) (fst (checked other s o)) /\ snd (checked other s o) = snd (o_fields o false)) /\
  (forall o', o_strict o' = o_strict o -> o_fields o' false = o_fields o false -> checked other s o' = checked other s o).
Proof.
  intros other s o.
  assert (forall o, checked other s o = if o_strict o then fold_right (around other (sc_data (to_schema_with s true []))) (o_fields o false) (sc_extensions (to_schema_with s true [])) else (invalid, 0%N)) as E.
  { intro x. unfold checked, library. change (sc_resolvers (to_schema_with s true [])) with false. unfold to_schema_with at 1, sc_mode. rewrite orb_true_r. reflexivity. }
  rewrite !E. split; [intros ->; reflexivity|]. split.
  - intros -> U. pose proof (around_settings other s true (o_fields o false)) as W. rewrite (timeout_unlimited _ _ _ U) in W. exact W.
  - intros o' S F. rewrite E, S, F. reflexivity.
Qed.
Print Assumptions C102_checked.

Example C102_example :
  let s := {| s_timeout := Some 100%Z; s_tracing := Some true; s_validation := None; s_introspection := None |} in
  let o := fun t => {| o_strict := false; o_fast := true; o_questions := true; o_fields := fun r => if r then ({| r_data := VBool true; r_errors := []; r_extensions := [] |}, t) else (invalid, 0%N);
             o_schema := ({| r_data := VObj []; r_errors := []; r_extensions := [] |}, 300%N) |} in
  accepted s (o 7%N) /\ limited s 100 /\
  rest (fun _ x => x) s [] (o 100%N) = ({| r_data := VBool true; r_errors := []; r_extensions := ["tracing"] |}, 100%N) /\
  rest (fun _ x => x) s [] (o 101%N) = ({| r_data := VNull; r_errors := ["Global timeout"]; r_extensions := ["tracing"] |}, 100%N) /\
  snd (graphql (fun _ x => x) (fun a _ => a) s [] (o 7%N)) = 107%N /\
  checked (fun _ x => x) s (o 7%N) = (invalid, 0%N).
Proof. split; [split; [discriminate|reflexivity]|]. split; [split; [lia|reflexivity]|]. vm_compute. auto. Qed.
