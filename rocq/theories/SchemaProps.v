(** Property C26: schema compatibility. *)
From Coq Require Import String Ascii ZArith Bool List.
From Verif Require Import Base JsonModel SchemaModel SchemaSpec SchemaProofs.
Import ListNotations.
Open Scope string_scope.
Open Scope list_scope.

(** Accepted schemas are substitutable: every value of the actual schema is a
    value of the expected one, provided no object of the expected schema
    requires a field of type Any (see [C26_any_field_refuted]). *)
Theorem C26_accepted_is_substitutable_partial :
  forall (sub super : schema) (v : value),
    no_any_field super -> is_a sub super = true -> conforms sub v -> conforms super v.
Proof. exact (fun sub super => is_a_sound super sub). Qed.
Print Assumptions C26_accepted_is_substitutable_partial.

(** Finding: with a required field of type Any the checker accepts an actual
    schema whose field is optional, although a value without that field then
    fails validation. *)
Theorem C26_any_field_refuted :
  exists sub super v,
    is_a sub super = true /\ conforms sub v /\ validate sub v = true /\
    ~ conforms super v /\ validate super v = false.
Proof. exact any_field_counterexample. Qed.
Print Assumptions C26_any_field_refuted.

(** Without enums, run-time validation decides conformance. *)
Theorem C26_validation_decides_conformance :
  forall s : schema, enum_free s -> forall v : value, validate s v = true <-> conforms s v.
Proof. exact validate_conforms. Qed.
Print Assumptions C26_validation_decides_conformance.

(** Finding: enum schemas accept every value at run time. *)
Theorem C26_enum_validation_refuted :
  exists vs v, validate (SEnum vs) v = true /\ ~ conforms (SEnum vs) v.
Proof. exact enum_counterexample. Qed.
Print Assumptions C26_enum_validation_refuted.

Theorem C26_reflexive : forall s : schema, wf_schema s -> is_a s s = true.
Proof. exact is_a_refl. Qed.
Print Assumptions C26_reflexive.

Theorem C26_transitive :
  forall a b c : schema, is_a a b = true -> is_a b c = true -> is_a a c = true.
Proof. exact (fun a b c => is_a_trans c a b). Qed.
Print Assumptions C26_transitive.

Definition sub26 : schema :=
  SObj [("a", SStr); ("b", SArr (SObj [("c", SNum)])); ("z", SEnum ["A"; "B"])].
Definition super26 : schema :=
  SObj [("a", SOpt SStr); ("b", SOpt (SArr (SObj [("c", SOpt SNum)])))].
Definition v26 : value :=
  VObj [("a", VStr "x"); ("b", VList [VObj [("c", VNum (NInt 3))]]); ("z", VEnum "A")].

Example C26_witness :
  no_any_field super26 /\ is_a sub26 super26 = true /\ is_a super26 sub26 = false /\
  conforms sub26 v26 /\ wf_schema sub26.
Proof.
  repeat split.
  - repeat (constructor; simpl); discriminate.
  - constructor. intros k s [E|[E|[E|[]]]]; injection E as <- <-; left; eexists; split; try reflexivity.
    + constructor.
    + constructor. constructor; [|constructor]. constructor.
      intros k s [E|[]]. injection E as <- <-. left. eexists. split; [reflexivity|constructor].
    + constructor. simpl. auto.
  - repeat (constructor; simpl); intros H; repeat (destruct H as [H|H]; try discriminate H); exact H.
Qed.
