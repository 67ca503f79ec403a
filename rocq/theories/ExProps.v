(** C92: what [@expr] gives is checked against the type of its field. *)
From Coq Require Import String Ascii ZArith NArith Bool List.
From Verif Require Tm2Proofs CallProofs.
From Verif Require Import Base Ordered JsonModel TypeModel ConfigModel BuilderModel GsModel GsSpec GsProps MustacheModel MustacheSpec CtxModel CallModel CallSpec ExModel ExSpec ExProofs.
Import ListNotations.
Open Scope string_scope.
Open Scope list_scope.

(** A constant is accepted exactly if it is a value of the type, as far as enums are not concerned, and whatever the request, the field is what the constant is. *)
Theorem C92_constants_are_checked : forall c fuel t body r, constant body -> compile_expr c fuel t body true = Some r ->
  ((exists d, r = Ok d) <-> roughly c t body) /\ forall d, r = Ok d -> forall rx ctx, render_value rx d ctx = body.
Proof.
  intros c fuel t body r C. unfold compile_expr. rewrite (proj2 (dynamic_constant body) C), (constant_value body C). cbn [negb]. unfold validate_data_with_schema.
  destruct (to_json_schema c fuel t) as [s|] eqn:S; [|discriminate]. pose proof (schema_right c fuel t s body S) as V. destruct (SchemaModel.validate s body); intros E; injection E as <-.
  - split; [split; [intros _; now apply V|eauto]|]. intros d [= <-] rx ctx. now apply constant_rendered.
  - split; [split; [intros [d E]; discriminate|intros R; apply V in R; discriminate]|discriminate].
Qed.
Print Assumptions C92_constants_are_checked.

(** Every constant that fits is accepted. *)
Theorem C92_fitting_constants_are_accepted : forall c fuel t body r, constant body -> fits c t body -> compile_expr c fuel t body true = Some r -> exists d, r = Ok d.
Proof. intros c fuel t body r C F E. apply (C92_constants_are_checked c fuel t body r C E). now apply fits_roughly. Qed.
Print Assumptions C92_fitting_constants_are_accepted.

(** What is missing: enums, which are not checked ([C92_enums_refuted]). *)
Theorem C92_accepted_constants_fit_partial : forall c fuel t body d, (forall n, oget scmp n (c_enums c) = None) -> constant body -> compile_expr c fuel t body true = Some (Ok d) -> fits c t body.
Proof. intros c fuel t body d N C E. apply roughly_fits; [exact N|]. apply (C92_constants_are_checked c fuel t body (Ok d) C E). eauto. Qed.
Print Assumptions C92_accepted_constants_fit_partial.

(** The check comes to an end where no type is reached from itself through fields without resolvers; with more depth it says the same. *)
Theorem C92_check_ends : forall c t body, no_cycles c -> exists fuel, forall more, fuel <= more -> compile_expr c more t body true <> None.
Proof.
  intros c t body N. destruct (schema_ends c N t) as [fuel H]. exists fuel. intros more L. unfold compile_expr. destruct (negb _); [discriminate|]. destruct (const_value _) as [v|e]; [|discriminate]. unfold validate_data_with_schema.
  specialize (H more L). destruct (to_json_schema c more t); [|contradiction]. destruct (SchemaModel.validate _ _); discriminate.
Qed.
Print Assumptions C92_check_ends.
Theorem C92_check_is_one : forall c t body fuel fuel' r r', constant body -> compile_expr c fuel t body true = Some r -> compile_expr c fuel' t body true = Some r' -> (exists d, r = Ok d) <-> exists d, r' = Ok d.
Proof. intros c t body fuel fuel' r r' C E E'. rewrite (proj1 (C92_constants_are_checked c fuel t body r C E)), (proj1 (C92_constants_are_checked c fuel' t body r' C E')). reflexivity. Qed.
Print Assumptions C92_check_is_one.

(** With a template anywhere, all of it is accepted. *)
Theorem C92_templates_are_filled : forall c fuel t body, ~ constant body -> compile_expr c fuel t body true = Some (Ok (dynamic_of body)) /\
  forall rx ctx, filled rx ctx body (render_value rx (dynamic_of body) ctx).
Proof.
  intros c fuel t body N. split.
  - unfold compile_expr. destruct (dynamic_is_const (dynamic_of body)) eqn:D; [|reflexivity]. apply dynamic_constant in D. contradiction.
  - intros rx ctx. apply CallProofs.dynamic_filled.
Qed.
Print Assumptions C92_templates_are_filled.

Definition ex_config : config :=
  with_table [("Page", object [("size", TNamed "Int" true); ("title", TNamed "String" false); ("users", TList (TNamed "User" true) false)]); ("User", object [("name", TNamed "String" true)])] [].
Definition a_page : value := VObj [("size", VNum (NInt 3)); ("users", VList [VObj [("name", VStr "{x}")]])].
Definition bad_page : value := VObj [("size", VNum (NInt 3)); ("users", VList [VObj []])].
Lemma is_constant : forall v, dynamic_is_const (dynamic_of v) = true -> constant v.
Proof. intros v. apply dynamic_constant. Qed.
Example C92_example : constant a_page /\ constant bad_page /\
  (exists d, compile_expr ex_config 3 (TNamed "Page" true) a_page true = Some (Ok d)) /\ compile_expr ex_config 3 (TNamed "Page" true) bad_page true = Some (Err DoesNotFit).
Proof. split; [apply is_constant; reflexivity|]. split; [apply is_constant; reflexivity|]. split; [eexists; vm_compute; reflexivity|vm_compute; reflexivity]. Qed.
Example C92_cycles_example : no_cycles ex_config.
Proof.
  exists (fun n => if String.eqb n "Page" then 1 else 0). intros n ty k f T I _ N. cbn in T.
  destruct (scmp n "Page") eqn:P; cbn in T.
  - injection T as <-. assert (n = "Page") by (now apply Tm2Proofs.scmp_eq). subst n. cbn in I. repeat destruct I as [[= <- <-]|I]; cbn in N |- *; auto; contradiction.
  - destruct (scmp n "User") eqn:U; cbn in T; try discriminate. injection T as <-. cbn in I. destruct I as [[= <- <-]|[]]. cbn in N. contradiction.
  - destruct (scmp n "User") eqn:U; cbn in T; try discriminate. injection T as <-. cbn in I. destruct I as [[= <- <-]|[]]. cbn in N. contradiction.
Qed.
Example C92_template_example : ~ constant (VStr "{{.value.a}}").
Proof. intros C. apply dynamic_constant in C. discriminate. Qed.

(** "A constant of an enum is one of its values": any value at all is accepted. *)
Definition with_enum : config := with_table [] [("Kind", {| e_variants := [("LONG", None); ("SHORT", None)]; e_doc := None |})].
Theorem C92_enums_refuted : exists body d, constant body /\ compile_expr with_enum 1 (TNamed "Kind" true) body true = Some (Ok d) /\ ~ fits with_enum (TNamed "Kind" true) body.
Proof.
  exists (VStr "WIDE"). eexists. split; [apply is_constant; reflexivity|]. split; [vm_compute; reflexivity|]. intros F. inversion F; subst; try discriminate. cbn in *.
  match goal with X : Some _ = Some _ |- _ => injection X as <- end. cbn in *. intuition congruence.
Qed.
Print Assumptions C92_enums_refuted.
(** "A constant of a type that must not be null is not null": for scalars other than four it is. *)
Theorem C92_null_refuted : exists d, compile_expr (with_table [] []) 1 (TNamed "ID" true) VNull true = Some (Ok d).
Proof. eexists. vm_compute. reflexivity. Qed.
Print Assumptions C92_null_refuted.
(** "An Int is a whole number." *)
Theorem C92_int_refuted : exists d, compile_expr (with_table [] []) 1 (TNamed "Int" true) (VNum (NFloat "1.5")) true = Some (Ok d).
Proof. eexists. vm_compute. reflexivity. Qed.
Print Assumptions C92_int_refuted.
(** "Every configuration is accepted or refused": for a type that is reached from itself the check does not end. *)
Definition node : gtype := object [("next", TNamed "Node" false)].
Definition of_nodes : config := with_table [("Node", node)] [].
Lemma node_endless : forall fuel, object_type_schema of_nodes fuel node = None.
Proof.
  induction fuel as [|fuel IH]; [reflexivity|]. cbn [object_type_schema].
  change (filter _ (t_fields node)) with [("next", field_of (TNamed "Node" false))]. cbn [traverse fst snd]. change (f_type (field_of (TNamed "Node" false))) with (TNamed "Node" false). cbn [typ_schema].
  change (find_type of_nodes "Node") with (Some node). cbv iota. rewrite IH. reflexivity.
Qed.
Theorem C92_recursive_refuted : exists body, constant body /\ fits of_nodes (TNamed "Node" false) body /\ forall fuel, compile_expr of_nodes fuel (TNamed "Node" false) body true = None.
Proof.
  exists VNull. split; [apply is_constant; reflexivity|]. split; [constructor|]. intros fuel. unfold compile_expr. cbn [dynamic_of dynamic_is_const negb const_value]. unfold validate_data_with_schema, to_json_schema. cbn [typ_schema].
  change (find_type of_nodes "Node") with (Some node). cbv iota. rewrite node_endless. reflexivity.
Qed.
Print Assumptions C92_recursive_refuted.
