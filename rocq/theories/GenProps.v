(** C70: the schema generated from a sample answer is closed and the sample fits it. *)
From Coq Require Import String Ascii ZArith NArith Bool Lia List.
From Verif Require Import Base Ordered JsonModel TypeModel ConfigModel MustacheModel GenModel GenSpec GenProofs.
Import ListNotations.
Open Scope string_scope.
Open Scope list_scope.

Definition start70 : gstate := {| gs_next := 1; gs_types := [] |}.
Definition run70 (v : value) : string * gstate := generate_types "GEN__" v start70.
Definition int70 (z : Z) : value := VNum (NInt z).
(** The type of a field of a type. *)
Definition field70 (st : gstate) (t k : string) : option typ :=
  match oget scmp t (gs_types st) with Some ty => option_map f_type (oget scmp k (t_fields ty)) | None => None end.

(** ** The schema is closed *)
(** Whatever the sample is: types that were there are untouched, each type that is added has
    fields, all with names GraphQL accepts, and each of them is of a scalar type or of a type
    that was added before; so is the answer itself. *)
Theorem C70_schema_is_closed : forall prefix sample st name st',
  generate_types prefix sample st = (name, st') ->
  (forall k, (gs_next st <= k)%Z -> oget scmp (numbered prefix k) (gs_types st) = None) ->
  (gs_next st <= gs_next st')%Z /\
  (forall n, (forall k, (gs_next st <= k < gs_next st')%Z -> n <> numbered prefix k) ->
     oget scmp n (gs_types st') = oget scmp n (gs_types st)) /\
  (plain_scalar name \/ exists t, oget scmp name (gs_types st') = Some t) /\
  (forall k, (gs_next st <= k < gs_next st')%Z -> exists t, oget scmp (numbered prefix k) (gs_types st') = Some t /\ t_fields t <> [] /\
     forall n f, oget scmp n (t_fields t) = Some f -> graphql_name n /\
       (plain_scalar (type_name (f_type f)) \/ exists j, (gs_next st <= j < k)%Z /\ type_name (f_type f) = numbered prefix j)).
Proof. exact well_formed. Qed.
Print Assumptions C70_schema_is_closed.

Definition sample70 : value :=
  VList [VObj [("id", int70 1); ("name", VNull); ("tags", VList [VStr "a"])];
         VObj [("id", VNull); ("name", VStr "Ann"); ("home", VObj [("city", VStr "Ulm"); ("zip", int70 7)])]].
Example C70_closed_example :
  (forall k, (gs_next start70 <= k)%Z -> oget scmp (numbered "GEN__" k) (gs_types start70) = None) /\
  fst (run70 sample70) = "GEN__2" /\ map fst (gs_types (snd (run70 sample70))) = ["GEN__1"; "GEN__2"] /\
  field70 (snd (run70 sample70)) "GEN__2" "home" = Some (TNamed "GEN__1" false) /\
  field70 (snd (run70 sample70)) "GEN__2" "tags" = Some (TList (TNamed "String" false) false) /\
  field70 (snd (run70 sample70)) "GEN__2" "name" = Some (TNamed "String" false).
Proof. repeat split. Qed.

(** A type of the configuration that has such a name already is overwritten. *)
Theorem C70_names_are_new_refuted : exists st sample n t,
  oget scmp n (gs_types st) = Some t /\ oget scmp n (gs_types (snd (generate_types "GEN__" sample st))) <> Some t.
Proof.
  exists {| gs_next := 1; gs_types := [("GEN__1", with_fields [("mine", field_of (TNamed "Int" false))])] |}, (VObj [("x", int70 1)]), "GEN__1".
  eexists. split; [reflexivity|]. cbn. discriminate.
Qed.
Print Assumptions C70_names_are_new_refuted.

(** ** The sample fits the schema *)
(** For regular samples: whole numbers of 32 bits, lists of items of one kind, no lists directly
    in lists, the same members of objects below the items of a list. *)
Theorem C70_samples_fit_partial : forall prefix sample st name st',
  generate_types prefix sample st = (name, st') ->
  (forall k, (gs_next st <= k)%Z -> oget scmp (numbered prefix k) (gs_types st) = None) ->
  regular sample -> describes (gs_types st') (sample_type sample name) sample.
Proof. exact sample_fits. Qed.
Print Assumptions C70_samples_fit_partial.

Example C70_fit_example : regular sample70.
Proof.
  apply regular_objects with [("id", KInt); ("name", KText); ("tags", KList KText); ("home", KObj [("city", KText); ("zip", KInt)])].
  intros v [<-|[<-|[]]]; right; eexists; (split; [reflexivity|]); intros k w I; cbn in I;
    repeat destruct I as [I|I]; try contradiction; injection I as <- <-; eexists; (split; [reflexivity|]);
    try (apply shaped_null); try (apply shaped_text); try (apply shaped_int; lia).
  - apply shaped_list; [exact Logic.I|]. intros v [<-|[]]. apply shaped_text.
  - apply shaped_object.
    + intros k. cbn. destruct (String.eqb k "city"); [split; discriminate|]. destruct (String.eqb k "zip"); split; auto; discriminate.
    + intros k v s [H|[H|[]]]; injection H as <- <-; cbn; intros E; injection E as <-; [apply shaped_text|apply shaped_int; lia].
Qed.
(** The schema says no for other values, so it is not one that fits everything. *)
Example C70_fit_not_trivial : ~ describes (gs_types (snd (run70 sample70))) (TNamed "GEN__2" false) (VObj [("id", VStr "x")]).
Proof.
  intros H. inversion H as [| | | | | |n b t m G A]; subst. specialize (A "id" (VStr "x") (or_introl eq_refl)).
  cbn in G. injection G as <-. destruct A as (f & F & D). cbn in F. injection F as <-. cbn in D. inversion D.
Qed.

Local Ltac misfit := let H := fresh in intros H; cbn in H; inversion H; subst; clear H.
(** Numbers with a fraction and big numbers are taken for [Int]. *)
Theorem C70_numbers_fit_refuted : exists sample,
  (exists x, sample = VObj [("price", x)] /\ x = VNum (NFloat "1.5")) /\
  ~ describes (gs_types (snd (run70 sample))) (sample_type sample (fst (run70 sample))) sample.
Proof.
  eexists. split; [eexists; split; reflexivity|]. intros H. inversion H as [| | | | | |n b t m G A]; subst.
  specialize (A _ _ (or_introl eq_refl)). cbn in G. injection G as <-. destruct A as (f & F & D). cbn in F. injection F as <-. inversion D.
Qed.
Print Assumptions C70_numbers_fit_refuted.
Theorem C70_big_numbers_fit_refuted : exists z, (2 ^ 31 <= z)%Z /\
  ~ describes (gs_types (snd (run70 (int70 z)))) (sample_type (int70 z) (fst (run70 (int70 z)))) (int70 z).
Proof. exists 3000000000%Z. split; [lia|]. misfit. lia. Qed.
Print Assumptions C70_big_numbers_fit_refuted.
(** Of a list of different kinds of items the first decides. *)
Theorem C70_mixed_lists_fit_refuted : exists sample,
  sample = VList [int70 1; VStr "a"] /\
  ~ describes (gs_types (snd (run70 sample))) (sample_type sample (fst (run70 sample))) sample.
Proof.
  eexists. split; [reflexivity|]. misfit.
  match goal with A : forall v, _ -> _ |- _ => specialize (A _ (or_intror (or_introl eq_refl))); inversion A end.
Qed.
Print Assumptions C70_mixed_lists_fit_refuted.
(** Lists in lists lose a level. *)
Theorem C70_nested_lists_fit_refuted : exists sample,
  sample = VList [VList [int70 1]] /\
  ~ describes (gs_types (snd (run70 sample))) (sample_type sample (fst (run70 sample))) sample.
Proof.
  eexists. split; [reflexivity|]. misfit.
  match goal with A : forall v, _ -> _ |- _ => specialize (A _ (or_introl eq_refl)); inversion A end.
Qed.
Print Assumptions C70_nested_lists_fit_refuted.
(** Members that only later items of a list have are kept at the top, but not below. *)
Theorem C70_later_members_fit_refuted : exists sample,
  sample = VList [VObj [("a", VObj [("x", int70 1)])]; VObj [("a", VObj [("y", int70 2)])]] /\
  ~ describes (gs_types (snd (run70 sample))) (sample_type sample (fst (run70 sample))) sample.
Proof.
  eexists. split; [reflexivity|]. misfit.
  match goal with A : forall v, _ -> _ |- _ => specialize (A _ (or_intror (or_introl eq_refl))); inversion A as [| | | | | |n b t m G B]; subst end.
  specialize (B _ _ (or_introl eq_refl)). cbn in G. injection G as <-. destruct B as (f & F & D). cbn in F. injection F as <-.
  inversion D as [| | | | | |n b t m G B]; subst. cbn in G. injection G as <-.
  specialize (B _ _ (or_introl eq_refl)). destruct B as (f & F & _). cbn in F. discriminate.
Qed.
Print Assumptions C70_later_members_fit_refuted.
(** A scalar after objects decides too: the type of the objects is dropped. *)
Theorem C70_objects_and_scalars_fit_refuted : exists sample,
  sample = VList [VObj [("a", VObj [("x", int70 1)])]; int70 2] /\
  ~ describes (gs_types (snd (run70 sample))) (sample_type sample (fst (run70 sample))) sample.
Proof.
  eexists. split; [reflexivity|]. misfit.
  match goal with A : forall v, _ -> _ |- _ => specialize (A _ (or_introl eq_refl)); inversion A as [| | | | | |n b t m G B]; subst end.
  cbn in G. discriminate.
Qed.
Print Assumptions C70_objects_and_scalars_fit_refuted.

(** ** The schema says all that can be said *)
(** Objects with valid names get a type with exactly their members, scalars their scalar type. *)
Theorem C70_schema_is_detailed : forall prefix sample st name st',
  generate_types prefix sample st = (name, st') ->
  (forall k, (gs_next st <= k)%Z -> oget scmp (numbered prefix k) (gs_types st) = None) ->
  distinct sample -> detailed (gs_types st') (sample_type sample name) sample.
Proof. intros prefix sample. exact (all_detailed prefix sample). Qed.
Print Assumptions C70_schema_is_detailed.

Example C70_detailed_example : exists v, v = VObj [("id", int70 1); ("home", VObj [("city", VStr "Ulm")])] /\ distinct v /\ fst (run70 v) = "GEN__2" /\ field70 (snd (run70 v)) "GEN__2" "home" = Some (TNamed "GEN__1" false) /\
  field70 (snd (run70 v)) "GEN__1" "city" = Some (TNamed "String" false).
Proof.
  eexists. split; [reflexivity|]. split; [|repeat split]. apply distinct_object.
  - apply NoDup_cons; [intros [H|[]]; discriminate|]. apply NoDup_cons; [intros []|apply NoDup_nil].
  - intros k v [H|[H|[]]]; injection H as <- <-; [apply distinct_num|]. apply distinct_object; [apply NoDup_cons; [intros []|apply NoDup_nil]|].
    intros k v [H|[]]; injection H as <- <-. apply distinct_text.
Qed.

(** ** One item that tells is enough *)
(** In a list of objects a member that is null, or missing, in some and a scalar of one kind in
    others is of that scalar's type. *)
Theorem C70_known_if_known_anywhere : forall prefix l st name st' k s,
  Forall typed_object l -> In s [KBool; KInt; KText] ->
  (forall m w, In (VObj m) l -> In (k, w) m -> shaped s w) ->
  (exists m w, In (VObj m) l /\ In (k, w) m /\ w <> VNull) ->
  generate_types prefix (VList l) st = (name, st') ->
  exists t f, oget scmp name (gs_types st') = Some t /\ oget scmp k (t_fields t) = Some f /\ f_type f = TNamed (scalar_name s) false.
Proof. exact known_anywhere. Qed.
Print Assumptions C70_known_if_known_anywhere.

Example C70_known_example : exists l,
  Forall typed_object l /\
  (forall m w, In (VObj m) l -> In ("n", w) m -> shaped KText w) /\
  (exists m w, In (VObj m) l /\ In ("n", w) m /\ w <> VNull) /\
  field70 (snd (run70 (VList l))) "GEN__1" "n" = Some (TNamed "String" false).
Proof.
  exists [VObj [("n", VNull)]; VObj [("n", VStr "a")]; VObj [("n", VNull)]].
  split; [|split; [|split; [|reflexivity]]].
  - repeat (apply Forall_cons; [eexists; split; [reflexivity|]; split; [discriminate|]; split;
      [repeat (apply NoDup_cons; [intros []|]); apply NoDup_nil|];
      intros k w [H|[]]; injection H as <- <-; exists "n"%char, []; split; [reflexivity|]; split; [left; cbn; lia|apply Forall_nil]|]).
    apply Forall_nil.
  - intros m w [H|[H|[H|[]]]]; injection H as <-; intros [H|[]]; injection H as <-; first [apply shaped_null|apply shaped_text].
  - exists [("n", VStr "a")], (VStr "a"). split; [right; now left|]. split; [now left|discriminate].
Qed.
