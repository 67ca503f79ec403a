(** Property C28. *)
From Coq Require Import String List.
From Verif Require Import Base JsonModel DiscModel DiscSpec DiscProofs.
Import ListNotations.
Open Scope string_scope.
Open Scope list_scope.

(** Discrimination succeeds exactly as specified: nulls stay, lists go element
    by element, an object gets the type its key or field names, if declared. *)
Theorem C28_discrimination_is_the_specified_one :
  forall d v w, wf_obj v -> (resolve_type d v = Ok w <-> discriminated d v w).
Proof. exact resolve_spec. Qed.
Print Assumptions C28_discrimination_is_the_specified_one.

(** If upstream objects carry no type of their own, every resulting object
    carries a declared type. *)
Theorem C28_assigned_type_is_declared :
  forall d v w, untyped v -> resolve_type d v = Ok w -> typed_in (declared d) w.
Proof. exact resolve_declared. Qed.
Print Assumptions C28_assigned_type_is_declared.

(** Finding: a type name sent by the upstream is kept without checking that it
    is declared. *)
Theorem C28_upstream_typename_refuted :
  exists d v w, resolve_type d v = Ok w /\ ~ typed_in (declared d) w.
Proof. exact resolve_undeclared. Qed.
Print Assumptions C28_upstream_typename_refuted.

(** Discriminating again changes nothing. *)
Theorem C28_discrimination_is_stable :
  forall d v w, wf_obj v -> resolve_type d v = Ok w -> resolve_type d w = Ok w.
Proof. exact resolve_idem. Qed.
Print Assumptions C28_discrimination_is_stable.

(** An empty field name is refused; otherwise the kind of discriminator is the
    one asked for. *)
Theorem C28_construction :
  forall ts f,
    match f with
    | Some "" => exists e, new_discriminator ts f = Err e
    | Some n => new_discriminator ts f = Ok (TypeField n ts)
    | None => new_discriminator ts f = Ok (Keyed ts)
    end.
Proof. exact new_discriminator_spec. Qed.
Print Assumptions C28_construction.

Definition animals : list string := ["Cat"; "Dog"].
Definition cats : value :=
  VList [VObj [("kind", VStr "Cat"); ("n", VStr "Tom")]; VNull; VList [VObj [("kind", VStr "Dog")]]].

Example C28_witness :
  resolve_type (TypeField "kind" animals) cats =
    Ok (VList [VObj [("kind", VStr "Cat"); ("n", VStr "Tom"); ("__typename", VStr "Cat")]; VNull;
               VList [VObj [("kind", VStr "Dog"); ("__typename", VStr "Dog")]]])
  /\ resolve_type (Keyed animals) (VObj [("Dog", VObj [("n", VStr "Rex")])])
     = Ok (VObj [("n", VStr "Rex"); ("__typename", VStr "Dog")])
  /\ (exists e, resolve_type (Keyed animals) (VObj [("Fish", VObj [])]) = Err e)
  /\ (exists e, resolve_type (TypeField "kind" animals) (VList [VObj [("kind", VStr "Fish")]]) = Err e)
  /\ (exists e, resolve_type (Keyed animals) (VStr "Dog") = Err e).
Proof. vm_compute. repeat split; eauto. Qed.

Example C28_witness_hyps : wf_obj cats /\ untyped cats.
Proof.
  assert (ND : forall a b : string, a <> b -> NoDup [a; b]).
  { intros. repeat constructor; cbn; intuition. }
  split.
  - constructor. repeat constructor; cbn; intuition discriminate.
  - constructor. constructor; [|constructor; [constructor|constructor; [|constructor]]].
    + constructor. intros [t H]. discriminate.
    + constructor. constructor; [|constructor]. constructor. intros [t H]. discriminate.
Qed.
