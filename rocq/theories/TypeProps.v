(** Property C27: type wrappers. *)
From Coq Require Import String Ascii Bool List.
From Verif Require Import Base JsonModel TypeModel TypeSpec TypeProofs.
Import ListNotations.
Open Scope string_scope.
Open Scope list_scope.

(** Converting to the parser's representation and back is the identity, both ways. *)
Theorem C27_parser_round_trip :
  (forall t : typ, of_parser (to_parser t) = t) /\ (forall p : ptype, to_parser (of_parser p) = p).
Proof. exact (conj of_to_parser to_of_parser). Qed.
Print Assumptions C27_parser_round_trip.

(** All three representations admit the same values. *)
Theorem C27_same_values :
  forall (base : string -> value -> Prop) (t : typ) (v : value),
    (p_admits base (to_parser t) v <-> admits base t v) /\
    (ref_admits base (to_tref t) v <-> admits base t v).
Proof. exact (fun base t v => conj (p_admits_iff base t v) (ref_admits_iff base t v)). Qed.
Print Assumptions C27_same_values.

(** No wrapper is lost in the introspection representation or in the printed text. *)
Theorem C27_representations_injective :
  (forall t u : typ, to_tref t = to_tref u -> t = u) /\
  (forall t u : typ,
      plain (type_name t) = true -> plain (type_name u) = true ->
      type_name t <> "" -> type_name u <> "" ->
      type_text t = type_text u -> t = u).
Proof. exact (conj to_tref_inj type_text_inj). Qed.
Print Assumptions C27_representations_injective.

(** Changing nullability adds or removes exactly the null value; wrapping in a
    list gives null and the lists of the old type; none touches the named type. *)
Theorem C27_operations_change_one_layer :
  forall (base : string -> value -> Prop) (t : typ) (v : value),
    (admits base (into_required t) v <-> admits base t v /\ v <> VNull) /\
    (admits base (into_nullable t) v <-> admits base t v \/ v = VNull) /\
    (admits base (into_list t) v <->
       v = VNull \/ exists l, v = VList l /\ Forall (admits base t) l) /\
    (admits base t VNull <-> is_nullable t = true).
Proof.
  exact (fun base t v => conj (into_required_admits base t v) (conj (into_nullable_admits base t v)
         (conj (into_list_admits base t v) (is_nullable_admits base t)))).
Qed.
Print Assumptions C27_operations_change_one_layer.

Theorem C27_operations_keep_the_name :
  forall t : typ,
    type_name (into_required t) = type_name t /\ type_name (into_nullable t) = type_name t /\
    type_name (into_list t) = type_name t /\ type_name (into_single t) = type_name t.
Proof. exact type_name_ops. Qed.
Print Assumptions C27_operations_keep_the_name.

(** Renaming the underlying type keeps every wrapper. *)
Theorem C27_with_name_only_renames :
  forall (base : string -> value -> Prop) (n : string) (t : typ) (v : value),
    type_name (with_name n t) = n /\
    (admits base (with_name n t) v <-> admits (fun _ => base n) t v).
Proof. exact (fun base n t v => conj (type_name_with_name n t) (with_name_admits base n t v)). Qed.
Print Assumptions C27_with_name_only_renames.

Definition t27 : typ := TList (TList (TNamed "A" true) false) true.
Example C27_witness :
  type_text t27 = "[[A!]]!" /\ to_tref t27 = RNonNull (RList (RList (RNonNull (RNamed "A")))) /\
  plain (type_name t27) = true /\
  admits (fun _ _ => True) t27 (VList [VNull; VList [VStr "x"]]) /\
  ~ admits (fun _ _ => True) t27 VNull /\
  ~ admits (fun _ _ => True) t27 (VList [VList [VNull]]).
Proof.
  repeat split.
  - unfold t27. repeat (constructor; try discriminate).
  - inversion 1.
  - intros H. inversion H as [| | |? ? ? F]; subst.
    inversion F as [|? ? G]; subst. inversion G as [| | |? ? ? F']; subst.
    inversion F' as [|? ? G']; subst. inversion G'; subst; congruence.
Qed.
