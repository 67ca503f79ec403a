(** What a GraphQL type reference means: the set of values it admits, given the
    sets admitted by the named types. *)
From Coq Require Import String Ascii Bool List.
From Verif Require Import Base JsonModel TypeModel.
Import ListNotations.

Section Admits.
  (** the non-null values of each named type *)
  Variable base : string -> value -> Prop.

  Inductive admits : typ -> value -> Prop :=
  | admits_null_named n : admits (TNamed n false) VNull
  | admits_null_list t : admits (TList t false) VNull
  | admits_named n nn v : v <> VNull -> base n v -> admits (TNamed n nn) v
  | admits_list t nn l : Forall (admits t) l -> admits (TList t nn) (VList l).
End Admits.

(** The same for the [TypeRef] representation given to the introspection schema. *)
Section RefAdmits.
  Variable base : string -> value -> Prop.
  Inductive ref_admits : tref -> value -> Prop :=
  | ref_null_named n : ref_admits (RNamed n) VNull
  | ref_null_list t : ref_admits (RList t) VNull
  | ref_named n v : v <> VNull -> base n v -> ref_admits (RNamed n) v
  | ref_list t l : Forall (ref_admits t) l -> ref_admits (RList t) (VList l)
  | ref_nonnull t v : v <> VNull -> ref_admits t v -> ref_admits (RNonNull t) v.
End RefAdmits.

(** ... and for the parser's representation. *)
Section PAdmits.
  Variable base : string -> value -> Prop.
  Inductive p_admits : ptype -> value -> Prop :=
  | p_null b : p_admits (PType b true) VNull
  | p_named n nu v : v <> VNull -> base n v -> p_admits (PType (PNamed n) nu) v
  | p_list t nu l : Forall (p_admits t) l -> p_admits (PType (PList t) nu) (VList l).
End PAdmits.

(** A name as the grammar allows it: no bracket and no bang. *)
Definition plain_char (c : Ascii.ascii) : bool :=
  negb (Ascii.eqb c "["%char || Ascii.eqb c "]"%char || Ascii.eqb c "!"%char).
Fixpoint plain (s : string) : bool :=
  match s with
  | EmptyString => true
  | String c t => plain_char c && plain t
  end.
