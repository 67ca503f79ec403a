(** Vocabulary for the removal of unused definitions (C75). *)
From Coq Require Import String Bool List.
From Verif Require Import Base TypeModel ShrinkModel.
Import ListNotations.
Open Scope string_scope.
Open Scope list_scope.

(** [n] is the name in the type, under its lists. *)
Inductive named : typ -> string -> Prop :=
| named_plain n nn : named (TNamed n nn) n
| named_list t nn n : named t n -> named (TList t nn) n.

Inductive titled : bdef -> string -> Prop :=
| titled_object n fs is : titled (BObject n fs is) n
| titled_interface n fs is : titled (BInterface n fs is) n
| titled_input n fs : titled (BInput n fs) n
| titled_enum n vs : titled (BEnum n vs) n
| titled_union n ts : titled (BUnion n ts) n
| titled_scalar n : titled (BScalar n) n.

(** A field names its own type and those of its arguments. *)
Definition field_names (f : bfield) (n : string) : Prop :=
  named (bf_type f) n \/ exists a t, In (a, t) (bf_args f) /\ named t n.

(** The text of a definition names a type. *)
Inductive mentions : bdef -> string -> Prop :=
| m_object n fs is f m : In f fs -> field_names f m -> mentions (BObject n fs is) m
| m_object_implements n fs is m : In m is -> mentions (BObject n fs is) m
| m_interface n fs is f m : In f fs -> field_names f m -> mentions (BInterface n fs is) m
| m_interface_implements n fs is m : In m is -> mentions (BInterface n fs is) m
| m_input n fs f t m : In (f, t) fs -> named t m -> mentions (BInput n fs) m
| m_union n ts m : In m ts -> mentions (BUnion n ts) m.

(** What a client can meet: from the root types, whatever a definition names, and from an interface
    the objects that implement it. *)
Definition root (b : blueprint) (n : string) : Prop :=
  n = bp_query b \/ bp_mutation b = Some n \/ n = "Query" \/ n = "Mutation" \/ n = "Subscription".
Inductive met (b : blueprint) : string -> Prop :=
| met_root n : root b n -> met b n
| met_named n d m : met b n -> In d (bp_defs b) -> titled d n -> mentions d m -> met b m
| met_object i fs is o ofs ois : met b i -> In (BInterface i fs is) (bp_defs b) ->
    In (BObject o ofs ois) (bp_defs b) -> In i ois -> met b o.

Definition defined (b : blueprint) (n : string) : Prop := exists d, In d (bp_defs b) /\ titled d n.

(** No two definitions have the same name. *)
Definition distinct (b : blueprint) : Prop :=
  forall d d' n, In d (bp_defs b) -> In d' (bp_defs b) -> titled d n -> titled d' n -> d = d'.
(** Every interface is implemented, by objects that have its arguments and its interfaces, as the
    GraphQL specification asks. *)
Definition conforming (b : blueprint) : Prop :=
  forall i fs is, In (BInterface i fs is) (bp_defs b) ->
    (exists o ofs ois, In (BObject o ofs ois) (bp_defs b) /\ In i ois) /\
    forall o ofs ois, In (BObject o ofs ois) (bp_defs b) -> In i ois ->
      (forall m, In m is -> In m ois) /\
      forall f a t n, In f fs -> In (a, t) (bf_args f) -> named t n ->
        exists f' t', In f' ofs /\ In (a, t') (bf_args f') /\ named t' n.
(** No value of an enum is the name of a definition. *)
Definition values_apart (b : blueprint) : Prop :=
  forall e vs v, In (BEnum e vs) (bp_defs b) -> In v vs -> ~ defined b v.
(** Names that belong to introspection. *)
Definition internal (n : string) : Prop := exists rest, n = ("__" ++ rest)%string.
