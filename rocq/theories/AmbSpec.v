(** Vocabulary for input and output uses of types (C36). *)
From Coq Require Import String Ascii Bool List Permutation.
From Verif Require Import Base Ordered JsonModel TypeModel BuilderModel ConfigModel RenameSpec.
Import ListNotations.
Open Scope string_scope.
Open Scope list_scope.

(** [Holds c n m]: a value of the type [n] has values of the type [m] inside. *)
Inductive Holds (c : config) : string -> string -> Prop :=
| Holds_member n u m : find_union c n = Some u -> In m (u_types u) -> Holds c n m
| Holds_field n t fn f : find_type c n = Some t -> In (fn, f) (t_fields t) -> Holds c n (type_name (f_type f)).

(** Some argument has this type. *)
Definition ArgumentType (c : config) (m : string) : Prop :=
  exists n t fn f an a, find_type c n = Some t /\ In (fn, f) (t_fields t) /\ In (an, a) (f_args f) /\ m = type_name (arg_type a).

(** Types of what clients send, and of what they are sent. *)
Inductive InputUse (c : config) : string -> Prop :=
| InputUse_arg m : ArgumentType c m -> InputUse c m
| InputUse_inside n m : InputUse c n -> Holds c n m -> InputUse c m.
Inductive OutputUse (c : config) : string -> Prop :=
| OutputUse_query n : r_query (c_schema c) = Some n -> OutputUse c n
| OutputUse_mutation n : r_mutation (c_schema c) = Some n -> OutputUse c n
| OutputUse_inside n m : OutputUse c n -> Holds c n m -> OutputUse c m.

Definition object_type (c : config) (n : string) : Prop := exists t, find_type c n = Some t /\ t_fields t <> [].

(** A configuration in which names are not mixed up: types are listed once, in order;
    a name has one definition; the built-in scalars are not redefined as unions or enums;
    unions have no unions inside (C35). *)
Record tidy (c : config) : Prop := {
  ti_sorted : osorted scmp (c_types c);
  ti_union : forall n, find_union c n <> None -> find_type c n = None /\ is_predefined n = false;
  ti_enum : forall n, find_enum c n <> None -> is_predefined n = false;
  ti_flat : forall n u m, find_union c n = Some u -> In m (u_types u) -> find_union c m = None
}.

(** The names the pass makes up are new. *)
Definition inputs_fresh (c : config) : Prop :=
  forall n, find_type c n <> None ->
    let m := (n ++ "Input")%string in
    ~ defined c m /\ ~ InputUse c m /\ ~ OutputUse c m.

(** No union is used as an input (the pass before this one removes them). *)
Definition no_union_inputs (c : config) : Prop := forall n, InputUse c n -> find_union c n = None.

(** Arguments of fields of the types that will be split have no enum types. *)
Definition no_enum_arguments_inside (c : config) : Prop :=
  forall n t fn f an a, InputUse c n -> OutputUse c n -> find_type c n = Some t -> In (fn, f) (t_fields t) -> In (an, a) (f_args f) ->
    find_enum c (type_name (arg_type a)) = None.

(** [n'] is [n] or the input copy of [n]. *)
Definition copy_of (c : config) (n n' : string) : Prop := n' = n \/ (n' = (n ++ "Input")%string /\ find_type c n <> None).
Inductive typ_copy (c : config) : typ -> typ -> Prop :=
| tc_named n n' b : copy_of c n n' -> typ_copy c (TNamed n b) (TNamed n' b)
| tc_list t t' b : typ_copy c t t' -> typ_copy c (TList t b) (TList t' b).
Definition arg_copy (c : config) (a a' : arg) : Prop :=
  typ_copy c (arg_type a) (arg_type a') /\ arg_doc a' = arg_doc a /\ arg_modify a' = arg_modify a /\ arg_default a' = arg_default a.
Definition field_copy (c : config) (f f' : field) : Prop :=
  typ_copy c (f_type f) (f_type f') /\ same_entries (arg_copy c) (f_args f) (f_args f') /\
  f_doc f' = f_doc f /\ f_modify f' = f_modify f /\ f_omit f' = f_omit f /\
  f_cache f' = f_cache f /\ f_default f' = f_default f /\ f_protected f' = f_protected f /\
  f_discriminate f' = f_discriminate f /\ f_resolvers f' = f_resolvers f /\ f_directives f' = f_directives f.
(** The same definition, up to which of the two names its types go by. *)
Definition gtype_copy (c : config) (t t' : gtype) : Prop :=
  same_entries (field_copy c) (t_fields t) (t_fields t') /\
  t_implements t' = t_implements t /\ t_added t' = t_added t /\ t_doc t' = t_doc t /\ t_cache t' = t_cache t /\
  t_protected t' = t_protected t /\ t_resolvers t' = t_resolvers t /\ t_directives t' = t_directives t.

(** A name some field, argument or union refers to. *)
Definition Mentioned (c : config) (m : string) : Prop := (exists n, Holds c n m) \/ ArgumentType c m.

(** The order of a hash map: some rearrangement. *)
Definition rearranges (order : list string -> list string) : Prop := forall l, Permutation l (order l).
