(** Vocabulary for the flattening of types with a single field (C78). *)
From Coq Require Import String Bool List.
From Verif Require Import Base Ordered TypeModel ConfigModel BuilderModel FieldModel FieldSpec.
Import ListNotations.
Open Scope string_scope.
Open Scope list_scope.

(** A scalar or an enum. *)
Definition ends (c : config) (n : string) : Prop :=
  match find_type c n with Some t => t_fields t = [] | None => is_predefined n = true end \/ find_enum c n <> None.
(** From the type [n] there is one way to go on, down to a scalar or an enum. *)
Inductive single (c : config) : string -> list string -> Prop :=
| S_ends n : ends c n -> single c n []
| S_into n t f x p : ~ ends c n -> find_type c n = Some t -> t_fields t = [(f, x)] -> single c (type_name (f_type x)) p -> single c n (f :: p).

(** [y] is [x], but left out. *)
Definition left_out (x y : field) : Prop :=
  f_omit y = true /\ f_type y = f_type x /\ f_args y = f_args x /\ f_doc y = f_doc x /\ f_modify y = f_modify x /\ f_cache y = f_cache x /\
  f_default y = f_default x /\ f_protected y = f_protected x /\ f_discriminate y = f_discriminate x /\ f_resolvers y = f_resolvers x /\
  f_directives y = f_directives x.
(** [t'] is [t], but for its fields. *)
Definition same_but_fields (t t' : gtype) : Prop :=
  t_added t' = t_added t /\ t_doc t' = t_doc t /\ t_implements t' = t_implements t /\ t_cache t' = t_cache t /\
  t_protected t' = t_protected t /\ t_resolvers t' = t_resolvers t /\ t_directives t' = t_directives t.
(** The field can be replaced by a path of more than one name. *)
Definition flat (c : config) (x : field) : Prop := exists p, p <> [] /\ single c (type_name (f_type x)) p.

(** From a field by single fields, no lists and no resolvers on the way, to a field of type [ty]. *)
Inductive straight (c : config) : field -> list string -> typ -> Prop :=
| St_end x : straight c x [] (f_type x)
| St_into x n nn t f y p ty : f_type x = TNamed n nn -> find_type c n = Some t -> t_fields t = [(f, y)] -> f_resolvers y = [] ->
    straight c y p ty -> straight c x (f :: p) ty.
