(** Specification for C62 to C65. *)
From Coq Require Import String Ascii ZArith NArith List.
From Verif Require Import Base JsonModel TypeModel ConfigModel AuthModel IrModel ComposeModel FieldModel.
Import ListNotations.
Open Scope string_scope.
Open Scope list_scope.

(** * C62: leaves and the resolvers above them *)

(** Going down from a type by fields none of which has a resolver: the names of the fields,
    and the name of the type of the last one. *)
Inductive without_resolver (c : config) : string -> list string -> string -> Prop :=
| WR_one : forall n t f fd,
    find_type c n = Some t -> In (f, fd) (t_fields t) -> f_resolvers fd = [] ->
    without_resolver c n [f] (type_name (f_type fd))
| WR_more : forall n t f fd p leaf,
    find_type c n = Some t -> In (f, fd) (t_fields t) -> f_resolvers fd = [] ->
    without_resolver c (type_name (f_type fd)) p leaf ->
    without_resolver c n (f :: p) leaf.

(** A type that has no fields to go on with: a scalar, an enum, a union, an undeclared type. *)
Definition is_leaf (c : config) (n : string) : Prop :=
  forall t, find_type c n = Some t -> t_fields t = [].

(** Every way from a type down to a leaf passes a field with a resolver. *)
Definition leaves_resolved (c : config) (root : string) : Prop :=
  forall p leaf, without_resolver c root p leaf -> ~ is_leaf c leaf.

(** The configuration declares no scalar of its own. *)
Definition no_declared_scalars (c : config) : Prop :=
  forall n t, find_type c n = Some t -> t_fields t <> [].

(** The root types: declared, and with leaves that are all resolved. *)
Definition roots_resolved (c : config) : Prop :=
  (exists q t, r_query (c_schema c) = Some q /\ find_type c q = Some t /\ leaves_resolved c q) /\
  (forall n, r_mutation (c_schema c) = Some n ->
     exists t, find_type c n = Some t /\ leaves_resolved c n).

(** The same where the only leaves are the undeclared types. *)
Definition dead_end (c : config) (root : string) : Prop :=
  exists p leaf, without_resolver c root p leaf /\ find_type c leaf = None.

(** * C63: where the value of a field comes from *)

(** Some leaf at or below the field has no resolver above it, so it needs data from the
    parent. *)
Definition needs_data (c : config) (f : field) : Prop :=
  f_resolvers f = [] /\
  (find_type c (type_name (f_type f)) = None \/ dead_end c (type_name (f_type f))).

(** What an object holds under a name. *)
Definition held (members : list (string * value)) (n : string) (v : value) : Prop :=
  (exists before after, members = before ++ (n, v) :: after /\ ~ In n (map fst before)) \/
  (~ In n (map fst members) /\ v = VNull).

(** A new name asked for. *)
Definition renamed (f : field) (new : string) : Prop :=
  exists mo, f_modify f = Some mo /\ mod_name mo = Some new.

(** The type of the field is neither a union, an interface nor an enum. *)
Definition plain_type (m : cmodule) (f : field) : Prop :=
  find_union (m_config m) (type_name (f_type f)) = None /\
  ~ In (type_name (f_type f)) (map fst (m_interfaces m)) /\
  find_enum (m_config m) (type_name (f_type f)) = None.

(** * C64: who may see a protected field *)

Definition marked (m : cmodule) (t : gtype) (f : field) : Prop :=
  f_protected f <> None \/ t_protected t <> None \/
  exists out, find_type (m_config m) (type_name (f_type f)) = Some out /\ t_protected out <> None.

(** A provider an id stands for: the last one configured with it. *)
Definition provider_named (m : cmodule) (id : string) (p : provider) : Prop :=
  exists before after, m_providers m = before ++ (Some id, p) :: after /\
    forall q, ~ In (Some id, q) after.

(** An id the type or the field asks for. *)
Definition asked_for (t : gtype) (f : field) (id : string) : Prop :=
  (exists p l, t_protected t = Some p /\ prot_id p = Some l /\ In id l) \/
  (exists p l, f_protected f = Some p /\ prot_id p = Some l /\ In id l).

(** The providers that must all accept a request. *)
Definition demanded (m : cmodule) (t : gtype) (f : field) (p : provider) : Prop :=
  (exists id, asked_for t f id /\ provider_named m id p) \/
  ((forall id, ~ asked_for t f id) /\ exists id, In (id, p) (m_providers m)).

(** A field and a type without their marks. *)
Definition unmarked_field (f : field) : field :=
  {| f_type := f_type f; f_args := f_args f; f_doc := f_doc f; f_modify := f_modify f;
     f_omit := f_omit f; f_cache := f_cache f; f_default := f_default f; f_protected := None;
     f_discriminate := f_discriminate f; f_resolvers := f_resolvers f;
     f_directives := f_directives f |}.
Definition unmarked_type (t : gtype) : gtype :=
  {| t_fields := t_fields t; t_added := t_added t; t_doc := t_doc t;
     t_implements := t_implements t; t_cache := t_cache t; t_protected := None;
     t_resolvers := t_resolvers t; t_directives := t_directives t |}.

(** * C65: added fields *)

(** No digit and no plus sign at the front, like every name of GraphQL. *)
Definition like_a_name (n : string) : Prop :=
  match n with
  | EmptyString => False
  | String ch _ => ((N_of_ascii ch < 48)%N \/ (57 < N_of_ascii ch)%N) /\ ch <> "+"%char
  end.

(** The same type, null allowed. *)
Definition or_null (t : typ) : typ :=
  match t with TNamed n _ => TNamed n false | TList of_type _ => TList of_type false end.

(** A resolver of the field gives an expression (those of federation give none). *)
Definition resolves {IO} (compile : string -> field -> resolver -> checked (option (ir IO)) blueprint_error)
  (object : string) (f : field) : Prop :=
  exists r e, In r (f_resolvers f) /\ compile object f r = Ok (Some e).

(** The field a path leads to, from a type, by fields without resolvers and through objects
    only: its type. *)
Inductive leads (c : config) : gtype -> list string -> typ -> Prop :=
| L_here : forall t n f, get_field n t = Some f -> f_resolvers f = [] -> leads c t [n] (f_type f)
| L_into : forall t n f nn next p ty,
    get_field n t = Some f -> f_resolvers f = [] -> f_type f = TNamed next nn ->
    forall t', find_type c next = Some t' -> leads c t' p ty ->
    leads c t (n :: p) ty.

(** What a path leads to in a value, by the names of members and the positions in lists. *)
Inductive found (v : value) : list string -> value -> Prop :=
| F_here : found v [] v
| F_member : forall members n w p x,
    v = VObj members -> held members n w -> In n (map fst members) -> found w p x -> found v (n :: p) x
| F_item : forall items n i w p x,
    v = VList items -> parse_usize n = Some i -> nth_error items (N.to_nat i) = Some w ->
    found w p x -> found v (n :: p) x.

(** The same with null where it leads nowhere. *)
Definition found_or_null (v : value) (p : list string) (x : value) : Prop :=
  found v p x \/ ((forall y, ~ found v p y) /\ x = VNull).
