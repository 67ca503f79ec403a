(** Vocabulary for unions in arguments (C72). *)
From Coq Require Import String ZArith Bool List.
From Verif Require Import Base Ordered JsonModel TypeModel ConfigModel.
Import ListNotations.
Open Scope string_scope.
Open Scope list_scope.

(** ** Values of input types *)
Definition member (k : string) (m : list (string * value)) : value := match aget k m with Some v => v | None => VNull end.
Section Fits.
  (** Values of scalars and enums. *)
  Variable leaf : string -> value -> Prop.
  Variable types : list (string * gtype).
  Variable unions : list (string * gunion).
  (** A value of a union is one of any of its members.  An object has a value for each field and
      nothing else; what is not given is null. *)
  Inductive fits : typ -> value -> Prop :=
  | fits_null_name n : fits (TNamed n false) VNull
  | fits_null_list t : fits (TList t false) VNull
  | fits_list t b l : (forall v, In v l -> fits t v) -> fits (TList t b) (VList l)
  | fits_union n b u m v : oget scmp n unions = Some u -> In m (u_types u) -> fits (TNamed m true) v -> fits (TNamed n b) v
  | fits_object n b g m : oget scmp n unions = None -> oget scmp n types = Some g -> t_fields g <> [] ->
      (forall k, In k (map fst m) -> exists f, oget scmp k (t_fields g) = Some f) ->
      (forall k f, oget scmp k (t_fields g) = Some f -> fits (f_type f) (member k m)) ->
      fits (TNamed n b) (VObj m)
  | fits_leaf n b v : oget scmp n unions = None -> (forall g, oget scmp n types = Some g -> t_fields g = []) ->
      v <> VNull -> leaf n v -> fits (TNamed n b) v.
  (** The arguments of a field. *)
  Definition args_fit (f : field) (vals : list (string * value)) : Prop :=
    forall k a, In (k, a) (f_args f) -> fits (arg_type a) (member k vals).
End Fits.

(** ** Unions reached *)
Section Reach.
  Variable types : list (string * gtype).
  Variable unions : list (string * gunion).
  Inductive reaches (n : string) : string -> Prop :=
  | reaches_self : reaches n n
  | reaches_union m u x : reaches n m -> oget scmp m unions = Some u -> In x (u_types u) -> reaches n x
  | reaches_field m g k f : reaches n m -> oget scmp m unions = None -> oget scmp m types = Some g -> oget scmp k (t_fields g) = Some f ->
      reaches n (type_name (f_type f)).
  Definition union_free (n : string) : Prop := forall x, reaches n x -> oget scmp x unions = None.
End Reach.

(** ** Names *)
(** No two underscores in a row, and none at the end. *)
Definition plain_name (n : string) : Prop := (forall a b, n <> a ++ "__" ++ b)%string /\ (forall a, n <> a ++ "_")%string.

(** ** Types without cycles *)
(** Fields of input types have no arguments, unions have members, and what is below a list has no unions. *)
Section Tame.
  Variable types : list (string * gtype).
  Variable unions : list (string * gunion).
  Inductive tame : typ -> Prop :=
  | tame_union n b u : oget scmp n unions = Some u -> u_types u <> [] -> (forall m, In m (u_types u) -> tame (TNamed m true)) -> tame (TNamed n b)
  | tame_object n b g : oget scmp n unions = None -> oget scmp n types = Some g ->
      (forall k f, oget scmp k (t_fields g) = Some f -> f_args f = [] /\ tame (f_type f)) -> tame (TNamed n b)
  | tame_leaf n b : oget scmp n unions = None -> oget scmp n types = None -> plain_name n -> tame (TNamed n b)
  | tame_list t b : tame t -> union_free types unions (type_name t) -> tame (TList t b).
End Tame.

(** ** Variants of a field *)
(** Everything but the types of the arguments is the same, and these differ in the name only. *)
Inductive same_shape : typ -> typ -> Prop :=
| shape_name n n' b : same_shape (TNamed n b) (TNamed n' b)
| shape_list t t' b : same_shape t t' -> same_shape (TList t b) (TList t' b).
Definition arg_variant (x y : string * arg) : Prop :=
  fst x = fst y /\ same_shape (arg_type (snd x)) (arg_type (snd y)) /\ arg_doc (snd x) = arg_doc (snd y) /\
  arg_modify (snd x) = arg_modify (snd y) /\ arg_default (snd x) = arg_default (snd y).
Definition field_variant (f f' : field) : Prop :=
  f_type f = f_type f' /\ Forall2 arg_variant (f_args f) (f_args f') /\ f_doc f = f_doc f' /\ f_modify f = f_modify f' /\
  f_omit f = f_omit f' /\ f_cache f = f_cache f' /\ f_default f = f_default f' /\ f_protected f = f_protected f' /\
  f_discriminate f = f_discriminate f' /\ f_resolvers f = f_resolvers f' /\ f_directives f = f_directives f'.
(** The field's name, or the name and numbers for its variants. *)
Inductive variant_name (k : string) : string -> Prop :=
| vn_self : variant_name k k
| vn_more n i : variant_name k n -> (0 <= i)%Z -> variant_name k (n ++ "Var" ++ Z_to_string i).
(** A type with other fields. *)
Definition same_but_fields (g g' : gtype) : Prop :=
  t_added g = t_added g' /\ t_doc g = t_doc g' /\ t_implements g = t_implements g' /\ t_cache g = t_cache g' /\
  t_protected g = t_protected g' /\ t_resolvers g = t_resolvers g' /\ t_directives g = t_directives g'.
(** A configuration with other types. *)
Definition same_but_types (c c' : config) : Prop :=
  c_server c = c_server c' /\ c_upstream c = c_upstream c' /\ c_schema c = c_schema c' /\ c_unions c = c_unions c' /\
  c_enums c = c_enums c' /\ c_links c = c_links c' /\ c_telemetry c = c_telemetry c'.
(** What the program's maps give: names in order, once each. *)
Definition in_order (c : config) : Prop :=
  osorted scmp (c_types c) /\ forall n g, oget scmp n (c_types c) = Some g ->
    osorted scmp (t_fields g) /\ forall k f, oget scmp k (t_fields g) = Some f -> NoDup (map fst (f_args f)).
Definition plain_names (c : config) : Prop := forall n, In n (map fst (c_types c)) \/ In n (map fst (c_unions c)) -> plain_name n.
(** No other field is called as a variant of this one could be. *)
Definition apart (g : gtype) (k : string) : Prop := forall k2 r, In k2 (map fst (t_fields g)) -> (k2 <> k ++ "Var" ++ r)%string.
