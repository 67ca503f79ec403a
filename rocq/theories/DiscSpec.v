(** Specification for C28. *)
From Coq Require Import String List.
From Verif Require Import Base JsonModel DiscModel.
Import ListNotations.
Open Scope string_scope.
Open Scope list_scope.

(** [m'] is the object [m] with the entry [k] set to [x]: the other entries are
    unchanged, and no key moves. *)
Definition updated (k : string) (x : value) (m m' : list (string * value)) : Prop :=
  aget k m' = Some x /\ (forall k', k' <> k -> aget k' m' = aget k' m) /\
  (In k (map fst m) -> map fst m' = map fst m) /\
  (~ In k (map fst m) -> map fst m' = map fst m ++ [k]).

(** The object says its own type. *)
Definition self_typed (m : list (string * value)) : Prop :=
  exists t, aget "__typename" m = Some (VStr t).

(** The types a discriminator may assign. *)
Definition declared (d : discriminator) : list string :=
  match d with Keyed ts => ts | TypeField _ ts => ts end.

(** Discrimination of one object: the new object and its type.  A keyed
    discriminator takes the object under the only key, which names the type; a
    field discriminator takes the type from a field of the object. *)
Inductive object_typed : discriminator -> list (string * value) -> value -> Prop :=
| OT_field : forall f ts m t m',
    aget f m = Some (VStr t) -> In t ts -> updated "__typename" (VStr t) m m' ->
    object_typed (TypeField f ts) m (VObj m')
| OT_keyed : forall ts t m m',
    In t ts -> updated "__typename" (VStr t) m m' ->
    object_typed (Keyed ts) [(t, VObj m)] (VObj m')
| OT_keyed_null : forall ts t, In t ts -> object_typed (Keyed ts) [(t, VNull)] VNull.

(** Discrimination of a value. *)
Inductive discriminated (d : discriminator) : value -> value -> Prop :=
| D_null : discriminated d VNull VNull
| D_list : forall l l', Forall2 (discriminated d) l l' -> discriminated d (VList l) (VList l')
| D_kept : forall m, self_typed m -> discriminated d (VObj m) (VObj m)
| D_obj : forall m w, ~ self_typed m -> object_typed d m w -> discriminated d (VObj m) w.

(** No object at list level carries a type of its own. *)
Inductive untyped : value -> Prop :=
| U_list : forall l, Forall untyped l -> untyped (VList l)
| U_obj : forall m, ~ self_typed m -> untyped (VObj m)
| U_null : untyped VNull
| U_bool : forall b, untyped (VBool b)
| U_num : forall n, untyped (VNum n)
| U_str : forall s, untyped (VStr s)
| U_enum : forall s, untyped (VEnum s).

(** Every object at list level carries one of the types [ts]; nothing but
    objects, lists and nulls occurs. *)
Inductive typed_in (ts : list string) : value -> Prop :=
| T_null : typed_in ts VNull
| T_list : forall l, Forall (typed_in ts) l -> typed_in ts (VList l)
| T_obj : forall m t, aget "__typename" m = Some (VStr t) -> In t ts -> typed_in ts (VObj m).

(** Objects are maps: a key occurs once (needed to two levels, the objects
    discrimination may rebuild). *)
Inductive wf_obj : value -> Prop :=
| WO_list : forall l, Forall wf_obj l -> wf_obj (VList l)
| WO_obj : forall m, NoDup (map fst m) -> (forall k m', In (k, VObj m') m -> NoDup (map fst m')) -> wf_obj (VObj m)
| WO_other : forall v, as_array v = None -> as_object v = None -> wf_obj v.
