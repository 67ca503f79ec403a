(** Vocabulary for fields with [@expr] (C92).  Values that fit a type: [fits] of GsSpec.v; templates: CallSpec.v. *)
From Coq Require Import String Ascii ZArith NArith Bool List.
From Verif Require Import Base Ordered JsonModel TypeModel ConfigModel MustacheModel CallSpec.
Import ListNotations.
Open Scope string_scope.
Open Scope list_scope.

(** A text somewhere in a value *)
Inductive text_in (s : string) : value -> Prop :=
| Ti_here : text_in s (VStr s)
| Ti_list l v : In v l -> text_in s v -> text_in s (VList l)
| Ti_object m k v : In (k, v) m -> text_in s v -> text_in s (VObj m).
(** A value without templates *)
Definition constant (v : value) : Prop := forall s segs, text_in s v -> ~ template s segs.

Definition may_be_null (t : typ) : Prop := (exists n, t = TNamed n false) \/ exists t', t = TList t' false.
(** Values of a type, any value being taken for one of an enum; only the fields without resolvers are read from the value *)
Inductive roughly (c : config) : typ -> value -> Prop :=
| Ro_null t : may_be_null t -> roughly c t VNull
| Ro_list t b l : Forall (roughly c t) l -> roughly c (TList t b) (VList l)
| Ro_object n b ty kvs : oget scmp n (c_types c) = Some ty ->
    (forall k f, In (k, f) (t_fields ty) -> f_resolvers f = [] ->
       (exists v, aget k kvs = Some v /\ roughly c (f_type f) v) \/ (aget k kvs = None /\ may_be_null (f_type f))) -> roughly c (TNamed n b) (VObj kvs)
| Ro_enum n b e v : oget scmp n (c_types c) = None -> oget scmp n (c_enums c) = Some e -> roughly c (TNamed n b) v
| Ro_string b s : oget scmp "String" (c_types c) = None -> oget scmp "String" (c_enums c) = None -> roughly c (TNamed "String" b) (VStr s)
| Ro_int b x : oget scmp "Int" (c_types c) = None -> oget scmp "Int" (c_enums c) = None -> roughly c (TNamed "Int" b) (VNum x)
| Ro_boolean b x : oget scmp "Boolean" (c_types c) = None -> oget scmp "Boolean" (c_enums c) = None -> roughly c (TNamed "Boolean" b) (VBool x)
| Ro_empty b v : oget scmp "Empty" (c_types c) = None -> oget scmp "Empty" (c_enums c) = None -> v = VObj [] \/ v = VNull -> roughly c (TNamed "Empty" b) v
| Ro_other n b v : oget scmp n (c_types c) = None -> oget scmp n (c_enums c) = None -> ~ In n ["String"; "Int"; "Boolean"; "Empty"] -> roughly c (TNamed n b) v.

(** The type a list is of in the end *)
Fixpoint leaf (t : typ) : string := match t with TNamed n _ => n | TList t _ => leaf t end.
(** No type is reached from itself through fields without resolvers: types have ranks that decrease. *)
Definition no_cycles (c : config) : Prop := exists rank : string -> nat,
  forall n ty k f, oget scmp n (c_types c) = Some ty -> In (k, f) (t_fields ty) -> f_resolvers f = [] -> oget scmp (leaf (f_type f)) (c_types c) <> None -> rank (leaf (f_type f)) < rank n.
