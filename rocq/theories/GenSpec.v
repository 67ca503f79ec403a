(** Vocabulary for generated configurations (C70). *)
From Coq Require Import String Ascii ZArith NArith Bool List.
From Verif Require Import Base Ordered JsonModel TypeModel ConfigModel.
Import ListNotations.
Open Scope string_scope.
Open Scope list_scope.

Definition letter (c : ascii) : Prop :=
  (97 <= N_of_ascii c <= 122)%N \/ (65 <= N_of_ascii c <= 90)%N.
Definition letter_digit (c : ascii) : Prop := letter c \/ (48 <= N_of_ascii c <= 57)%N \/ c = "_"%char.
(** A name as GraphQL knows it (without those that begin with an underscore). *)
Definition graphql_name (s : string) : Prop :=
  exists c t, list_ascii_of_string s = c :: t /\ letter c /\ Forall letter_digit t.

Definition plain_scalar (n : string) : Prop := In n ["Boolean"; "Int"; "String"; "JSON"].
(** Numbered names. *)
Definition numbered (prefix : string) (k : Z) : string := (prefix ++ Z_to_string k)%string.

(** The value can be given for the type: null for all, anything for [JSON], 32-bit whole numbers
    for [Int], and objects if all their members are fields. *)
Inductive describes (types : list (string * gtype)) : typ -> value -> Prop :=
| describes_null n : describes types n VNull
| describes_json v b : describes types (TNamed "JSON" b) v
| describes_bool x b : describes types (TNamed "Boolean" b) (VBool x)
| describes_int z b : (- 2 ^ 31 <= z < 2 ^ 31)%Z -> describes types (TNamed "Int" b) (VNum (NInt z))
| describes_text s b : describes types (TNamed "String" b) (VStr s)
| describes_list t b l : (forall v, In v l -> describes types t v) -> describes types (TList t b) (VList l)
| describes_object n b t m : oget scmp n types = Some t ->
    (forall k v, In (k, v) m -> exists f, oget scmp k (t_fields t) = Some f /\ describes types (f_type f) v) ->
    describes types (TNamed n b) (VObj m).

(** Shapes of samples. *)
Inductive shape : Type := KBool | KInt | KText | KList (s : shape) | KObj (fs : list (string * shape)).
Definition flat (s : shape) : Prop := match s with KList _ => False | _ => True end.
(** Values of the same shape: null anywhere, lists of one shape (not of lists), objects with
    the same members. *)
Inductive shaped : shape -> value -> Prop :=
| shaped_null s : shaped s VNull
| shaped_bool b : shaped KBool (VBool b)
| shaped_int z : (- 2 ^ 31 <= z < 2 ^ 31)%Z -> shaped KInt (VNum (NInt z))
| shaped_text t : shaped KText (VStr t)
| shaped_list s l : flat s -> (forall v, In v l -> shaped s v) -> shaped (KList s) (VList l)
| shaped_object fs m :
    (forall k, aget k m = None <-> aget k fs = None) ->
    (forall k v s, In (k, v) m -> aget k fs = Some s -> shaped s v) -> shaped (KObj fs) (VObj m).

(** Regular samples: in a list all items are of the same kind; objects in a list may lack
    members, but the values of a member are of one shape. *)
Inductive regular : value -> Prop :=
| regular_null : regular VNull
| regular_bool b : regular (VBool b)
| regular_int z : (- 2 ^ 31 <= z < 2 ^ 31)%Z -> regular (VNum (NInt z))
| regular_text t : regular (VStr t)
| regular_object m : NoDup (map fst m) -> (forall k v, In (k, v) m -> regular v) -> regular (VObj m)
| regular_scalars s l : In s [KBool; KInt; KText] -> (forall v, In v l -> shaped s v) -> regular (VList l)
| regular_objects fs l :
    (forall v, In v l -> v = VNull \/ exists m, v = VObj m /\
       forall k w, In (k, w) m -> exists s, aget k fs = Some s /\ shaped s w) -> regular (VList l).

(** * Lists of objects *)
Definition scalar_name (s : shape) : string := match s with KBool => "Boolean" | KInt => "Int" | _ => "String" end.
(** Objects that become types. *)
Definition typed_object (v : value) : Prop :=
  exists m, v = VObj m /\ m <> [] /\ NoDup (map fst m) /\ forall k w, In (k, w) m -> graphql_name k.

(** * How much the schema says *)
(** No member twice in an object. *)
Inductive distinct : value -> Prop :=
| distinct_null : distinct VNull
| distinct_bool b : distinct (VBool b)
| distinct_num n : distinct (VNum n)
| distinct_text t : distinct (VStr t)
| distinct_list l : distinct (VList l)
| distinct_object m : NoDup (map fst m) -> (forall k v, In (k, v) m -> distinct v) -> distinct (VObj m).
(** The type says as much as can be said: an object with valid names has a type with just its
    members for fields, in turn with such types; a list of objects has one with the members of
    all items; [JSON] is for null, empty lists, empty objects and objects with other names. *)
Inductive detailed (types : list (string * gtype)) : typ -> value -> Prop :=
| detailed_null : detailed types (TNamed "JSON" false) VNull
| detailed_bool b : detailed types (TNamed "Boolean" false) (VBool b)
| detailed_num n : detailed types (TNamed "Int" false) (VNum n)
| detailed_text t : detailed types (TNamed "String" false) (VStr t)
| detailed_empty : detailed types (TNamed "JSON" false) (VObj [])
| detailed_odd m k w : In (k, w) m -> ~ graphql_name k -> detailed types (TNamed "JSON" false) (VObj m)
| detailed_object m n t :
    typed_object (VObj m) -> oget scmp n types = Some t ->
    (forall k, oget scmp k (t_fields t) <> None <-> In k (map fst m)) ->
    (forall k v f, In (k, v) m -> oget scmp k (t_fields t) = Some f -> detailed types (f_type f) v) ->
    detailed types (TNamed n false) (VObj m)
| detailed_list l n :
    (l = [] -> n = "JSON") ->
    (l <> [] -> Forall typed_object l -> exists t, oget scmp n types = Some t /\
       forall k, oget scmp k (t_fields t) <> None <-> exists m, In (VObj m) l /\ In k (map fst m)) ->
    detailed types (TList (TNamed n false) false) (VList l).
