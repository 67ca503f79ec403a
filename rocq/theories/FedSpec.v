(** What clients may send to a schema and what it may answer (C21, C22). *)
From Coq Require Import String Ascii Bool List.
From Verif Require Import Base Ordered JsonModel TypeModel BuilderModel ConfigModel RenameSpec AmbModel AmbSpec FedModel.
Import ListNotations.
Open Scope string_scope.
Open Scope list_scope.

(** What a name stands for.  A name without definition, and a type without fields, is a
    scalar. *)
Inductive kind := KUnion | KEnum | KObject | KScalar.
Definition kind_of (c : config) (n : string) : kind :=
  match find_union c n with
  | Some _ => KUnion
  | None =>
      match find_enum c n with
      | Some _ => KEnum
      | None => match find_type c n with Some t => match t_fields t with [] => KScalar | _ => KObject end | None => KScalar end
      end
  end.

Section Values.
  (** the non-null values of each scalar *)
  Variable scalar : string -> value -> Prop.

  (** [accepts c ty v]: a client may send [v] where the schema [c] wants a [ty].
      Defaults have been filled in already. *)
  Inductive accepts (c : config) : typ -> value -> Prop :=
  | acc_null ty : is_nullable ty = true -> accepts c ty VNull
  | acc_list ty nn l : (forall v, In v l -> accepts c ty v) -> accepts c (TList ty nn) (VList l)
  | acc_scalar n nn v : kind_of c n = KScalar -> v <> VNull -> scalar n v -> accepts c (TNamed n nn) v
  | acc_enum n nn e x v : kind_of c n = KEnum -> find_enum c n = Some e -> In x (map fst (e_variants e)) -> v = VEnum x \/ v = VStr x ->
      accepts c (TNamed n nn) v
  | acc_object n nn t m : kind_of c n = KObject -> find_type c n = Some t ->
      (forall k v, In (k, v) m -> oget scmp k (t_fields t) <> None) ->
      (forall k v f, In (k, v) m -> oget scmp k (t_fields t) = Some f -> accepts c (f_type f) v) ->
      (forall k f, oget scmp k (t_fields t) = Some f -> is_nullable (f_type f) = false -> In k (map fst m)) ->
      accepts c (TNamed n nn) (VObj m).

  (** The arguments a client may give. *)
  Definition accepts_args (c : config) (args : list (string * arg)) (m : list (string * value)) : Prop :=
    (forall k v, In (k, v) m -> exists a, aget k args = Some a /\ accepts c (arg_type a) v) /\
    (forall k a, aget k args = Some a -> is_nullable (arg_type a) = false -> In k (map fst m)).

  (** [conforms c ty v]: the schema [c] allows the answer [v] where it declares a [ty].
      An object has the fields that were asked for, so only those it has matter. *)
  Inductive conforms (c : config) : typ -> value -> Prop :=
  | con_null ty : is_nullable ty = true -> conforms c ty VNull
  | con_list ty nn l : (forall v, In v l -> conforms c ty v) -> conforms c (TList ty nn) (VList l)
  | con_scalar n nn v : kind_of c n = KScalar -> v <> VNull -> scalar n v -> conforms c (TNamed n nn) v
  | con_enum n nn e x v : kind_of c n = KEnum -> find_enum c n = Some e -> In x (map fst (e_variants e)) -> v = VEnum x \/ v = VStr x ->
      conforms c (TNamed n nn) v
  | con_object n nn t m : kind_of c n = KObject -> find_type c n = Some t ->
      (forall k v, In (k, v) m -> oget scmp k (t_fields t) <> None) ->
      (forall k v f, In (k, v) m -> oget scmp k (t_fields t) = Some f -> conforms c (f_type f) v) ->
      conforms c (TNamed n nn) (VObj m)
  | con_union n nn u member v : find_union c n = Some u -> In member (u_types u) -> conforms c (TNamed member true) v ->
      conforms c (TNamed n nn) v
  | con_implementer n nn t implementer v : kind_of c n = KObject -> kind_of c implementer = KObject ->
      find_type c implementer = Some t -> In n (t_implements t) -> conforms c (TNamed implementer true) v ->
      conforms c (TNamed n nn) v.
End Values.

(** Types of what clients are sent, also through the interfaces they implement. *)
Inductive Served (c : config) : string -> Prop :=
| Served_output n : OutputUse c n -> Served c n
| Served_inside n m : Served c n -> Holds c n m -> Served c m
| Served_implementer n m t : Served c n -> find_type c m = Some t -> In n (t_implements t) -> Served c m.

(** A configuration as the parser makes it: one definition per name, and sorted maps. *)
Record well_formed (c : config) : Prop := {
  wf_tidy : tidy c;
  wf_enums : osorted scmp (c_enums c);
  wf_unions : osorted scmp (c_unions c);
  wf_one_kind : forall n, find_enum c n <> None -> find_type c n = None /\ find_union c n = None;
  wf_fields : forall n t, find_type c n = Some t -> osorted scmp (t_fields t);
  wf_args : forall n t fn f, find_type c n = Some t -> In (fn, f) (t_fields t) -> NoDup (map fst (f_args f))
}.

(** Subgraphs that mean the same kind of thing by a name: what one uses and another
    defines is of one kind. *)
Definition same_kinds (cs : list config) : Prop :=
  forall c c' n, In c cs -> In c' cs -> InputUse c n \/ Served c n -> defined c' n -> kind_of c n = kind_of c' n.

(** Definitions of an input object have a field in common. *)
Definition common_fields (cs : list config) : Prop :=
  forall c n, In c cs -> InputUse c n -> exists k, forall c' t, In c' cs -> find_type c' n = Some t -> t_fields t <> [] ->
    oget scmp k (t_fields t) <> None.

(** Types that are sent only where an interface they implement is declared are no
    inputs. *)
Definition implementers_are_no_inputs (cs : list config) : Prop :=
  forall c c' n, In c cs -> In c' cs -> Served c n -> OutputUse c n \/ ~ InputUse c' n.

(** The configurations as they are before merging, with the uses of their types. *)
Definition caches (cs : list config) (ks : list cache) : Prop := Forall2 (fun c k => cache_of (walk_fuel c) c = Some k) cs ks.

(** A type reference without its bangs. *)
Fixpoint unmarked (t : typ) : typ :=
  match t with TNamed n _ => TNamed n false | TList t _ => TList (unmarked t) false end.

(** [m] is a member of the union [n]. *)
Definition union_member (c : config) (n m : string) : Prop := exists u, find_union c n = Some u /\ In m (u_types u).

(** [t] is what one of the files says about the type [n]; [f], [a] what one of them says
    about its field [fn], about the argument [an] of that field. *)
Definition type_in (cs : list config) (n : string) (t : gtype) : Prop := exists c, In c cs /\ find_type c n = Some t.
Definition field_in (cs : list config) (n fn : string) (f : field) : Prop :=
  exists t, type_in cs n t /\ oget scmp fn (t_fields t) = Some f.
Definition arg_in (cs : list config) (n fn an : string) (a : arg) : Prop :=
  exists f, field_in cs n fn f /\ oget scmp an (f_args f) = Some a.

(** The guard names the provider [p]. *)
Definition named_by (p : string) (o : option protected) : Prop := exists g ids, o = Some g /\ prot_id g = Some ids /\ In p ids.
