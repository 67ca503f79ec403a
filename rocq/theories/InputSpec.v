(** Vocabulary for arguments (C38). *)
From Coq Require Import String Bool List.
From Verif Require Import Base JsonModel TypeModel BuilderModel InputModel.
Import ListNotations.
Open Scope list_scope.

(** [extended v w]: [w] is [v] with, at most, members added to objects. *)
Inductive extended : value -> value -> Prop :=
| ext_same v : extended v v
| ext_list l l' : Forall2 extended l l' -> extended (VList l) (VList l')
| ext_obj m m' :
    (forall k v, aget k m = Some v -> exists w, aget k m' = Some w /\ extended v w) ->
    (exists new, akeys m' = (akeys m ++ new)%list) -> extended (VObj m) (VObj m').

Section Types.
  Variable inputs : string -> option (list (string * input_field)).

  Definition names_distinct : Prop := forall n def, inputs n = Some def -> NoDup (map fst def).
  (** No field of a non-null type has a null default. *)
  Definition defaults_non_null : Prop :=
    forall n def k f, inputs n = Some def -> In (k, f) def -> is_nullable (if_type f) = false -> if_default f <> Some VNull.

  (** [filled n v]: every object in [v] met as a value of the input type [n] has a
      non-null value for each of that type's non-null fields, and a value for each field
      that has a default, all the way down. *)
  Inductive filled : string -> value -> Prop :=
  | filled_other n v : inputs n = None -> filled n v
  | filled_atom n v : (forall l, v <> VList l) -> (forall m, v <> VObj m) -> filled n v
  | filled_list n l : (forall x, In x l -> filled n x) -> filled n (VList l)
  | filled_obj n def m :
      inputs n = Some def ->
      (forall k f, In (k, f) def ->
         match aget k m with
         | None => is_nullable (if_type f) = true /\ if_default f = None
         | Some v => v = VNull -> is_nullable (if_type f) = true
         end) ->
      (forall k f v, In (k, f) def -> aget k m = Some v -> filled (type_name (if_type f)) v) ->
      filled n (VObj m).

  (** What is accepted for an argument or field of type [ty] with the given default:
      something for every non-null type, inside input objects too; defaults have to be
      acceptable themselves.  (The items of a list may be null exactly if the list may:
      this is the rule of the code, not of GraphQL.) *)
  Inductive accepted : typ -> option value -> option value -> Prop :=
  | acc_nothing ty : is_nullable ty = true -> accepted ty None None
  | acc_default ty d : accepted_value ty d -> accepted ty (Some d) None
  | acc_given ty d v : (v = VNull -> is_nullable ty = true) -> accepted_value ty v -> accepted ty d (Some v)
  with accepted_value : typ -> value -> Prop :=
  | acc_other ty v : inputs (type_name ty) = None -> accepted_value ty v
  | acc_atom ty v : (forall l, v <> VList l) -> (forall m, v <> VObj m) -> accepted_value ty v
  | acc_list ty l : (forall x, In x l -> accepted ty None (Some x)) -> accepted_value ty (VList l)
  | acc_obj ty def m :
      inputs (type_name ty) = Some def ->
      (forall k f, In (k, f) def -> accepted (if_type f) (if_default f) (aget k m)) ->
      accepted_value ty (VObj m).

  (** Defaults of fields of input types contain no objects and no lists. *)
  Definition flat (v : value) : Prop := (forall l, v <> VList l) /\ (forall m, v <> VObj m).
  Definition flat_defaults : Prop :=
    forall n def k f d, inputs n = Some def -> In (k, f) def -> if_default f = Some d ->
      inputs (type_name (if_type f)) <> None -> flat d.

  (** The argument is resolved to [r], after some number of steps. *)
  Definition resolved (parent arg : string) (ty : typ) (default v r : option value) : Prop :=
    exists fuel, parse_arg inputs fuel parent arg ty default v = Ok r.
End Types.

(** [instance vars q v]: [v] is the query value [q] with its variables replaced. *)
Inductive instance (vars : list (string * value)) : qvalue -> value -> Prop :=
| inst_var n v : aget n vars = Some v -> instance vars (QVar n) v
| inst_null : instance vars QNull VNull
| inst_bool b : instance vars (QBool b) (VBool b)
| inst_num n : instance vars (QNum n) (VNum n)
| inst_str s : instance vars (QStr s) (VStr s)
| inst_enum s : instance vars (QEnum s) (VEnum s)
| inst_list l l' : Forall2 (instance vars) l l' -> instance vars (QList l) (VList l')
| inst_obj m m' : Forall2 (fun a b => fst a = fst b /\ instance vars (snd a) (snd b)) m m' -> instance vars (QObj m) (VObj m').

(** A variable occurs in a query value. *)
Inductive mentions (n : string) : qvalue -> Prop :=
| men_var : mentions n (QVar n)
| men_list q l : In q l -> mentions n q -> mentions n (QList l)
| men_obj k q m : In (k, q) m -> mentions n q -> mentions n (QObj m).

Definition opt_instance (vars : list (string * value)) (o : option qvalue) (r : option value) : Prop :=
  match o, r with
  | None, None => True
  | Some q, Some v => instance vars q v
  | _, _ => False
  end.

(** [ready f g]: [g] is the field [f] of a request made ready for its resolver: same
    name, same arguments in the same order, each with the resolution of its instantiated
    value and default, and the same below. *)
Inductive ready (inputs : string -> option (list (string * input_field))) (vars : list (string * value)) :
  rfield qvalue -> rfield value -> Prop :=
| ready_field n args args' sel sel' :
    Forall2 (fun a b => ra_name b = ra_name a /\ ra_type b = ra_type a /\
       exists v d, opt_instance vars (ra_value a) v /\ opt_instance vars (ra_default a) d /\
                   resolved inputs n (ra_name a) (ra_type a) d v (ra_value b)) args args' ->
    Forall2 (ready inputs vars) sel sel' ->
    ready inputs vars (RField n args sel) (RField n args' sel').
