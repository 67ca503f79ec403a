(** What a selection set stands for (C43): no counters, no sorting. *)
From Coq Require Import String Ascii ZArith NArith Bool Arith List.
From Verif Require Import Base JsonModel TypeModel DiscModel PlanModel BuilderModel.
Import ListNotations.
Open Scope string_scope.
Open Scope list_scope.

Section Spec.
  Context {IR : Type}.
  Notation field := (bfield IR).
  Variable ix : index IR.
  Variable frags : list (string * fragment).

  (** A field with its identifiers, and those below it, forgotten. *)
  Fixpoint unnumbered (f : field) : field :=
    let '(BField _ n o e t c s inc a pf d en sc sel) := f in
    BField 0 n o e t c s inc a pf d en sc
      ((fix go (l : list field) := match l with [] => [] | g :: rest => unnumbered g :: go rest end) sel).

  (** The identifiers of a field and all below it, in the order of the plan. *)
  Fixpoint numbers (f : field) : list nat :=
    b_id f :: (fix go (l : list field) : list nat :=
                 match l with [] => [] | g :: rest => numbers g ++ go rest end) (b_sel f).

  (** The name under which a field answers. *)
  Definition answers_as (alias : option string) (name : string) : string :=
    match alias with Some a => a | None => name end.

  (** The output names of the fields written directly in a selection set. *)
  Definition direct_names (items : list selection) : list string :=
    flat_map (fun i => match i with SField alias name _ _ _ => [answers_as alias name] | _ => [] end) items.

  (** What a directive of this name says in its argument [if]: the first directive
      of the name counts. *)
  Fixpoint says (name : string) (ds : list qdirective) : option qvalue :=
    match ds with
    | [] => None
    | (d, args) :: rest => if String.eqb d name then aget "if" args else says name rest
    end.

  (** The variable a directive depends on. *)
  Definition depends_on (name : string) (ds : list qdirective) : option string :=
    match says name ds with Some (QVar v) => Some v | _ => None end.

  (** Excluded whatever the variables are: [@skip(if: true)], or [@include(if: false)]
      unless [@skip] depends on a variable. *)
  Definition always_excluded (ds : list qdirective) : bool :=
    match says "skip" ds, says "include" ds with
    | Some (QBool true), _ => true
    | Some (QVar _), _ => false
    | _, Some (QBool false) => true
    | _, _ => false
    end.

  (** The value given last for an argument. *)
  Fixpoint last_given (name : string) (given : list (string * qvalue)) : option qvalue :=
    match given with
    | [] => None
    | (n, v) :: rest =>
        match last_given name rest with
        | Some w => Some w
        | None => if String.eqb n name then Some v else None
        end
    end.

  (** Every argument of the schema in its order, with its type, its default and the
      value given. *)
  Fixpoint arguments_of (given : list (string * qvalue)) (schema : list (string * input_field)) : list arg :=
    match schema with
    | [] => []
    | (n, f) :: rest =>
        {| a_name := n; a_type := if_type f; a_value := last_given n given; a_default := if_default f |}
        :: arguments_of given rest
    end.

  (** The root type of an operation: queries start at the query type, mutations at
      the mutation type if there is one. *)
  Inductive starts_at : op_type -> string -> Prop :=
  | at_query : starts_at OQuery (ix_query ix)
  | at_mutation : forall t, ix_mutation ix = Some t -> starts_at OMutation t.

  (** A value of one type may stand where the other is expected: the same type, an
      object type and an interface it implements or a union it is a member of. *)
  Inductive stands_as : string -> string -> Prop :=
  | as_itself : forall t, stands_as t t
  | as_interface : forall t is fs i, aget t (ix_map ix) = Some (DObject is, fs) -> In i is -> stands_as t i
  | as_member : forall t is fs u ts gs,
      aget t (ix_map ix) = Some (DObject is, fs) -> aget u (ix_map ix) = Some (DUnion ts, gs) -> In t ts ->
      stands_as t u.

  (** A field of the schema and the plan field it gives: alias, arguments, type
      condition, conditions on variables, directives, kind of type. *)
  Definition planned (parent_fragment : option string) (cond : string) (alias : option string) (name : string)
             (given : list (string * qvalue)) (ds : list qdirective) (t : typ) (resolver : option IR)
             (args : list (string * input_field)) (children : list field) : field :=
    BField 0 name (answers_as alias name) resolver t cond (depends_on "skip" ds) (depends_on "include" ds)
           (arguments_of given args) parent_fragment (other_directives ds) (type_is_enum ix (type_name t))
           (if type_is_scalar ix (type_name t) then Some (find_scalar (type_name t)) else None) children.

  (** The schema's type, resolver and arguments of a field; [__typename] is known
      everywhere. *)
  Inductive Known (cond name : string) : typ -> option IR -> list (string * input_field) -> Prop :=
  | Known_field : forall t r args, get_field ix cond name = Some (QField t r args) -> Known cond name t r args
  | Known_input : forall f, get_field ix cond name = Some (QInput f) -> Known cond name (if_type f) None [].

  Definition Unknown (cond name : string) : Prop := get_field ix cond name = None /\ name <> "__typename".

  (** [Expands pf cond before all items fs]: at the type [cond], the items of a
      selection set whose direct output names are [all], of which [before] came
      already, give the fields [fs], in the order of the text with fragments
      expanded in place.  A direct field whose output name came before gives
      nothing; a field of a fragment whose output name is also a direct one gives
      nothing; always-excluded fields and unknown fields give nothing. *)
  Inductive Expands : option string -> string -> list string -> list string -> list selection -> list field -> Prop :=
  | X_nil : forall pf cond before all, Expands pf cond before all [] []
  | X_again : forall pf cond before all alias name given ds sel rest fs,
      In (answers_as alias name) before ->
      Expands pf cond before all rest fs ->
      Expands pf cond before all (SField alias name given ds sel :: rest) fs
  | X_excluded : forall pf cond before all alias name given ds sel rest fs,
      ~ In (answers_as alias name) before ->
      always_excluded ds = true ->
      Expands pf cond (answers_as alias name :: before) all rest fs ->
      Expands pf cond before all (SField alias name given ds sel :: rest) fs
  | X_unknown : forall pf cond before all alias name given ds sel rest fs,
      ~ In (answers_as alias name) before ->
      always_excluded ds = false ->
      Unknown cond name ->
      Expands pf cond (answers_as alias name :: before) all rest fs ->
      Expands pf cond before all (SField alias name given ds sel :: rest) fs
  | X_typename : forall pf cond before all alias given ds sel rest fs,
      ~ In (answers_as alias "__typename") before ->
      always_excluded ds = false ->
      get_field ix cond "__typename" = None ->
      Expands pf cond (answers_as alias "__typename" :: before) all rest fs ->
      Expands pf cond before all (SField alias "__typename" given ds sel :: rest)
        (BField 0 "__typename" (answers_as alias "__typename") None (TNamed "String" true) cond
                (depends_on "skip" ds) (depends_on "include" ds) [] pf (other_directives ds)
                false (Some "Empty") [] :: fs)
  | X_field : forall pf cond before all alias name given ds sel rest fs t r args children,
      ~ In (answers_as alias name) before ->
      always_excluded ds = false ->
      Known cond name t r args ->
      Expands None (type_name t) [] (direct_names sel) sel children ->
      Expands pf cond (answers_as alias name :: before) all rest fs ->
      Expands pf cond before all (SField alias name given ds sel :: rest)
        (planned pf cond alias name given ds t r args children :: fs)
  | X_spread : forall pf cond before all name ds rest fs on sel gs,
      aget name frags = Some (on, sel) ->
      Expands (Some on) on [] (direct_names sel) sel gs ->
      Expands pf cond before all rest fs ->
      Expands pf cond before all (SSpread name ds :: rest)
        (filter (fun g => negb (smem (b_output g) all)) gs ++ fs)
  | X_no_fragment : forall pf cond before all name ds rest fs,
      aget name frags = None ->
      Expands pf cond before all rest fs ->
      Expands pf cond before all (SSpread name ds :: rest) fs
  | X_inline : forall pf cond before all c ds sel rest fs gs,
      (let on := match c with Some t => t | None => cond end in
       Expands (Some on) on [] (direct_names sel) sel gs) ->
      Expands pf cond before all rest fs ->
      Expands pf cond before all (SInline c ds sel :: rest)
        (filter (fun g => negb (smem (b_output g) all)) gs ++ fs).

  (** [Selects cond items at name output]: the set selects the field [name] of the
      type [at] under this output name, directly or through fragments. *)
  Inductive Selects : string -> list selection -> string -> string -> list qdirective -> string -> Prop :=
  | S_direct : forall cond items alias name given ds sel,
      In (SField alias name given ds sel) items ->
      Selects cond items cond name ds (answers_as alias name)
  | S_spread : forall cond items frag fds on sel t name ds output,
      In (SSpread frag fds) items -> aget frag frags = Some (on, sel) ->
      Selects on sel t name ds output -> Selects cond items t name ds output
  | S_inline : forall cond items c fds sel t name ds output,
      In (SInline c fds sel) items ->
      Selects (match c with Some t' => t' | None => cond end) sel t name ds output ->
      Selects cond items t name ds output.

  (** A selected field that can be planned. *)
  Definition Plannable (t name : string) (ds : list qdirective) : Prop :=
    always_excluded ds = false /\ ~ Unknown t name.

  (** [Spreads items f]: somewhere in the items, at any depth of fields and inline
      fragments, the fragment [f] is spread. *)
  Inductive Spreads : list selection -> string -> Prop :=
  | Sp_here : forall items name ds, In (SSpread name ds) items -> Spreads items name
  | Sp_field : forall items alias name given ds sel f,
      In (SField alias name given ds sel) items -> Spreads sel f -> Spreads items f
  | Sp_inline : forall items c ds sel f,
      In (SInline c ds sel) items -> Spreads sel f -> Spreads items f.

  (** Fragments do not spread themselves: there is a rank that decreases. *)
  Definition Acyclic : Prop :=
    exists rank : string -> nat, forall name on sel f,
      aget name frags = Some (on, sel) -> Spreads sel f -> rank f < rank name.

End Spec.
