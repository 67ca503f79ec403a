(** What operation plans, executions and responses mean, independently of the
    executor and of the synthesizer. *)
From Coq Require Import String Ascii ZArith NArith Bool Arith List Permutation.
From Verif Require Import Base JsonModel TypeModel DiscModel PlanModel.
Import ListNotations.
Open Scope string_scope.
Open Scope list_scope.

Section Spec.
  Context {IR : Type}.
  Notation field := (pfield IR).

  (** ** Directives *)

  (** The condition is known to have the truth value [b]. *)
  Definition CondIs (vars : variables) (c : condition) (b : bool) : Prop :=
    match c with
    | CTrue => b = true
    | CFalse => b = false
    | CVar v => aget v vars = Some (VBool b)
    end.

  (** What the user asked for: not skipped, and not excluded. *)
  Definition Requested (vars : variables) (skip include : condition) : Prop :=
    ~ CondIs vars skip true /\ ~ CondIs vars include false.

  (** The same for a field of a plan, whose conditions are variables. *)
  Definition Wanted (vars : variables) (f : field) : Prop :=
    (forall v, p_skip f = Some v -> aget v vars <> Some (VBool true)) /\
    (forall v, p_include f = Some v -> aget v vars <> Some (VBool false)).

  (** Everything about a field except its sub-selection. *)
  Definition header (f : field) :=
    (p_id f, p_name f, p_output f, p_ir f, p_type f, p_cond f, p_skip f, p_include f,
     p_is_enum f, p_scalar f).

  (** [Pruned vars l l']: [l'] is [l] without the fields that are not wanted, at
      every depth, and otherwise the same in the same order. *)
  Inductive Pruned (vars : variables) : list field -> list field -> Prop :=
  | pr_nil : Pruned vars [] []
  | pr_drop f l l' : ~ Wanted vars f -> Pruned vars l l' -> Pruned vars (f :: l) l'
  | pr_keep f f' l l' :
      Wanted vars f -> header f' = header f ->
      Pruned vars (p_selection f) (p_selection f') ->
      Pruned vars l l' -> Pruned vars (f :: l) (f' :: l').

  (** At most one of the two directives, at every depth. *)
  Inductive OneDirective : field -> Prop :=
  | one_directive f :
      (p_skip f = None \/ p_include f = None) ->
      Forall OneDirective (p_selection f) -> OneDirective f.

  (** [Inside g f]: [g] is [f] or selected somewhere below it. *)
  Inductive Within (g : field) : field -> Prop :=
  | within_here : Within g g
  | within_below f c : In c (p_selection f) -> Within g c -> Within g f.

  Fixpoint field_ids (f : field) : list nat :=
    let '(PField i _ _ _ _ _ _ _ _ _ sel) := f in
    i :: (fix go (l : list field) : list nat :=
            match l with [] => [] | c :: t => field_ids c ++ go t end) sel.

  Definition plan_ids (l : list field) : list nat := flat_map field_ids l.

  Section Run.
    Context {E : Type}.
    Variable implements : string -> string -> bool.
    Variable resolve : field -> option value -> result value E.
    Variable missing : E.

    (** ** Executions under every schedule *)

    (** [t] merges [t1] and [t2], keeping the order inside each. *)
    Inductive Interleaved {A} : list A -> list A -> list A -> Prop :=
    | il_nil : Interleaved [] [] []
    | il_left x t1 t2 t : Interleaved t1 t2 t -> Interleaved (x :: t1) t2 (x :: t)
    | il_right x t1 t2 t : Interleaved t1 t2 t -> Interleaved t1 (x :: t2) (x :: t).

    (** [Runs f ctx t]: running the field [f] below the parent value [ctx] may
        produce the events [t].  The evaluations of one field happen in any
        order, before its children run; the children run concurrently; the
        field's result is written after them. *)
    Inductive Runs : field -> option value -> list (event (E := E)) -> Prop :=
    | runs_ok f ctx v calls tr :
        p_ir f <> None ->
        snd (execute_ir implements resolve missing f ctx) = Ok v ->
        Permutation calls (map (Called (p_id f))
                               (evaluated (fst (execute_ir implements resolve missing f ctx)))) ->
        RunsAll (p_selection f) (Some v) tr ->
        Runs f ctx (calls ++ tr ++ [Wrote (p_id f) (Ok v)])
    | runs_err f ctx e calls :
        p_ir f <> None ->
        snd (execute_ir implements resolve missing f ctx) = Err e ->
        Permutation calls (map (Called (p_id f))
                               (evaluated (fst (execute_ir implements resolve missing f ctx)))) ->
        Runs f ctx (calls ++ [Wrote (p_id f) (Err e)])
    | runs_plain f ctx v tr :
        p_ir f = None ->
        plain_value (E := E) f ctx = Ok v ->
        RunsAll (p_selection f) (Some v) tr ->
        Runs f ctx tr
    with RunsAll : list field -> option value -> list (event (E := E)) -> Prop :=
    | runs_nil ctx : RunsAll [] ctx []
    | runs_cons f l ctx t1 t2 t :
        Runs f ctx t1 -> RunsAll l ctx t2 -> Interleaved t1 t2 t -> RunsAll (f :: l) ctx t.

    (** The field an event is about. *)
    Definition event_id (ev : event (E := E)) : nat :=
      match ev with Called i _ => i | Wrote i _ => i end.

    (** ** Responses *)

    Section Response.
      (** Which values are valid for a scalar, which names are values of an enum. *)
      Variable validate : string -> value -> bool.
      Variable enum_value : string -> string -> bool.
      Variable vars : variables.
      Variable st : nat -> option (result value E).

      (** The element of a (nested) list at a sequence of indices. *)
      Inductive Element : list nat -> value -> value -> Prop :=
      | el_here v : Element [] v v
      | el_index i dp l x v : nth_error l i = Some x -> Element dp x v -> Element (i :: dp) (VList l) v.

      (** The value the answer of the field [c] is made from: its resolver's
          result for the element at hand, or else the key of the parent. *)
      Inductive Source (c : field) (obj : value) (dp : list nat) : value -> Prop :=
      | src_resolver sv x : st (p_id c) = Some (Ok sv) -> Element dp sv x -> Source c obj dp x
      | src_key x : st (p_id c) = None -> get_key (p_name c) obj = Some x -> Source c obj dp x.

      (** The field answers for this object, given its type name, if any. *)
      Definition Applies (c : field) (obj : value) : Prop :=
        forall cond t, p_cond c = Some cond -> get_key "__typename" obj = Some (VStr t) ->
                       implements t cond = true.

      Definition Leaf (node : field) : Prop := p_scalar node <> None \/ p_is_enum node = true.

      (** The value is one of the field's enum, or a list of such. *)
      Inductive EnumMember (t : string) : value -> Prop :=
      | em_one s : enum_value t s = true -> EnumMember t (VStr s)
      | em_many l : Forall (fun v => exists s, v = VStr s /\ enum_value t s = true) l -> EnumMember t (VList l).
      (** The value is one of the field's scalar or enum type. *)
      Definition Conforms (node : field) (v : value) : Prop :=
        match p_scalar node with
        | Some sc => validate sc v = true
        | None => p_is_enum node = true -> EnumMember (type_name (p_type node)) v
        end.

      (** A list where the type has none, or none where it has one. *)
      Definition Misshapen (c : field) (x : value) : Prop :=
        ~ ((exists t nn, p_type c = TList t nn) <-> (exists l, x = VList l)).
      (** There is nothing to answer the field from. *)
      Inductive Missing (c : field) (obj : value) (dp : list nat) : Prop :=
      | miss_shape sv x : st (p_id c) = Some (Ok sv) -> Element dp sv x -> Misshapen c x -> Missing c obj dp
      | miss_element sv : st (p_id c) = Some (Ok sv) -> (forall x, ~ Element dp sv x) -> Missing c obj dp
      | miss_key : st (p_id c) = None -> get_key (p_name c) obj = None -> Missing c obj dp.

      Definition TypeNameOf (node : field) (obj : value) (t : string) : Prop :=
        get_key "__typename" obj = Some (VStr t) \/
        ((forall t', get_key "__typename" obj <> Some (VStr t')) /\ t = type_name (p_type node)).

      (** [Answer node src dp out]: [out] answers the field [node] from the
          upstream value [src].  Values of the scalar or enum type are copied; an object answers
          exactly the members asked for. *)
      Inductive Answer : field -> value -> list nat -> value -> Prop :=
      | an_null node dp : Answer node VNull dp VNull
      | an_leaf node v dp : Leaf node -> v <> VNull -> Conforms node v -> Answer node v dp v
      | an_atom node v dp :
          ~ Leaf node -> (forall l, v <> VList l) -> (forall m, v <> VObj m) -> Answer node v dp v
      | an_list node l dp l' :
          ~ Leaf node -> Elements node dp 0 l l' -> Answer node (VList l) dp (VList l')
      | an_object node m dp m' :
          ~ Leaf node -> Members node (VObj m) dp (p_selection node) m' ->
          Answer node (VObj m) dp (VObj m')
      with Elements : field -> list nat -> nat -> list value -> list value -> Prop :=
      | els_nil node dp i : Elements node dp i [] []
      | els_cons node dp i x l y l' :
          Answer node x (dp ++ [i]) y -> Elements node dp (S i) l l' ->
          Elements node dp i (x :: l) (y :: l')
      with Members : field -> value -> list nat -> list field -> list (string * value) -> Prop :=
      | mem_nil node obj dp : Members node obj dp [] []
      | mem_other node obj dp c l m :
          ~ Applies c obj \/ field_skip vars c = true ->
          Members node obj dp l m -> Members node obj dp (c :: l) m
      | mem_typename node obj dp c l m t :
          Applies c obj -> field_skip vars c = false ->
          p_name c = "__typename" -> TypeNameOf node obj t ->
          Members node obj dp l m ->
          Members node obj dp (c :: l) ((p_output c, VStr t) :: m)
      | mem_null node obj dp c l m :
          Applies c obj -> field_skip vars c = false ->
          p_name c <> "__typename" -> Missing c obj dp ->
          Members node obj dp l m ->
          Members node obj dp (c :: l) ((p_output c, VNull) :: m)
      | mem_field node obj dp c l m x y :
          Applies c obj -> field_skip vars c = false ->
          p_name c <> "__typename" ->
          Source c obj dp x -> Answer c x dp y ->
          Members node obj dp l m ->
          Members node obj dp (c :: l) ((p_output c, y) :: m).

      (** The answer of a root field. *)
      Definition RootAnswer (root_name : string) (c : field) (y : value) : Prop :=
        (p_name c = "__typename" /\ y = VStr root_name) \/
        (y = VNull /\ (st (p_id c) = None \/ exists x, st (p_id c) = Some (Ok x) /\ Misshapen c x)) \/
        exists x, st (p_id c) = Some (Ok x) /\ Answer c x [] y.
    End Response.
  End Run.

  (** ** Nullability *)

  Definition non_null_named (t : typ) : Prop := exists n, t = TNamed n true.

  (** [Clean node out]: no field with a non-null named type is null anywhere in
      the answer [out] of [node], and no element of a list of objects is null
      unless the element type allows it. *)
  Inductive Clean : field -> value -> Prop :=
  | cl_null node : ~ non_null_named (p_type node) -> Clean node VNull
  | cl_leaf node v : p_scalar node <> None \/ p_is_enum node = true -> v <> VNull -> Clean node v
  | cl_atom node v : v <> VNull -> (forall l, v <> VList l) -> (forall m, v <> VObj m) -> Clean node v
  | cl_list node l :
      Forall (fun x => Clean node x /\
                       (x = VNull -> forall t nn, p_type node = TList t nn -> is_nullable t = true)) l ->
      Clean node (VList l)
  | cl_object node m :
      Forall (fun kv => exists c, In c (p_selection node) /\ fst kv = p_output c /\
                                  (p_name c = "__typename" /\ (exists t, snd kv = VStr t)
                                   \/ Clean c (snd kv))) m ->
      Clean node (VObj m).

  (** The same for an entry of the response: it belongs to a field of [l]. *)
  Definition CleanEntry (l : list field) (kv : string * value) : Prop :=
    exists c, In c l /\ fst kv = p_output c /\
              (p_name c = "__typename" /\ (exists t, snd kv = VStr t) \/ Clean c (snd kv)).

  (** A resolver somewhere below the field. *)
  Inductive ResolverBelow : field -> Prop :=
  | rb_here f c : In c (p_selection f) -> p_ir c <> None -> ResolverBelow f
  | rb_below f c : In c (p_selection f) -> ResolverBelow c -> ResolverBelow f.

  (** No field without resolver but with resolvers below it is renamed by an
      alias. *)
  Inductive Unaliased : field -> Prop :=
  | unaliased f :
      (p_ir f = None -> p_output f = p_name f \/ ~ ResolverBelow f) ->
      Forall Unaliased (p_selection f) -> Unaliased f.

  (** ** Error locations *)

  (** [Locates node path i]: from the answer of [node], the response path [path]
      (output names and list indices) leads to the field identified by [i]. *)
  Inductive Locates : field -> list segment -> nat -> Prop :=
  | loc_here node : Locates node [] (p_id node)
  | loc_index node k path i : Locates node path i -> Locates node (SIndex k :: path) i
  | loc_field node c path i :
      In c (p_selection node) -> Locates c path i ->
      Locates node (SField (p_output c) :: path) i.

  (** The field and response path a response error carries, if any. *)
  Definition error_location {E} (e : synth_error (E := E)) : option (nat * list segment) :=
    match e with
    | ERequired i path => Some (i, path)
    | EScalar i _ path => Some (i, path)
    | EEnum i _ path => Some (i, path)
    | EStored _ | EPanic => None
    end.
End Spec.
