(** Operation plans, their execution and the synthesis of the response:
    src/core/jit/model.rs, transform/skip.rs, exec.rs, exec_const.rs, store.rs,
    synth/synth.rs. *)
From Coq Require Import String Ascii ZArith NArith Bool Arith List.
From Verif Require Import Base JsonModel TypeModel DiscModel.
Import ListNotations.
Open Scope string_scope.
Open Scope list_scope.

(** src/core/jit/model.rs:187-210, [Field].  Left out: [args] and [directives]
    (a resolver is an oracle taking the whole field, so they need not be looked
    at), [parent_fragment] (only printed), [pos] (the identifier stands for it).
    [p_scalar] is the scalar whose validator applies. *)
Inductive pfield (IR : Type) : Type :=
| PField (id : nat) (name output_name : string) (ir : option IR) (type_of : typ)
         (type_condition : option string) (skip include : option string)
         (is_enum : bool) (scalar : option string) (selection : list (pfield IR)).
Arguments PField {IR}.

Section Plan.
  Context {IR : Type}.
  Notation field := (pfield IR).

  Definition p_id (f : field) := let '(PField i _ _ _ _ _ _ _ _ _ _) := f in i.
  Definition p_name (f : field) := let '(PField _ n _ _ _ _ _ _ _ _ _) := f in n.
  Definition p_output (f : field) := let '(PField _ _ o _ _ _ _ _ _ _ _) := f in o.
  Definition p_ir (f : field) := let '(PField _ _ _ ir _ _ _ _ _ _ _) := f in ir.
  Definition p_type (f : field) := let '(PField _ _ _ _ t _ _ _ _ _ _) := f in t.
  Definition p_cond (f : field) := let '(PField _ _ _ _ _ c _ _ _ _ _) := f in c.
  Definition p_skip (f : field) := let '(PField _ _ _ _ _ _ s _ _ _ _) := f in s.
  Definition p_include (f : field) := let '(PField _ _ _ _ _ _ _ i _ _ _) := f in i.
  Definition p_is_enum (f : field) := let '(PField _ _ _ _ _ _ _ _ e _ _) := f in e.
  Definition p_scalar (f : field) := let '(PField _ _ _ _ _ _ _ _ _ s _) := f in s.
  Definition p_selection (f : field) := let '(PField _ _ _ _ _ _ _ _ _ _ l) := f in l.

  (** Variables of the request: src/core/jit/model.rs:25-40. *)
  Definition variables := list (string * value).

  (** src/core/jit/model.rs:70-79, the closure [eval] *)
  Definition eval_condition (variable : option string) (vars : variables) (default : bool) : bool :=
    match variable with
    | None => default
    | Some name =>
        match aget name vars with
        | None => default
        | Some v => match as_bool v with Some b => b | None => default end
        end
    end.

  (** src/core/jit/model.rs:68-83 *)
  Definition field_skip (vars : variables) (f : field) : bool :=
    let skip := eval_condition (p_skip f) vars false in
    let include := eval_condition (p_include f) vars true in
    Bool.eqb skip include.

  (** src/core/jit/builder.rs:18-23: what a [@skip]/[@include] says. *)
  Inductive condition : Type := CTrue | CFalse | CVar (variable : string).

  (** src/core/jit/builder.rs:31-51 *)
  Definition is_const_skip (skip include : condition) : bool :=
    match skip, include with
    | CTrue, _ => true
    | CFalse, CFalse => true
    | _, _ => false
    end.

  (** src/core/jit/builder.rs:53-63 *)
  Definition cond_variable (c : condition) : option string :=
    match c with CVar v => Some v | _ => None end.

  (** A field with these two conditions is answered: the builder keeps it
      (builder.rs:152-155) and so does the Skip transform. *)
  Definition answered (vars : variables) (skip include : condition) : bool :=
    negb (is_const_skip skip include)
    && negb (Bool.eqb (eval_condition (cond_variable skip) vars false)
                      (eval_condition (cond_variable include) vars true)).

  (** src/core/jit/transform/skip.rs:38-43: [retain], then recurse. *)
  Fixpoint skip_inside (vars : variables) (f : field) : field :=
    let '(PField i n o ir t c s inc e sc sel) := f in
    PField i n o ir t c s inc e sc
      ((fix go (l : list field) : list field :=
          match l with
          | [] => []
          | g :: rest => if field_skip vars g then go rest else skip_inside vars g :: go rest
          end) sel).

  Fixpoint skip_fields (vars : variables) (l : list field) : list field :=
    match l with
    | [] => []
    | g :: rest =>
        if field_skip vars g then skip_fields vars rest
        else skip_inside vars g :: skip_fields vars rest
    end.

  Section Run.
    Context {E : Type}.
    (** src/core/blueprint/index.rs:86-101 *)
    Variable implements : string -> string -> bool.
    (** [ir.eval] in the context of this field and this parent value (exec_const.rs:133-139) *)
    Variable resolve : field -> option value -> result value E.
    (** the error of exec_const.rs:181-184 *)
    Variable missing : E.

    (** src/core/jit/model.rs:421-440 *)
    Definition part_of_value (f : field) (v : value) : bool :=
      match p_cond f with
      | Some cond =>
          match get_type_name v with
          | Some t => implements t cond
          | None => true
          end
      | None => true
      end.

    (** src/core/jit/exec_const.rs:122-140 *)
    Definition call_ir (f : field) (v : option value) : result value E :=
      match v with
      | Some VNull => Ok VNull
      | _ => resolve f v
      end.

    (** src/core/jit/exec_const.rs:148-192: the resolver calls made and the result. *)
    Definition execute_ir (f : field) (ctx : option value) : list (option value) * result value E :=
      execute_field (part_of_value f) (fun v => call_ir f (Some v)) (call_ir f None) missing ctx.

    (** src/core/jit/exec.rs:116-135: the value nested fields see below a field
        without resolver. *)
    Definition key_or_null (k : string) (v : value) : value :=
      match get_key k v with Some x => x | None => VNull end.

    Definition plain_value (f : field) (ctx : option value) : result value E :=
      match ctx with
      | Some v => snd (map_ref (fun (_ : unit) v => (tt, Ok (key_or_null (p_output f) v))) tt v)
      | None => Ok VNull
      end.

    (** What the executor does, in order: resolver evaluations (with the parent
        value) and writes to the store. *)
    Inductive event : Type :=
    | Called (id : nat) (parent : option value)
    | Wrote (id : nat) (r : result value E).

    (** [call] returns before evaluating on a null parent. *)
    Definition evaluated (calls : list (option value)) : list (option value) :=
      filter (fun v => match v with Some VNull => false | _ => true end) calls.

    (** src/core/jit/exec.rs:103-138, [execute] with [iter_field] (86-101).  The
        futures of [join_all] are run one after the other here; [Runs] in
        PlanSpec.v allows every interleaving. *)
    Fixpoint exec (f : field) (ctx : option value) : list event :=
      let '(PField i n o ir t c s inc e sc sel) := f in
      let children (v : value) :=
        (fix go (l : list field) : list event :=
           match l with [] => [] | g :: rest => exec g (Some v) ++ go rest end) sel in
      match ir with
      | Some _ =>
          let '(calls, r) := execute_ir f ctx in
          map (Called i) (evaluated calls)
            ++ match r with Ok v => children v | Err _ => [] end
            ++ [Wrote i r]
      | None =>
          match plain_value f ctx with
          | Ok v => children v
          | Err _ => []
          end
      end.

    (** src/core/jit/exec.rs:76-84 *)
    Definition exec_all (l : list field) : list event := flat_map (fun f => exec f None) l.

    (** src/core/jit/store.rs:36-70: a map from field identifiers. *)
    Definition store := nat -> option (result value E).

    Definition store_set (st : store) (i : nat) (r : result value E) : store :=
      fun j => if Nat.eqb i j then Some r else st j.

    Definition apply_event (st : store) (ev : event) : store :=
      match ev with Called _ _ => st | Wrote i r => store_set st i r end.

    Definition store_of (evs : list event) : store := fold_left apply_event evs (fun _ => None).

    (** ** Synthesis *)

    (** src/core/scalar.rs:117-145 *)
    Variable validate : string -> value -> bool.
    (** src/core/blueprint/index.rs, [validate_enum_value] *)
    Variable enum_value : string -> string -> bool.

    (** src/core/jit/error.rs: [PathSegment] *)
    Inductive segment : Type := SField (name : string) | SIndex (i : nat).

    Inductive synth_error : Type :=
    | EStored (e : E)                      (** the resolver's own error *)
    | ERequired (id : nat) (path : list segment)
    | EScalar (id : nat) (type_name : string) (path : list segment)
    | EEnum (id : nat) (type_name : string) (path : list segment)
    | EPanic.                              (** index out of bounds, synth.rs:79 *)

    (** The mutable [path] of synth.rs is threaded; it is kept reversed. *)
    Definition M (A : Type) := list segment -> result A synth_error * list segment.

    Definition mret {A} (a : A) : M A := fun p => (Ok a, p).
    Definition mbind {A B} (m : M A) (k : A -> M B) : M B :=
      fun p => match m p with
               | (Ok a, p') => k a p'
               | (Err e, p') => (Err e, p')
               end.
    Definition mpush (s : segment) : M unit := fun p => (Ok tt, s :: p).
    Definition mpop : M unit := fun p => (Ok tt, match p with [] => [] | _ :: t => t end).
    Definition mfail {A} (mk : list segment -> synth_error) : M A := fun p => (Err (mk (rev p)), p).

    Section Synth.
      Variable vars : variables.
      Variable st : store.

      (** src/core/jit/synth/synth.rs:97-118 *)
      Definition nullable_guard (node : field) (root_name : option string) : M value :=
        match root_name, String.eqb (p_name node) "__typename" with
        | Some r, true => mret (VStr r)
        | _, _ => if is_nullable (p_type node) then mret VNull
                  else mfail (ERequired (p_id node))
        end.

      (** src/core/jit/synth/synth.rs:77-83 *)
      Inductive walked : Type := WFound (v : value) | WNotArray | WPanic.
      Fixpoint walk (dp : list nat) (v : value) : walked :=
        match dp with
        | [] => WFound v
        | i :: rest =>
            match v with
            | VList l => match nth_error l i with Some x => walk rest x | None => WPanic end
            | _ => WNotArray
            end
        end.

      Definition is_array (v : value) : bool :=
        match as_array v with Some _ => true | None => false end.

      (** src/core/jit/synth/synth.rs:56-95, [iter]; [inner] is [iter_inner] for
          [node].  The early returns (lines 75, 81, 86) leave the path unpopped. *)
      Definition iter_with (inner : value -> list nat -> M value) (node : field)
                 (v : option value) (dp : list nat) (root_name : option string) : M value :=
        mbind (mpush (SField (p_output node))) (fun _ =>
        let finish (m : M value) : M value :=
          (* [path.pop()] runs whatever [result] is *)
          fun p => let '(r, p') := m p in (r, snd (mpop p')) in
        match st (p_id node) with
        | Some (Err e) => fun p => (Err (EStored e), p)
        | Some (Ok sv) =>
            match walk dp sv with
            | WPanic => fun p => (Err EPanic, p)
            | WNotArray => mret VNull
            | WFound x =>
                if Bool.eqb (is_list (p_type node)) (is_array x)
                then finish (inner x dp)
                else nullable_guard node None
            end
        | None =>
            match v with
            | Some x => finish (inner x dp)
            | None => finish (nullable_guard node root_name)
            end
        end).

      (** src/core/jit/synth/synth.rs:137-140 *)
      Definition null_allowed (t : typ) : bool :=
        match t with
        | TNamed _ nn => negb nn
        | TList t' _ => is_nullable t'
        end.

      (** src/core/jit/model.rs:86-91 *)
      Definition value_type (node : field) (v : value) : string :=
        match get_type_name v with Some t => t | None => type_name (p_type node) end.

      (** src/core/jit/synth/synth.rs:165-176 *)
      Definition enum_ok (node : field) (v : value) : bool :=
        let check v := match as_str v with
                       | Some s => enum_value (type_name (p_type node)) s
                       | None => false
                       end in
        match v with VList l => forallb check l | _ => check v end.

      (** src/core/jit/synth/synth.rs:121-227, [iter_inner].  [Output::clone_from]
          copies a value into the output's own JSON type; it is the identity here. *)
      Fixpoint synth_node (node : field) {struct node} : value -> list nat -> M value :=
        fix inner (v : value) (dp : list nat) {struct v} : M value :=
          if field_skip vars node then mret VNull
          else if is_null v then
            if null_allowed (p_type node) then mret VNull else mfail (ERequired (p_id node))
          else match p_scalar node with
          | Some sc =>
              if validate sc v then mret v
              else mfail (EScalar (p_id node) (type_name (p_type node)))
          | None =>
          if p_is_enum node then
            if enum_ok node v then mret v
            else mfail (EEnum (p_id node) (type_name (p_type node)))
          else
            match v with
            | VObj m =>
                mbind
                  (let '(PField _ _ _ _ _ _ _ _ _ _ sel) := node in
                   (fix go (l : list field) : M (list (string * value)) :=
                      match l with
                      | [] => mret []
                      | c :: rest =>
                          if part_of_value c (VObj m) && negb (field_skip vars c) then
                            mbind (if String.eqb (p_name c) "__typename"
                                   then mret (VStr (value_type node (VObj m)))
                                   else iter_with (synth_node c) c (get_key (p_name c) (VObj m)) dp None)
                                  (fun x => mbind (go rest) (fun xs => mret ((p_output c, x) :: xs)))
                          else go rest
                      end) sel)
                  (fun fields => mret (VObj fields))
            | VList l =>
                mbind
                  ((fix goL (i : nat) (l : list value) : M (list value) :=
                      match l with
                      | [] => mret []
                      | x :: rest =>
                          mbind (mpush (SIndex i)) (fun _ =>
                          mbind (inner x (dp ++ [i])) (fun y =>
                          mbind mpop (fun _ =>
                          mbind (goL (S i) rest) (fun ys => mret (y :: ys)))))
                      end) 0%nat l)
                  (fun ys => mret (VList ys))
            | _ => mret v
            end
          end.

      (** src/core/jit/synth/synth.rs:37-54; [insert_key] replaces an existing key. *)
      Fixpoint synth_root (root_name : string) (l : list field) (data : list (string * value))
        : M value :=
        match l with
        | [] => mret (VObj data)
        | c :: rest =>
            if field_skip vars c then synth_root root_name rest data
            else mbind (iter_with (synth_node c) c None [] (Some root_name))
                       (fun x => synth_root root_name rest (aset (p_output c) x data))
        end.

      Definition synthesize (root_name : string) (l : list field) : result value synth_error :=
        fst (synth_root root_name l [] []).
    End Synth.

    (** src/core/jit/exec_const.rs:61-111: skip, execute, synthesize.  Variable
        substitution in arguments (InputResolver) is in InputModel.v. *)
    Definition run (root_name : string) (vars : variables) (sel : list field)
      : list event * result value synth_error :=
      let sel' := skip_fields vars sel in
      let evs := exec_all sel' in
      (evs, synthesize vars (store_of evs) root_name sel').
  End Run.
End Plan.
