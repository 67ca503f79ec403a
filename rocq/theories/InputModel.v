(** Arguments before a resolver runs: src/core/jit/transform/input_resolver.rs. *)
From Coq Require Import String Ascii ZArith NArith Bool Arith List.
From Verif Require Import Base JsonModel TypeModel BuilderModel.
Import ListNotations.
Open Scope list_scope.
Open Scope string_scope.

(** src/core/jit/error.rs [ResolveInputError]; [Endless] stands for a recursion that has
    not ended within the steps the model was given. *)
Inductive input_error : Type :=
| VariableIsNotFound (name : string)
| ArgumentIsRequired (arg_name field_name : string)
| Endless.

(** input_resolver.rs:24-35 with [Value::into_const_with] of the crate
    async-graphql-value: variables are replaced, the first missing one is an error. *)
Fixpoint resolve_value (vars : list (string * value)) (q : qvalue) : result value input_error :=
  match q with
  | QVar n => match aget n vars with Some v => Ok v | None => Err (VariableIsNotFound n) end
  | QNull => Ok VNull
  | QBool b => Ok (VBool b)
  | QNum n => Ok (VNum n)
  | QStr s => Ok (VStr s)
  | QEnum s => Ok (VEnum s)
  | QList l =>
      rmap VList ((fix go (l : list qvalue) : result (list value) input_error :=
        match l with
        | [] => Ok []
        | q :: t => rbind (resolve_value vars q) (fun v => rmap (cons v) (go t))
        end) l)
  | QObj m =>
      rmap VObj ((fix go (m : list (string * qvalue)) : result (list (string * value)) input_error :=
        match m with
        | [] => Ok []
        | (k, q) :: t => rbind (resolve_value vars q) (fun v => rmap (cons (k, v)) (go t))
        end) m)
  end.

Section Parse.
  (** [Index::get_input_type_definition] (src/core/blueprint/index.rs:103-108): the
      fields of an input type, in order. *)
  Variable inputs : string -> option (list (string * input_field)).

  (** input_resolver.rs:151-168 *)
  Definition choose (parent arg : string) (ty : typ) (default v : option value) :
    result (option value) input_error :=
    let is_value_null := match v with Some VNull | None => true | Some _ => false end in
    let absent := match v with None => true | Some _ => false end in
    if negb (is_nullable ty) && absent then
      match default with
      | Some d => Ok (Some d)
      | None => Err (ArgumentIsRequired arg parent)
      end
    else if negb (is_nullable ty) && is_value_null then Err (ArgumentIsRequired arg parent)
    else if absent then Ok default
    else Ok v.

  Section Loops.
    Variable rec : string -> string -> typ -> option value -> option value -> result (option value) input_error.
    (** input_resolver.rs:179-197 *)
    Fixpoint parse_fields (parent : string) (fs : list (string * input_field)) (m : list (string * value)) :
      result (list (string * value)) input_error :=
      match fs with
      | [] => Ok m
      | (n, f) :: t =>
          match rec parent n (if_type f) (if_default f) (aget n m) with
          | Err e => Err e
          | Ok (Some v) => parse_fields parent t (aset n v m)
          | Ok None => parse_fields parent t m
          end
      end.
    (** input_resolver.rs:199-211; [i] is the index of the head.  The [expect] of line
        210 holds because a given value is never turned into nothing. *)
    Fixpoint parse_items (parent : string) (ty : typ) (i : nat) (l : list value) : result (list value) input_error :=
      match l with
      | [] => Ok []
      | x :: t =>
          match rec (parent ++ "." ++ nat_to_string i) (nat_to_string i) ty None (Some x) with
          | Err e => Err e
          | Ok r => rmap (cons (match r with Some y => y | None => x end)) (parse_items parent ty (S i) t)
          end
      end.
  End Loops.

  (** input_resolver.rs:143-215.  The Rust recursion has no bound of its own (a default
      can bring in another object with defaults); [fuel] bounds its depth. *)
  Fixpoint parse_arg (fuel : nat) (parent arg : string) (ty : typ) (default v : option value) {struct fuel} :
    result (option value) input_error :=
    match fuel with
    | O => Err Endless
    | S fuel =>
        match choose parent arg ty default v with
        | Err e => Err e
        | Ok None => Ok None
        | Ok (Some value) =>
            match inputs (type_name ty) with
            | None => Ok (Some value)
            | Some def =>
                match value with
                | VObj m => rmap (fun m' => Some (VObj m')) (parse_fields (parse_arg fuel) (parent ++ "." ++ arg) def m)
                | VList l => rmap (fun l' => Some (VList l')) (parse_items (parse_arg fuel) (parent ++ "." ++ arg) ty 0 l)
                | _ => Ok (Some value)
                end
            end
        end
    end.

  (** src/core/jit/model.rs:98-105 and the part of [Field] that matters here. *)
  Record rarg (V : Type) : Type :=
    { ra_name : string; ra_type : typ; ra_value : option V; ra_default : option V }.
  Inductive rfield (V : Type) : Type := RField (name : string) (args : list (rarg V)) (sel : list (rfield V)).
End Parse.
Arguments ra_name {V} r. Arguments ra_type {V} r. Arguments ra_value {V} r. Arguments ra_default {V} r.
Arguments RField {V} name args sel.

Section Plan.
  Variable inputs : string -> option (list (string * input_field)).
  Variable vars : list (string * value).

  Definition opt_resolve (o : option qvalue) : result (option value) input_error :=
    match o with None => Ok None | Some q => rmap Some (resolve_value vars q) end.
  (** src/core/jit/model.rs:124-135 *)
  Definition map_arg (a : rarg qvalue) : result (rarg value) input_error :=
    rbind (opt_resolve (ra_value a)) (fun v =>
    rmap (fun d => {| ra_name := ra_name a; ra_type := ra_type a; ra_value := v; ra_default := d |})
         (opt_resolve (ra_default a))).
  (** src/core/jit/model.rs:233-265: the selection, then the arguments; directives are
      left out. *)
  Fixpoint map_field (f : rfield qvalue) : result (rfield value) input_error :=
    match f with
    | RField n args sel =>
        rbind ((fix go (l : list (rfield qvalue)) : result (list (rfield value)) input_error :=
                  match l with
                  | [] => Ok []
                  | f :: t => rbind (map_field f) (fun f' => rmap (cons f') (go t))
                  end) sel) (fun sel' =>
        rmap (fun args' => RField n args' sel') (mapM map_arg args))
    end.

  (** input_resolver.rs:112-140 *)
  Definition resolve_arg (fuel : nat) (field : string) (a : rarg value) : result (rarg value) input_error :=
    rmap (fun v => {| ra_name := ra_name a; ra_type := ra_type a; ra_value := v; ra_default := ra_default a |})
         (parse_arg inputs fuel field (ra_name a) (ra_type a) (ra_default a) (ra_value a)).
  Fixpoint resolve_field (fuel : nat) (f : rfield value) {struct f} : result (rfield value) input_error :=
    match f with
    | RField n args sel =>
        rbind (mapM (resolve_arg fuel n) args) (fun args' =>
        rmap (RField n args')
          ((fix go (l : list (rfield value)) : result (list (rfield value)) input_error :=
              match l with
              | [] => Ok []
              | f :: t => rbind (resolve_field fuel f) (fun f' => rmap (cons f') (go t))
              end) sel))
    end.

  (** input_resolver.rs:56-72 *)
  Definition resolve_input (fuel : nat) (sel : list (rfield qvalue)) : result (list (rfield value)) input_error :=
    mapM (fun f => rbind (map_field f) (resolve_field fuel)) sel.
End Plan.
