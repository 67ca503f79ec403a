(** Fields that call other fields: src/core/blueprint/operators/call.rs. *)
From Coq Require Import String Ascii ZArith NArith Bool List.
From Verif Require Import Base Ordered JsonModel TypeModel ConfigModel MustacheModel IrModel ComposeModel CtxModel FieldModel.
Import ListNotations.
Open Scope string_scope.
Open Scope list_scope.

(** config/directives/call.rs: a step *)
Record step := { s_query : option string; s_mutation : option string; s_args : list (string * value) }.

(** call.rs:94-105 *)
Definition get_type_and_field (s : step) : option (string * string) :=
  match s_query s with
  | Some q => Some ("Query", q)
  | None => option_map (fun n => ("Mutation", n)) (s_mutation s)
  end.

(** blueprint/dynamic_value.rs:93-122; [from_json] accepts every JSON value *)
Fixpoint dynamic_of (v : value) : dynamic :=
  match v with
  | VObj l => DObject (map (fun kv => (fst kv, dynamic_of (snd kv))) l)
  | VList l => DArray (map dynamic_of l)
  | VStr s => let t := parse s in if mustache_is_const t then DValue (VStr s) else DMustache t
  | _ => DValue v
  end.

Section Call.
  Context {IO : Type}.
  Variable valid_templates : gtype -> fdef IO -> valid unit.
  Variable m : cmodule.
  Local Notation c := (m_config m).

  (** call.rs:107-130 *)
  Definition get_field_and_field_name (s : step) : valid (field * string * gtype) :=
    match get_type_and_field s with
    | None => fail (Other "call must have query or mutation")
    | Some (type, name) =>
        match find_type c type with
        | None => fail (Other ("type not found: " ++ type)%string)
        | Some t =>
            match oget scmp name (t_fields t) with
            | None => fail (Other ("field not found: " ++ name)%string)
            | Some f => Ok (f, name, t)
            end
        end
    end.

  (** call.rs:19-28 *)
  Definition empties (s : step) (f : field) : list string :=
    flat_map (fun ka => if negb (is_nullable (arg_type (snd ka))) && negb (smem (fst ka) (map fst (s_args s)))
                        then [fst ka] else []) (f_args f).
  Section Steps.
    Variable compile : string -> field -> resolver -> valid (option (ir IO)).
    Variable object : string.

    (** call.rs:16-73: the resolver of the field, its args put before it *)
    Definition compile_step (s : step) : valid (ir IO) :=
      and_then (get_field_and_field_name s) (fun '(f, name, t) =>
        match empties s f with
        | _ :: _ as l => traced (fail (Other (String.concat ", " l))) name
        | [] =>
            rmap (fun e => match s_args s with [] => e | _ => IPipe (IDynamic (dynamic_of (VObj (s_args s)))) e end)
              (and_then (to_field_definition compile valid_templates m object t f (type_name (f_type f)))
                 (fun d => match d_resolver d with
                           | None => fail (Other ("field has no resolver: " ++ name)%string)
                           | Some e => Ok e
                           end))
        end).
    (** call.rs:15, 74-92 *)
    Definition compile_call (steps : list step) : valid (ir IO) :=
      and_then (all_checked compile_step steps) (fun l =>
        match l with
        | [] => fail (Other "steps can not be empty")
        | e :: rest => Ok (fold_left IPipe rest e)
        end).
  End Steps.

  (** resolver.rs:20-56: [compile_other] are the compilers of the other directives, [steps_of]
      what a directive of this kind says.  A field may be called while it is compiled;
      [stack] is how often, [Panic] that the stack has run out. *)
  Variable compile_other : string -> field -> resolver -> valid (option (ir IO)).
  Variable steps_of : string -> list step.
  Fixpoint compile_resolver (stack : nat) (object : string) (f : field) (r : resolver) : valid (option (ir IO)) :=
    match r with
    | RCall text =>
        match stack with
        | O => fail Panic
        | S stack => traced (rmap Some (compile_call (compile_resolver stack) object (steps_of text))) "@call"
        end
    | _ => compile_other object f r
    end.
End Call.
