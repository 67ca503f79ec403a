(** The context a resolver expression is evaluated in: src/core/ir/eval_context.rs,
    src/core/path.rs, and dynamic values: src/core/blueprint/dynamic_value.rs,
    src/core/serde_value_ext.rs. *)
From Coq Require Import String Ascii ZArith NArith Bool List.
From Verif Require Import Base JsonModel MustacheModel.
Import ListNotations.
Open Scope string_scope.
Open Scope list_scope.

(** src/core/ir/eval_context.rs:14-28.  [c_value]/[c_args]: what the operation
    context answers ([graphql_ctx.value()], [graphql_ctx.args()]); [c_over_value]
    and [c_over_args]: the overrides.  [c_is_query]: the operation type. *)
Record ctx := {
  c_value : option value;
  c_args : option (list (string * value));
  c_over_value : option value;
  c_over_args : option value;
  c_is_query : bool
}.

(** src/core/ir/eval_context.rs:31-35 *)
Definition with_value (v : value) (c : ctx) : ctx :=
  {| c_value := c_value c; c_args := c_args c; c_over_value := Some v;
     c_over_args := c_over_args c; c_is_query := c_is_query c |}.

(** src/core/ir/eval_context.rs:37-41 *)
Definition with_args (v : value) (c : ctx) : ctx :=
  {| c_value := c_value c; c_args := c_args c; c_over_value := c_over_value c;
     c_over_args := Some v; c_is_query := c_is_query c |}.

(** src/core/ir/eval_context.rs:190-206 *)
Fixpoint get_path_value (v : value) (path : list string) : option value :=
  match path with
  | [] => Some v
  | n :: rest =>
      match v with
      | VObj m => match aget n m with Some x => get_path_value x rest | None => None end
      | VList l =>
          match parse_usize n with
          | Some i => match nth_N l i with Some x => get_path_value x rest | None => None end
          | None => None
          end
      | _ => None
      end
  end.

(** [Cow<Value>]: src/core/path.rs:41-56 tells the two apart. *)
Inductive cow : Type := Owned (v : value) | Borrowed (v : value).
Definition cow_value (c : cow) : value := match c with Owned v => v | Borrowed v => v end.

(** src/core/ir/eval_context.rs:60-72 *)
Definition path_arg (c : ctx) (path : list string) : option cow :=
  match c_over_args c with
  | Some args => option_map Owned (get_path_value args path)
  | None =>
      match path with
      | [] => option_map (fun m => Owned (VObj m)) (c_args c)
      | n :: rest =>
          match c_args c with
          | None => None
          | Some m =>
              match aget n m with
              | None => None
              | Some arg => option_map Borrowed (get_path_value arg rest)
              end
          end
      end
  end.

(** src/core/ir/eval_context.rs:74-81 *)
Definition path_value (c : ctx) (path : list string) : option cow :=
  match c_over_value c with
  | Some v => option_map Owned (get_path_value v path)
  | None =>
      match c_value c with
      | None => None
      | Some v => option_map Borrowed (get_path_value v path)
      end
  end.

(** What a request brings along, and the external text conversions.
    [x_header]: the readable allowed headers ([ctx.header], eval_context.rs:87-91);
    [x_var]: [ctx.var] (97-101); [x_env]: [ctx.env_var] (93-95); [x_vars_json]:
    the JSON text of all variables (path.rs:79-81); [x_json_text]: serde_json's
    text of a value; [x_graphql_text]: async_graphql's; [x_parse]: serde_json's
    parser. *)
Record req_ext := {
  x_header : string -> option string;
  x_var : string -> option string;
  x_env : string -> option string;
  x_vars_json : string;
  x_json_text : value -> string;
  x_graphql_text : value -> string;
  x_parse : string -> option value
}.

Section Request.
  Variable rx : req_ext.

  (** src/core/path.rs:61-66 *)
  Inductive value_string : Type := RawValue (c : cow) | RawString (s : string).

  (** src/core/path.rs:41-56 *)
  Definition convert_value (c : cow) : option string :=
    match c with
    | Owned (VStr s) | Borrowed (VStr s) => Some s
    | Owned (VNum n) | Borrowed (VNum n) => Some (x_json_text rx (VNum n))
    | Owned (VBool b) | Borrowed (VBool b) => Some (if b then "true" else "false")
    | Owned (VObj m) | Borrowed (VObj m) => Some (x_json_text rx (VObj m))
    | Owned (VList l) | Borrowed (VList l) => Some (x_json_text rx (VList l))
    | Borrowed (VEnum n) => Some n
    | Owned (VEnum _) => None
    | Owned VNull | Borrowed VNull => None
    end.

  (** src/core/path.rs:69-101 *)
  Definition to_raw_value (c : ctx) (path : list string) : option value_string :=
    match path with
    | [] => None
    | [h] =>
        if String.eqb h "value" then option_map RawValue (path_value c [])
        else if String.eqb h "args" then option_map RawValue (path_arg c [])
        else if String.eqb h "vars" then Some (RawString (x_vars_json rx))
        else None
    | h :: (t0 :: _) as tail =>
        let tail := match path with [] => [] | _ :: t => t end in
        if String.eqb h "value" then option_map RawValue (path_value c tail)
        else if String.eqb h "args" then option_map RawValue (path_arg c tail)
        else if String.eqb h "headers" then option_map RawString (x_header rx t0)
        else if String.eqb h "vars" then option_map RawString (x_var rx t0)
        else if String.eqb h "env" then option_map RawString (x_env rx t0)
        else None
    end.

  (** src/core/path.rs:109-116 *)
  Definition path_string (c : ctx) (path : list string) : option string :=
    match to_raw_value c path with
    | Some (RawString s) => Some s
    | Some (RawValue v) => convert_value v
    | None => None
    end.

  (** src/core/path.rs:118-129 *)
  Definition path_graphql (c : ctx) (path : list string) : option string :=
    match path with
    | _ :: _ :: _ =>
        match to_raw_value c path with
        | Some (RawValue v) => Some (x_graphql_text rx (cow_value v))
        | Some (RawString s) => Some ("""" ++ s ++ """")%string
        | None => None
        end
    | _ => None
    end.

  (** src/core/blueprint/dynamic_value.rs:7-13 *)
  Inductive dynamic : Type :=
  | DValue (v : value)
  | DMustache (m : mustache)
  | DObject (l : list (string * dynamic))
  | DArray (l : list dynamic).

  (** src/core/blueprint/dynamic_value.rs:82-92 *)
  Fixpoint dynamic_is_const (d : dynamic) : bool :=
    match d with
    | DValue _ => true
    | DMustache m => mustache_is_const m
    | DObject l => forallb (fun kv => dynamic_is_const (snd kv)) l
    | DArray l => forallb dynamic_is_const l
    end.

  (** src/core/serde_value_ext.rs:13-45.  Collecting into an [IndexMap] from the
      distinct names of another keeps order. *)
  Fixpoint render_value (d : dynamic) (c : ctx) : value :=
    match d with
    | DValue v => v
    | DMustache m =>
        let rendered := render (path_string c) m in
        match x_parse rx rendered with Some v => v | None => VStr rendered end
    | DObject l => VObj (map (fun kv => (fst kv, render_value (snd kv) c)) l)
    | DArray l => VList (map (fun d => render_value d c) l)
    end.

  (** src/core/blueprint/dynamic_value.rs:56-79 *)
  Fixpoint const_value (d : dynamic) : result value string :=
    match d with
    | DValue v => Ok v
    | DMustache _ => Err "mustache cannot be converted to const value"
    | DObject l =>
        rmap VObj ((fix go (l : list (string * dynamic)) : result (list (string * value)) string :=
           match l with
           | [] => Ok []
           | (k, d) :: t =>
               rbind (const_value d) (fun v => rmap (fun r => (k, v) :: r) (go t))
           end) l)
    | DArray l =>
        rmap VList ((fix go (l : list dynamic) : result (list value) string :=
           match l with
           | [] => Ok []
           | d :: t => rbind (const_value d) (fun v => rmap (fun r => v :: r) (go t))
           end) l)
    end.

  (** src/core/blueprint/dynamic_value.rs:25-53: the name goes in front of the
      first segment's path, and only if that segment is an expression. *)
  Fixpoint prepend (name : string) (d : dynamic) : dynamic :=
    match d with
    | DValue v => DValue v
    | DMustache m =>
        if mustache_is_const m then DMustache m
        else DMustache (match m with
                        | Expression parts :: t => Expression (name :: parts) :: t
                        | _ => m
                        end)
    | DObject l => DObject (map (fun kv => (fst kv, prepend name (snd kv))) l)
    | DArray l => DArray (map (prepend name) l)
    end.
End Request.
