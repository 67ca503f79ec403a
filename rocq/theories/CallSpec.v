(** Specification for C67. *)
From Coq Require Import String Ascii ZArith NArith Bool List.
From Verif Require Import Base JsonModel TypeModel ConfigModel AuthModel MustacheModel MustacheSpec CtxModel IrModel FieldModel CallModel.
Import ListNotations.
Open Scope string_scope.
Open Scope list_scope.

(** The field a step names. *)
Definition target (s : step) (type name : string) : Prop :=
  s_query s = Some name /\ type = "Query" \/
  s_query s = None /\ s_mutation s = Some name /\ type = "Mutation".

(** A step calls field [f] of type [t], all its required arguments are given. *)
Definition calls (m : cmodule) (s : step) (t : gtype) (f : field) : Prop :=
  exists type name, target s type name /\ find_type (m_config m) type = Some t /\
    Ordered.oget Ordered.scmp name (t_fields t) = Some f /\
    forall k a, In (k, a) (f_args f) -> is_nullable (arg_type a) = false -> In k (map fst (s_args s)).

(** [e] is what a request for the field would run. *)
Definition runs_as {IO} compile valid_templates m object (s : step) (e : ir IO) : Prop :=
  exists t f d, calls m s t f /\
    to_field_definition compile valid_templates m object t f (type_name (f_type f)) = Ok d /\ d_resolver d = Some e.

(** A text is a template if something in it is to be replaced. *)
Definition template (s : string) (segs : list segment) : Prop := written segs s /\ exists p, In (Expression p) segs.

(** What given arguments are: the templates in them rendered, read as JSON where they are JSON.
    Text that is a single quotation mark between expressions is lost (C17). *)
Inductive filled (rx : req_ext) (c : ctx) : value -> value -> Prop :=
| Fi_text : forall s, (forall segs, ~ template s segs) -> filled rx c (VStr s) (VStr s)
| Fi_template : forall s segs t, template s segs ->
    rendered (path_string rx c) (filter (fun g => match g with Literal """" => false | _ => true end) segs) t ->
    filled rx c (VStr s) (match x_parse rx t with Some w => w | None => VStr t end)
| Fi_list : forall l l', Forall2 (filled rx c) l l' -> filled rx c (VList l) (VList l')
| Fi_object : forall l l', Forall2 (fun kv kv' => fst kv = fst kv' /\ filled rx c (snd kv) (snd kv')) l l' ->
    filled rx c (VObj l) (VObj l')
| Fi_other : forall v, match v with VStr _ | VList _ | VObj _ => False | _ => True end -> filled rx c v v.

Section Runs.
  Context {IO F St : Type}.
  Variable rx : req_ext.
  (** running one expression *)
  Variable one : ir IO -> ctx -> St -> result value F * St.

  (** Arguments given are filled in where the call is made; without any, the field sees the
      arguments that are there. *)
  Inductive answers (s : step) (e : ir IO) (c : ctx) (st : St) (out : result value F * St) : Prop :=
  | A_same : s_args s = [] -> one e c st = out -> answers s e c st out
  | A_given : forall w, s_args s <> [] -> filled rx c (VObj (s_args s)) w -> one e (with_args w c) st = out ->
      answers s e c st out.

  (** One step after the other, what one gives are the arguments for the next, the first error
      ends it. *)
  Inductive in_turn : list (step * ir IO) -> ctx -> St -> result value F * St -> Prop :=
  | T_last : forall s e c st out, answers s e c st out -> in_turn [(s, e)] c st out
  | T_next : forall s e rest c st v st' out, rest <> [] -> answers s e c st (Ok v, st') ->
      in_turn rest (with_args v c) st' out -> in_turn ((s, e) :: rest) c st out
  | T_stop : forall s e rest c st er st', rest <> [] -> answers s e c st (Err er, st') ->
      in_turn ((s, e) :: rest) c st (Err er, st').
End Runs.
