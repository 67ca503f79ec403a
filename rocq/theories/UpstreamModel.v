(** What a client's selection makes of a call to an upstream GraphQL server:
    src/core/jit/transform/graphql.rs, src/core/graphql/request_template.rs:20-46,
    src/core/jit/transform/input_resolver.rs:93-110 and the printed directives of
    src/core/document.rs. *)
From Coq Require Import String Ascii ZArith NArith Bool List.
From Verif Require Import Base JsonModel TypeModel MustacheModel RequestModel GqlModel IrModel BuilderModel.
Import ListNotations.
Open Scope list_scope.
Open Scope string_scope.

(** graphql/request_template.rs:20-27 *)
Inductive planned : Type :=
| Resolved (s : string)
| UnResolved (m : mustache).

(** graphql/request_template.rs:39-46 *)
Definition planned_from (m : mustache) : planned :=
  if mustache_is_const m then Resolved (show m) else UnResolved m.

(** ir/model.rs:44-71: a GraphQL call with its [selection] kept apart from the rest of the
    template, or a call of another kind. *)
Inductive call (O : Type) : Type :=
| GraphqlCall (t : gql_template) (selection : option planned)
| OtherCall (o : O).
Arguments GraphqlCall {O} t selection. Arguments OtherCall {O} o.

Section Text.
  (** The texts of a number and of a quoted string. *)
  Variable number_text : number -> string.
  Variable quoted : string -> string.

  (** async_graphql_value, [Display] of [Value]. *)
  Fixpoint display (v : qvalue) : string :=
    match v with
    | QVar x => "$" ++ x
    | QNull => "null"
    | QBool b => if b then "true" else "false"
    | QNum n => number_text n
    | QStr s => quoted s
    | QEnum s => s
    | QList l => "[" ++ join ", " (map display l) ++ "]"
    | QObj m => "{" ++ join ", " (map (fun kv => fst kv ++ ": " ++ display (snd kv)) m) ++ "}"
    end.

  (** A value without variables, [Display] of [ConstValue]. *)
  Fixpoint const_value (v : value) : qvalue :=
    match v with
    | VNull => QNull
    | VBool b => QBool b
    | VNum n => QNum n
    | VStr s => QStr s
    | VEnum s => QEnum s
    | VList l => QList (map const_value l)
    | VObj m => QObj (map (fun kv => (fst kv, const_value (snd kv))) m)
    end.

  (** document.rs:454-458 *)
  Definition to_mustache (s : string) : string :=
    match s with
    | String "$" v => "{{" ++ v ++ "}}"
    | _ => s
    end.
  (** document.rs:463-472 *)
  Definition directive_args (d : qdirective) : list string :=
    flat_map (fun a => match snd a with
                       | QNull => []
                       | v => [fst a ++ ": " ++ to_mustache (display v)]
                       end) (snd d).
  (** document.rs:315-332 *)
  Definition print_directive (d : qdirective) : string :=
    let args := join ", " (directive_args d) in
    if String.eqb args "" then "@" ++ fst d else "@" ++ fst d ++ "(" ++ args ++ ")".
  (** document.rs:83-91 *)
  Definition print_directives (ds : list qdirective) : string := join " " (map print_directive ds).
End Text.

Section Plan.
  Context {O : Type}.
  Notation field := (bfield (ir (call O))).
  Variable number_text : number -> string.
  Variable quoted : string -> string.
  (** [escape_default] in the program. *)
  Variable esc : string -> string.
  (** plan.interfaces: the interfaces of the schema (blueprint/index.rs:43-51). *)
  Variable interfaces : list string.
  (** The order in which a [HashMap] yields its entries, different for every map. *)
  Variable shuffle : list field -> list (string * list string) -> list (string * list string).

  Definition b_ir (f : field) := let '(BField _ _ _ e _ _ _ _ _ _ _ _ _ _) := f in e.
  Definition b_type (f : field) := let '(BField _ _ _ _ t _ _ _ _ _ _ _ _ _) := f in t.
  Definition b_args (f : field) := let '(BField _ _ _ _ _ _ _ _ a _ _ _ _ _) := f in a.
  Definition b_fragment (f : field) := let '(BField _ _ _ _ _ _ _ _ _ p _ _ _ _) := f in p.
  Definition b_directives (f : field) := let '(BField _ _ _ _ _ _ _ _ _ _ d _ _ _) := f in d.

  (** graphql.rs:70 *)
  Definition asked_upstream (f : field) : bool :=
    match b_ir f with Some (IIO _) | Some (IDynamic _) => false | _ => true end.
  (** graphql.rs:72-77 *)
  Definition upstream_name (f : field) : string :=
    match b_ir f with Some (IContextPath (n :: _)) => n | _ => b_name f end.
  (** graphql.rs:35, 78 *)
  Definition of_interface (f : field) : bool := smem (type_name (b_type f)) interfaces.

  (** graphql.rs:145-159 *)
  Definition field_arguments (f : field) : string :=
    let t := join "," (flat_map (fun a => match a_value a with
                                          | Some v => [a_name a ++ ": " ++ display number_text quoted v]
                                          | None => []
                                          end) (b_args f)) in
    if String.eqb t "" then "" else "(" ++ esc t ++ ")".
  (** graphql.rs:128-135 *)
  Definition field_directives (f : field) : string :=
    let t := print_directives number_text quoted (b_directives f) in
    if String.eqb t "" then "" else " " ++ esc t.

  (** [HashMap::entry(k).or_insert_with(Vec::new).push(v)] *)
  Definition push_group (m : list (string * list string)) (k v : string) : list (string * list string) :=
    match aget k m with Some l => aset k (l ++ [v])%list m | None => (m ++ [(k, [v])])%list end.

  (** graphql.rs:83-93, the texts outside of fragments. *)
  Definition direct_texts (iface : bool) (kept : list (field * string)) : list string :=
    flat_map (fun p => match b_fragment (fst p) with
                       | Some _ => if iface then [] else [snd p]
                       | None => [snd p]
                       end) kept.
  (** graphql.rs:83-89, those inside. *)
  Definition fragment_texts (iface : bool) (kept : list (field * string)) : list (string * list string) :=
    fold_left (fun m p => match b_fragment (fst p) with
                          | Some k => if iface then push_group m k (snd p) else m
                          | None => m
                          end) kept [].
  (** graphql.rs:81-82 *)
  Definition typename_requested (kept : list (field * string)) : bool :=
    existsb (fun p => (String.eqb (upstream_name (fst p)) "__typename"
                       && match b_fragment (fst p) with None => true | Some _ => false end)%bool) kept.

  (** graphql.rs:61-114, given the text of every field. *)
  Definition set_text (iface : bool) (l : list (field * string)) : option string :=
    let kept := filter (fun p => asked_upstream (fst p)) l in
    match kept with
    | [] => None
    | _ :: _ =>
        Some ("{ " ++ join " " (direct_texts iface kept
                                ++ (if (iface && negb (typename_requested kept))%bool then ["__typename"] else [])
                                ++ map (fun g => ("... on " ++ fst g ++ " { " ++ join " " (snd g) ++ " }")%string)
                                       (shuffle (map fst l) (fragment_texts iface kept)))%list ++ " }")
    end.

  (** graphql.rs:116-143 *)
  Fixpoint field_text (f : field) : string :=
    let '(BField _ _ _ _ _ _ _ _ _ _ _ _ _ sel) := f in
    upstream_name f ++ field_arguments f ++ field_directives f
    ++ match set_text (of_interface f) (map (fun g => (g, field_text g)) sel) with
       | Some s => " " ++ s
       | None => ""
       end.
  Definition format_selection (iface : bool) (l : list field) : option string :=
    set_text iface (map (fun g => (g, field_text g)) l).

  (** graphql.rs:30-40 *)
  Definition plan_call (f : field) (c : call O) : call O :=
    match c with
    | GraphqlCall t sel =>
        match format_selection (of_interface f) (b_sel f) with
        | Some v => GraphqlCall t (Some (planned_from (parse v)))
        | None => c
        end
    | OtherCall _ => c
    end.
  (** graphql.rs:24-44, 50-58 *)
  Fixpoint plan_selections (f : field) : field :=
    let '(BField i n o e t c s inc args fr ds en sc sel) := f in
    BField i n o (match e with Some e => Some (modify_io (plan_call f) e) | None => None end)
           t c s inc args fr ds en sc (map plan_selections sel).

  (** jit/model.rs:23-28: the text of the variable named by the first part. *)
  Definition variable_text (vars : list (string * value)) (path : list string) : option string :=
    match path with
    | [] => None
    | x :: _ => option_map (fun v => display number_text quoted (const_value v)) (aget x vars)
    end.
  (** graphql/request_template.rs:31-36 and input_resolver.rs:101-105 *)
  Definition resolve_call (vars : list (string * value)) (c : call O) : call O :=
    match c with
    | GraphqlCall t (Some (UnResolved m)) => GraphqlCall t (Some (Resolved (render (variable_text vars) m)))
    | _ => c
    end.
  (** input_resolver.rs:94-110 *)
  Fixpoint resolve_selections (vars : list (string * value)) (f : field) : field :=
    let '(BField i n o e t c s inc args fr ds en sc sel) := f in
    BField i n o (match e with Some e => Some (modify_io (resolve_call vars) e) | None => None end)
           t c s inc args fr ds en sc (map (resolve_selections vars) sel).
End Plan.

(** graphql/request_template.rs:119-123: the template as it is sent; no selection set means
    that of the related fields. *)
Definition planned_template (t : gql_template) (sel : option planned) : gql_template :=
  {| gt_url := gt_url t; gt_kind := gt_kind t; gt_name := gt_name t; gt_args := gt_args t;
     gt_headers := gt_headers t; gt_related := gt_related t;
     gt_selection := match sel with
                     | Some (Resolved s) => Some s
                     | Some (UnResolved m) => Some (show m)
                     | None => None
                     end |}.
