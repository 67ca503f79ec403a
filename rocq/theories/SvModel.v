(** The schema that is served: src/core/blueprint/definitions.rs (17-71, 244-276, 393-610),
    src/core/blueprint/into_schema.rs and the order of src/core/blueprint/from_config.rs:17-61, without federation. *)
From Coq Require Import String Ascii ZArith NArith Bool List.
From Verif Require Import Base Ordered JsonModel TypeModel ConfigModel IrModel ComposeModel ScalarModel FieldModel.
From Verif Require ShrinkModel BuilderModel.
Import ListNotations.
Open Scope string_scope.
Open Scope list_scope.

(** error.rs:79-80, 97-98 *)
Definition scalar_is_predefined (n : string) : blueprint_error := Other ("Scalar type " ++ n ++ " is predefined").
Definition no_variants : blueprint_error := Other "No variants found for enum".

Section Served.
  Context {IO : Type}.

  (** blueprint/blueprint.rs:114-134: the field of FieldModel with its documentation and default; directives are left out *)
  Record field_def := { df_field : fdef IO; df_doc : option string; df_default : option string }.
  (** blueprint.rs:114-120 *)
  Record input_def := { in_name : string; in_type : typ; in_doc : option string; in_default : option string }.
  (** blueprint.rs:30-105; directives and the aliases of enums (C35) are left out *)
  Inductive definition : Type :=
  | Object (name : string) (doc : option string) (fields : list field_def) (implements : list string)
  | Interface (name : string) (doc : option string) (fields : list field_def) (implements : list string)
  | InputObject (name : string) (doc : option string) (fields : list input_def)
  | ScalarDef (name : string) (doc : option string) (rule : scalar)
  | EnumDef (name : string) (doc : option string) (values : list string)
  | UnionDef (name : string) (doc : option string) (types : list string).
  (** blueprint.rs:41-50 *)
  Definition title (d : definition) : string :=
    match d with
    | Object n _ _ _ | Interface n _ _ _ | InputObject n _ _ | ScalarDef n _ _ | EnumDef n _ _ | UnionDef n _ _ => n
    end.

  Variable compile : string -> field -> resolver -> valid (option (ir IO)).
  Variable valid_templates : gtype -> fdef IO -> valid unit.
  Variable m : cmodule.
  (** The texts of [t_added] read: config/directives/add_field.rs:9-14 *)
  Variable added : gtype -> list add_field.
  Local Notation c := (m_config m).

  (** definitions.rs:17-30 *)
  Definition to_scalar_type_definition (n : string) : valid definition :=
    if BuilderModel.is_predefined n then fail (scalar_is_predefined n)
    else Ok (ScalarDef n None (match find_scalar n with Some s => s | None => NoRule end)).
  (** definitions.rs:32-39 *)
  Definition to_union_type_definition (nu : string * gunion) : definition := UnionDef (fst nu) (u_doc (snd nu)) (u_types (snd nu)).
  (** definitions.rs:41-59 *)
  Definition to_input_object_type_definition (n : string) (doc : option string) (fields : list field_def) : definition :=
    InputObject n doc
      (map (fun f => {| in_name := d_name (df_field f); in_type := d_type (df_field f); in_doc := df_doc f; in_default := df_default f |}) fields).
  (** definitions.rs:244-260; the documentation of the values is [None] (253) *)
  Definition to_enum_type_definition (ne : string * genum) : definition := EnumDef (fst ne) (e_doc (snd ne)) (map fst (e_variants (snd ne))).

  (** The fields of the configuration that the definitions of [to_fields] are made from, in their order: 440-451, 466-470 *)
  Definition sources (t : gtype) : list field :=
    map snd (filter (fun nf => negb (is_omitted (snd nf))) (t_fields t)) ++
    map (fun a => match af_path a with
                  | head :: _ => match get_field head t with Some f => f | None => empty_field end
                  | [] => empty_field
                  end) (added t).
  (** definitions.rs:393-531.  Documentation and default are set in 295-303, and no step after that changes them; so they are
      put beside what FieldModel has. *)
  Definition to_field_defs (n : string) (t : gtype) : valid (list field_def) :=
    rmap (fun ds => map (fun df => {| df_field := fst df; df_doc := f_doc (snd df); df_default := f_default (snd df) |}) (combine ds (sources t)))
         (to_fields compile valid_templates m n t (added t)).
  (** definitions.rs:262-276 *)
  Definition to_object_type_definition (n : string) (t : gtype) : valid definition :=
    rmap (fun fields => Object n (t_doc t) fields (t_implements t)) (to_field_defs n t).

  (** definitions.rs:559-580; 61-71 in place.  The second [trace] is of values that cannot fail. *)
  Definition to_definition (nt : string * gtype) : valid definition :=
    let n := fst nt in
    if gtype_scalar (snd nt) then traced (to_scalar_type_definition n) n
    else
      and_then (traced (to_object_type_definition n (snd nt)) n) (fun d =>
        match d with
        | Object n' doc fields implements =>
            Ok (if smem n (m_inputs m) then to_input_object_type_definition n' doc fields
                else match aget n (m_interfaces m) with
                     | Some _ => Interface n' doc fields implements
                     | None => d
                     end)
        | _ => Ok d
        end).
  (** definitions.rs:557-606 *)
  Definition to_definitions : valid (list definition) :=
    match all_checked to_definition (c_types c),
          all_checked (fun ne => match e_variants (snd ne) with [] => fail no_variants | _ => Ok (to_enum_type_definition ne) end) (c_enums c) with
    | Ok types, Ok enums => Ok ((types ++ map to_union_type_definition (c_unions c)) ++ enums)
    | Ok _, Err e => Err e
    | Err e, Ok _ => Err e
    | Err e, Err e' => Err (e ++ e')
    end.

  (** ** compress.rs on these definitions *)
  Definition plain_field (f : field_def) : ShrinkModel.bfield :=
    {| ShrinkModel.bf_name := d_name (df_field f); ShrinkModel.bf_type := d_type (df_field f);
       ShrinkModel.bf_args := map (fun na => (fst na, arg_type (snd na))) (d_args (df_field f)) |}.
  (** What ShrinkModel looks at *)
  Definition plain (d : definition) : ShrinkModel.bdef :=
    match d with
    | Object n _ fs is => ShrinkModel.BObject n (map plain_field fs) is
    | Interface n _ fs is => ShrinkModel.BInterface n (map plain_field fs) is
    | InputObject n _ fs => ShrinkModel.BInput n (map (fun f => (in_name f, in_type f)) fs)
    | ScalarDef n _ _ => ShrinkModel.BScalar n
    | EnumDef n _ vs => ShrinkModel.BEnum n vs
    | UnionDef n _ ts => ShrinkModel.BUnion n ts
    end.
  Definition plain_blueprint (query : string) (mutation : option string) (defs : list definition) : ShrinkModel.blueprint :=
    {| ShrinkModel.bp_query := query; ShrinkModel.bp_mutation := mutation; ShrinkModel.bp_defs := map plain defs |}.
  (** compress.rs:34-39: definitions are kept by their names.  [None]: out of fuel *)
  Definition compressed (fuel : nat) (query : string) (mutation : option string) (defs : list definition) : option (list definition) :=
    match ShrinkModel.compress fuel (plain_blueprint query mutation defs) with
    | Some b => Some (filter (fun d => smem (title d) (map ShrinkModel.bdef_name (ShrinkModel.bp_defs b))) defs)
    | None => None
    end.

  (** ** into_schema.rs: what is told to the library async-graphql *)

  (** [dynamic::InputValue] *)
  Record shown_input := { si_name : string; si_type : typ; si_doc : option string; si_default : option string }.
  (** [dynamic::Field], [dynamic::InterfaceField] *)
  Record shown_field := { sf_name : string; sf_type : typ; sf_doc : option string; sf_args : list shown_input }.
  (** [dynamic::Type]; what is not told is [None] or [[]] *)
  Inductive shown : Type :=
  | SObject (name : string) (doc : option string) (fields : list shown_field) (implements : list string)
  | SInterface (name : string) (doc : option string) (fields : list shown_field) (implements : list string)
  | SInput (name : string) (doc : option string) (fields : list shown_input)
  | SScalar (name : string) (doc : option string) (rule : scalar)
  | SEnum (name : string) (doc : option string) (values : list string)
  | SUnion (name : string) (doc : option string) (types : list string).
  Definition shown_name (s : shown) : string :=
    match s with SObject n _ _ _ | SInterface n _ _ _ | SInput n _ _ | SScalar n _ _ | SEnum n _ _ | SUnion n _ _ => n end.

  (** into_schema.rs:115-120 with 14-33; a default is kept as its text, so its conversion cannot fail *)
  Definition to_shown_argument (na : string * arg) : shown_input :=
    {| si_name := fst na; si_type := arg_type (snd na); si_doc := None; si_default := arg_default (snd na) |}.
  (** into_schema.rs:57-122, what is known of a field without executing it *)
  Definition to_shown_field (f : field_def) : shown_field :=
    {| sf_name := d_name (df_field f); sf_type := d_type (df_field f); sf_doc := df_doc f;
       sf_args := map to_shown_argument (d_args (df_field f)) |}.
  (** into_schema.rs:134-139 *)
  Definition to_shown_interface_field (f : field_def) : shown_field :=
    {| sf_name := d_name (df_field f); sf_type := d_type (df_field f); sf_doc := None; sf_args := [] |}.
  (** into_schema.rs:53-187 *)
  Definition to_type (d : definition) : shown :=
    match d with
    | Object n doc fs is => SObject n doc (map to_shown_field fs) is
    | Interface n _ fs _ => SInterface n None (map to_shown_interface_field fs) []
    | InputObject n doc fs =>
        SInput n doc (map (fun f => {| si_name := in_name f; si_type := in_type f; si_doc := in_doc f; si_default := in_default f |}) fs)
    | ScalarDef n doc rule => SScalar n doc rule
    | EnumDef n doc vs => SEnum n doc vs
    | UnionDef n _ ts => SUnion n None ts
    end.

  (** [dynamic::SchemaBuilder]: the types are a map by their names *)
  Record builder := { b_query : string; b_mutation : option string; b_types : list (string * shown) }.
  Definition register (s : shown) (b : builder) : builder :=
    {| b_query := b_query b; b_mutation := b_mutation b; b_types := aset (shown_name s) s (b_types b) |}.
  (** into_schema.rs:207-218 *)
  Definition inject_scalar (t : typ) (b : builder) : builder :=
    match find_scalar (type_name t) with
    | Some rule => register (SScalar (type_name t) None rule) b
    | None => b
    end.
  (** into_schema.rs:220-243: the types of the fields *)
  Definition field_types (d : definition) : list typ :=
    match d with
    | Interface _ _ fs _ | Object _ _ fs _ => map (fun f => d_type (df_field f)) fs
    | InputObject _ _ fs => map (fun f => in_type f) fs
    | _ => []
    end.
  Definition inject_custom_scalars (defs : list definition) (b : builder) : builder :=
    fold_left (fun b t => inject_scalar t b) (flat_map field_types defs) b.
  (** into_schema.rs:189-204 *)
  Definition schema_of (query : string) (mutation : option string) (defs : list definition) : builder :=
    fold_left (fun b d => register (to_type d) b) defs
      (inject_custom_scalars defs {| b_query := query; b_mutation := mutation; b_types := [] |}).

  (** from_config.rs:17-61, 118-139, the steps about the schema; of [Valid]s put together all errors are kept.  [None]: out of
      fuel *)
  Definition serve (fuel : nat) : option (valid builder) :=
    match to_schema c with
    | None => None
    | Some schema =>
        match schema, to_definitions with
        | Ok (query, mutation), Ok defs =>
            option_map (fun ds => Ok (schema_of query mutation ds)) (compressed fuel query mutation defs)
        | Ok _, Err e => Some (Err e)
        | Err e, Ok _ => Some (Err e)
        | Err e, Err e' => Some (Err (e ++ e'))
        end
    end.
End Served.
Arguments definition : clear implicits.
Arguments field_def : clear implicits.
