(** Configurations generated from sample requests: src/core/generator/mod.rs,
    src/core/generator/json/types_generator.rs, src/core/helpers/gql_type.rs. *)
From Coq Require Import String Ascii ZArith NArith Bool List.
From Verif Require Import Base Ordered JsonModel TypeModel ConfigModel MustacheModel.
Import ListNotations.
Open Scope string_scope.
Open Scope list_scope.

(** gql_type.rs:21-24: the pattern [^[a-zA-Z][a-zA-Z0-9_]*$] *)
Definition is_valid_field_name (s : string) : bool :=
  match list_ascii_of_string s with
  | c :: t => is_alpha c && forallb is_word t
  | [] => false
  end.
(** gql_type.rs:26-41.  A sample is JSON text that was read, so there are no enumeration
    values; they are treated as texts. *)
Definition to_gql_type (v : value) : string :=
  match v with
  | VNull => "JSON"
  | VBool _ => "Boolean"
  | VNum _ => "Int"
  | VStr _ | VEnum _ => "String"
  | VList _ => "List"
  | VObj _ => "Object"
  end.
(** gql_type.rs:43-46 *)
Definition is_primitive (v : value) : bool :=
  negb (String.eqb (to_gql_type v) "List") && negb (String.eqb (to_gql_type v) "Object").
(** types_generator.rs:15-26 *)
Definition is_graphql_compatible (v : value) : bool :=
  match v with
  | VList l => match l with [] => false | _ => true end
  | VObj m => match m with [] => false | _ => forallb (fun kv => is_valid_field_name (fst kv)) m end
  | _ => true
  end.
Definition is_array (v : value) : bool := match v with VList _ => true | _ => false end.

(** [Field { type_of, ..Default::default() }] *)
Definition field_of (t : typ) : field :=
  {| f_type := t; f_args := f_args empty_field; f_doc := f_doc empty_field; f_modify := f_modify empty_field;
     f_omit := f_omit empty_field; f_cache := f_cache empty_field; f_default := f_default empty_field;
     f_protected := f_protected empty_field; f_discriminate := f_discriminate empty_field;
     f_resolvers := f_resolvers empty_field; f_directives := f_directives empty_field |}.
(** wrapping_type.rs:49-55 *)
Definition into_list (t : typ) : typ := TList t false.
Definition with_fields (fs : list (string * field)) : gtype :=
  {| t_fields := fs; t_added := t_added empty_gtype; t_doc := t_doc empty_gtype; t_implements := t_implements empty_gtype;
     t_cache := t_cache empty_gtype; t_protected := t_protected empty_gtype; t_resolvers := t_resolvers empty_gtype;
     t_directives := t_directives empty_gtype |}.

(** types_generator.rs:33-50 *)
Definition merge_field (fs : list (string * field)) (kf : string * field) : list (string * field) :=
  let '(k, new) := kf in
  match oget scmp k fs with
  | Some old =>
      if String.eqb (type_name (f_type old)) "" || String.eqb (type_name (f_type old)) "Empty"
         || (String.eqb (type_name (f_type old)) "JSON" && negb (String.eqb (type_name (f_type new)) "Empty"))
      then oins scmp k new fs else fs
  | None => oins scmp k new fs
  end.
Definition merge_fields (l : list (list (string * field))) : list (string * field) :=
  fold_left (fun acc fs => fold_left merge_field fs acc) l [].

(** The counter of [NameGenerator] and the types of the configuration. *)
Record gstate := { gs_next : Z; gs_types : list (string * gtype) }.

Section Generate.
  Variable prefix : string.
  (** mod.rs:24-29 and [config.types.insert] of types_generator.rs:122-126, 140-142 *)
  Definition gen_name (k : Z) : string := (prefix ++ Z_to_string k)%string.
  Definition add_type (fs : list (string * field)) (st : gstate) : string * gstate :=
    let name := gen_name (gs_next st) in
    (name, {| gs_next := gs_next st + 1; gs_types := oins scmp name (with_fields fs) (gs_types st) |}).

  Section Members.
    Variable generate : value -> gstate -> string * gstate.
    (** types_generator.rs:71-101; [generate_scalar] (62-68) is always [JSON] *)
    Fixpoint create_type_from_object (m : list (string * value)) (fs : list (string * field)) (st : gstate)
      : list (string * field) * gstate :=
      match m with
      | [] => (fs, st)
      | (k, v) :: rest =>
          let '(name, st) :=
            if negb (is_graphql_compatible v) then ("JSON", st)
            else if is_primitive v then (to_gql_type v, st)
            else generate v st in
          let t := TNamed name false in
          create_type_from_object rest (oins scmp k (field_of (if is_array v then into_list t else t)) fs) st
      end.
  End Members.

  (** types_generator.rs:103-147 *)
  Fixpoint generate_types (v : value) (st : gstate) {struct v} : string * gstate :=
    match v with
    | VList l =>
        (fix go (l : list value) (types : list (list (string * field))) (st : gstate) : string * gstate :=
           match l with
           | [] => match types with
                   | [] => ("JSON", st)
                   | _ => add_type (merge_fields types) st
                   end
           | item :: rest =>
               match item with
               | VObj m =>
                   if negb (is_graphql_compatible item) then ("JSON", st)
                   else let '(fs, st) := create_type_from_object generate_types m [] st in go rest (types ++ [fs]) st
               | _ => generate_types item st
               end
           end) l [] st
    | VObj m =>
        if negb (is_graphql_compatible v) then ("JSON", st)
        else let '(fs, st) := create_type_from_object generate_types m [] st in add_type fs st
    | _ => (to_gql_type v, st)
    end.
  (** operation_generator.rs:22-29: the type of the field for the sample *)
  Definition sample_type (v : value) (name : string) : typ :=
    if is_array v then into_list (TNamed name false) else TNamed name false.
End Generate.
