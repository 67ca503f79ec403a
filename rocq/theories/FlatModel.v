(** Flattening of types with a single field: src/core/config/transformer/flatten_single_field.rs. *)
From Coq Require Import String Bool Arith List.
From Verif Require Import Base Ordered TypeModel ConfigModel AmbModel FieldModel.
Import ListNotations.
Open Scope string_scope.
Open Scope list_scope.

(** flatten_single_field.rs:12-52.  The outer [None]: out of fuel.  As the walk does not branch, the
    set of visited types is only handed down. *)
Fixpoint get_single_field_path (fuel : nat) (c : config) (field_name ty : string) (visited : list string) : option (option (list string)) :=
  match fuel with
  | O => None
  | S fuel =>
      if smem ty visited then Some None
      else if is_scalar c ty || match find_enum c ty with Some _ => true | None => false end then Some (Some [field_name])
      else
        match find_type c ty with
        | Some t =>
            match t_fields t with
            | [(sub_name, sub)] =>
                match get_single_field_path fuel c sub_name (type_name (f_type sub)) (ty :: visited) with
                | Some (Some path) => Some (Some (field_name :: path))
                | r => r
                end
            | _ => Some None
            end
        | None => Some None
        end
  end.

(** [field.omit = Some(Omit {})] *)
Definition with_omit (f : field) : field :=
  {| f_type := f_type f; f_args := f_args f; f_doc := f_doc f; f_modify := f_modify f; f_omit := true; f_cache := f_cache f;
     f_default := f_default f; f_protected := f_protected f; f_discriminate := f_discriminate f; f_resolvers := f_resolvers f;
     f_directives := f_directives f |}.
Definition with_fields (t : gtype) (fs : list (string * field)) : gtype :=
  {| t_fields := fs; t_added := t_added t; t_doc := t_doc t; t_implements := t_implements t; t_cache := t_cache t;
     t_protected := t_protected t; t_resolvers := t_resolvers t; t_directives := t_directives t |}.

(** flatten_single_field.rs:67-81: one field; what is pushed to [added_fields] *)
Definition flatten_field (c : config) (fx : string * field) : option ((string * field) * list add_field) :=
  match get_single_field_path (S (S (length (c_types c)))) c (fst fx) (type_name (f_type (snd fx))) [] with
  | None => None
  | Some (Some path) =>
      if Nat.ltb 1 (length path) then Some ((fst fx, with_omit (snd fx)), [{| af_name := fst fx; af_path := path |}])
      else Some (fx, [])
  | Some None => Some (fx, [])
  end.

Fixpoint flatten_fields (c : config) (fs : list (string * field)) : option (list (string * field) * list add_field) :=
  match fs with
  | [] => Some ([], [])
  | fx :: fs =>
      match flatten_field c fx, flatten_fields c fs with
      | Some (fx, a), Some (fs, b) => Some (fx :: fs, a ++ b)
      | _, _ => None
      end
  end.

(** flatten_single_field.rs:63-83.  In the model of configurations the added fields of a type are
    texts; the ones that are pushed here are returned beside the types. *)
Fixpoint flatten_types (c : config) (inputs : list string) (types : list (string * gtype)) :
    option (list (string * gtype) * list (string * list add_field)) :=
  match types with
  | [] => Some ([], [])
  | (n, t) :: types =>
      match (if smem n inputs then Some (t_fields t, []) else flatten_fields c (t_fields t)), flatten_types c inputs types with
      | Some (fs, a), Some (types, added) => Some ((n, with_fields t fs) :: types, (n, a) :: added)
      | _, _ => None
      end
  end.

(** flatten_single_field.rs:57-86.  [walk] is [config.input_types()], which may not end. *)
Definition flatten_single_field (walk : config -> option (list string)) (c : config) : option (config * list (string * list add_field)) :=
  match walk c with
  | Some inputs =>
      match flatten_types c inputs (c_types c) with
      | Some (types, added) =>
          Some ({| c_server := c_server c; c_upstream := c_upstream c; c_schema := c_schema c; c_types := types; c_unions := c_unions c;
                   c_enums := c_enums c; c_links := c_links c; c_telemetry := c_telemetry c |}, added)
      | None => None
      end
  | None => None
  end.
