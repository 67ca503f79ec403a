(** Unions in arguments: src/core/config/transformer/union_input_type.rs. *)
From Coq Require Import String ZArith Bool List.
From Verif Require Import Base Ordered TypeModel ConfigModel.
Import ListNotations.
Open Scope string_scope.
Open Scope list_scope.

(** union_input_type.rs:45-59: what is known about a type name ([None] for [NoUnion]), the names
    visited, and the types of the result. *)
Record ustate := { us_presence : list (string * option (list string)); us_visited : list string; us_types : list (string * gtype) }.

(** [self.union_presence.get(name)], if it is a [Union] *)
Definition union_types (st : ustate) (n : string) : option (list string) :=
  match aget n (us_presence st) with Some (Some l) => Some l | _ => None end.

Definition set_type (f : field) (t : typ) : field :=
  {| f_type := t; f_args := f_args f; f_doc := f_doc f; f_modify := f_modify f; f_omit := f_omit f; f_cache := f_cache f;
     f_default := f_default f; f_protected := f_protected f; f_discriminate := f_discriminate f;
     f_resolvers := f_resolvers f; f_directives := f_directives f |}.
Definition set_args (f : field) (a : list (string * arg)) : field :=
  {| f_type := f_type f; f_args := a; f_doc := f_doc f; f_modify := f_modify f; f_omit := f_omit f; f_cache := f_cache f;
     f_default := f_default f; f_protected := f_protected f; f_discriminate := f_discriminate f;
     f_resolvers := f_resolvers f; f_directives := f_directives f |}.
Definition set_fields (t : gtype) (fs : list (string * field)) : gtype :=
  {| t_fields := fs; t_added := t_added t; t_doc := t_doc t; t_implements := t_implements t; t_cache := t_cache t;
     t_protected := t_protected t; t_resolvers := t_resolvers t; t_directives := t_directives t |}.
Definition set_arg_type (a : arg) (t : typ) : arg :=
  {| arg_type := t; arg_doc := arg_doc a; arg_modify := arg_modify a; arg_default := arg_default a |}.

(** [enumerate] *)
Fixpoint indexed {A} (i : Z) (l : list A) : list (Z * A) :=
  match l with [] => [] | x :: t => (i, x) :: indexed (i + 1) t end.

(** union_input_type.rs:239-265 [inner_create].  A field that is not there is an [expect] of the
    program; the model leaves the type as it is. *)
Fixpoint inner_create (type_name : string) (base : gtype) (union_fields : list (string * list string)) : list (string * gtype) :=
  match union_fields with
  | [] => [(type_name, base)]
  | (field_name, types) :: rest =>
      flat_map (fun it =>
        let name := (type_name ++ "__" ++ field_name ++ Z_to_string (fst it))%string in
        let fields := match oget scmp field_name (t_fields base) with
                      | Some f => oins scmp field_name (set_type f (with_name (snd it) (f_type f))) (t_fields base)
                      | None => t_fields base
                      end in
        inner_create name (set_fields base fields) rest) (indexed 0 types)
  end.

Section Collect.
  Variable types : list (string * gtype).
  Variable unions : list (string * gunion).

  Definition visited (st : ustate) (n : string) : ustate :=
    {| us_presence := us_presence st; us_visited := n :: us_visited st; us_types := us_types st |}.
  Definition present (st : ustate) (n : string) (p : option (list string)) : ustate :=
    {| us_presence := aset n p (us_presence st); us_visited := us_visited st; us_types := us_types st |}.
  (** [self.new_types.extend(..)] *)
  Definition extend_types (st : ustate) (l : list (string * gtype)) : ustate :=
    {| us_presence := us_presence st; us_visited := us_visited st;
       us_types := fold_left (fun m kt => oins scmp (fst kt) (snd kt) m) l (us_types st) |}.

  (** union_input_type.rs:117-129 *)
  Definition member_types (st : ustate) (members : list string) : list string :=
    fold_left (fun acc m => match union_types st m with Some l => sextend scmp acc l | None => sins scmp m acc end) members [].
  (** union_input_type.rs:140-152 *)
  Definition union_fields (st : ustate) (fields : list (string * field)) : list (string * list string) :=
    flat_map (fun kf => match union_types st (type_name (f_type (snd kf))) with Some l => [(fst kf, l)] | None => [] end) fields.

  (** union_input_type.rs:105-181; [None]: out of fuel *)
  Fixpoint each {A} (f : A -> ustate -> option ustate) (l : list A) (st : ustate) : option ustate :=
    match l with
    | [] => Some st
    | x :: t => match f x st with Some st => each f t st | None => None end
    end.
  Fixpoint collect_type (fuel : nat) (n : string) (st : ustate) : option ustate :=
    match fuel with
    | O => None
    | S fuel =>
        if (match aget n (us_presence st) with Some _ => true | None => false end || smem n (us_visited st))%bool then Some st
        else
          let st := visited st n in
          match oget scmp n unions with
          | Some u =>
              match each (collect_type fuel) (u_types u) st with
              | Some st => Some (present st n (Some (member_types st (u_types u))))
              | None => None
              end
          | None =>
              match oget scmp n types with
              | Some t =>
                  match each (fun kf => collect_type fuel (type_name (f_type (snd kf)))) (t_fields t) st with
                  | Some st =>
                      match union_fields st (t_fields t) with
                      | [] => Some (present st n None)
                      | ufs =>
                          let made := inner_create n t ufs in
                          Some (extend_types (present st n (Some (map fst made))) made)
                      end
                  | None => None
                  end
              | None => Some st
              end
          end
    end.
  Definition fuel : nat := S (length types + length unions).
  (** union_input_type.rs:97-102 *)
  Definition collect_args (f : field) (st : ustate) : option ustate :=
    each (fun ka => collect_type fuel (type_name (arg_type (snd ka)))) (f_args f) st.
End Collect.

(** union_input_type.rs:183-228.  The field is changed in place: all arguments before are those of
    the way here. *)
Fixpoint walk_arguments (st : ustate) (args : list (string * arg)) (name : string) (f : field) : list (string * field) :=
  match args with
  | [] => [(name, f)]
  | (arg_name, a) :: rest =>
      match union_types st (type_name (arg_type a)) with
      | Some types =>
          flat_map (fun it =>
            let f := set_args f (aset arg_name (set_arg_type a (with_name (snd it) (arg_type a))) (f_args f)) in
            walk_arguments st rest (name ++ "Var" ++ Z_to_string (fst it))%string f) (indexed 0 types)
      | None => walk_arguments st rest name f
      end
  end.
Definition map_args_to_fields (st : ustate) (name : string) (f : field) : list (string * field) := walk_arguments st (f_args f) name f.

(** union_input_type.rs:73-94; fields are collected into a map *)
Section Visit.
  Variable types : list (string * gtype).
  Variable unions : list (string * gunion).
  Fixpoint visit_fields (l : list (string * field)) (acc : list (string * field)) (st : ustate) : option (list (string * field) * ustate) :=
    match l with
    | [] => Some (acc, st)
    | (k, f) :: t =>
        match collect_args types unions f st with
        | Some st => visit_fields t (fold_left (fun m kf => oins scmp (fst kf) (snd kf) m) (map_args_to_fields st k f) acc) st
        | None => None
        end
    end.
  Fixpoint visit_types (l : list (string * gtype)) (st : ustate) : option ustate :=
    match l with
    | [] => Some st
    | (n, t) :: rest =>
        match visit_fields (t_fields t) [] st with
        | Some (fs, st) =>
            visit_types rest {| us_presence := us_presence st; us_visited := us_visited st; us_types := oins scmp n (set_fields t fs) (us_types st) |}
        | None => None
        end
    end.
  Definition visit : option (list (string * gtype)) :=
    option_map us_types (visit_types types {| us_presence := []; us_visited := []; us_types := [] |}).
End Visit.

(** union_input_type.rs:30-40 *)
Definition union_input_type (c : config) : option config :=
  match visit (c_types c) (c_unions c) with
  | Some ts => Some {| c_server := c_server c; c_upstream := c_upstream c; c_schema := c_schema c; c_types := ts;
                       c_unions := c_unions c; c_enums := c_enums c; c_links := c_links c; c_telemetry := c_telemetry c |}
  | None => None
  end.
