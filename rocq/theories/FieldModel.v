(** What a configuration's fields become: src/core/blueprint/schema.rs,
    src/core/blueprint/definitions.rs (74-220, 275-560) and the steps it runs,
    src/core/blueprint/operators/{resolver,modify,protected,enum_alias}.rs,
    src/core/blueprint/{union_resolver,interface_resolver,auth}.rs. *)
From Coq Require Import String Ascii ZArith NArith Bool List.
From Verif Require Import Base Ordered JsonModel TypeModel ConfigModel AuthModel DiscModel IrModel
  ScalarModel ComposeModel CtxModel.
From Verif Require BuilderModel.
Import ListNotations.
Open Scope string_scope.
Open Scope list_scope.

(** src/core/blueprint/error.rs, the ones met here; [Other] are those of the compilers of the
    resolver directives and of the checks of templates, [Panic] an index out of bounds. *)
Inductive blueprint_error : Type :=
| NoResolverFound
| QueryRootMissing
| QueryTypeNotDefined
| MutationTypeNotDefined
| FieldExistsInInterface
| InputTypesCannotBeProtected
| NoAuthProviders
| AuthProviderNotFound (id : string)
| InvalidDiscriminate (msg : string)
| UndeclaredType (name : string)
| PathDoesNotExist (path : list string)
| PathContainsResolver (path : list string)
| FieldNotFoundInPath (name : string)
| Panic
| Other (msg : string).
Notation valid A := (checked A blueprint_error).
Definition fail {A} (e : blueprint_error) : valid A := Err [Build_cause [] e].

(** [Valid::and]: the value of the second, the errors of both *)
Definition also {A B} (x : valid A) (y : valid B) : valid B :=
  match x, y with
  | Ok _, y => y
  | Err e, Ok _ => Err e
  | Err e, Err e' => Err (e ++ e')
  end.
(** [Valid::from_iter]: all the values, or all the errors *)
Fixpoint all_checked {A B} (f : A -> valid B) (l : list A) : valid (list B) :=
  match l with
  | [] => Ok []
  | a :: t =>
      match f a, all_checked f t with
      | Ok b, Ok bs => Ok (b :: bs)
      | Ok _, Err e => Err e
      | Err e, Ok _ => Err e
      | Err e, Err e' => Err (e ++ e')
      end
  end.

(** * schema.rs *)

(** schema.rs:45-66 on one field: whether it succeeds, and the types visited; [check] is
    schema.rs:27-43 *)
Definition field_checked (check : string -> gtype -> list string -> option (list string * list string))
  (types : list (string * gtype)) (f : field) (visited : list string) : option (bool * list string) :=
  if has_resolver (f_resolvers f) then Some (true, visited)
  else
    match oget scmp (type_name (f_type f)) types with
    | None => Some (false, visited)
    | Some ty =>
        match check (type_name (f_type f)) ty visited with
        | None => None
        | Some (failed, visited) => Some (match failed with [] => true | _ => false end, visited)
        end
    end.
(** the loop of schema.rs:38-40: the names of the fields that fail *)
Fixpoint fields_checked (check : string -> gtype -> list string -> option (list string * list string))
  (types : list (string * gtype)) (fs : list (string * field)) (visited : list string)
  : option (list string * list string) :=
  match fs with
  | [] => Some ([], visited)
  | (name, f) :: rest =>
      match field_checked check types f visited with
      | None => None
      | Some (ok, visited) =>
          match fields_checked check types rest visited with
          | None => None
          | Some (failed, visited) => Some (if ok then failed else name :: failed, visited)
          end
      end
  end.
(** schema.rs:27-43: the names of the fields that fail, and the types visited.  Every level
    adds a type to [visited]; [None] if [fuel] runs out. *)
Fixpoint type_checked (fuel : nat) (types : list (string * gtype)) (name : string) (ty : gtype)
  (visited : list string) : option (list string * list string) :=
  if gtype_scalar ty || smem name visited then Some ([], visited)
  else
    match fuel with
    | O => None
    | S fuel => fields_checked (type_checked fuel types) types (t_fields ty) (name :: visited)
    end.
(** One level for every type is enough. *)
Definition levels (c : config) : nat := S (length (c_types c)).

(** schema.rs:27-43 with the trace of 41 and of 65, for a root type *)
Definition root_checked (c : config) (name : string) (ty : gtype) : option (valid unit) :=
  match type_checked (levels c) (c_types c) name ty [] with
  | None => None
  | Some ([], _) => Some (Ok tt)
  | Some (failed, _) => Some (Err (map (fun f => Build_cause [name; f] NoResolverFound) failed))
  end.
(** schema.rs:10-23 *)
Definition validate_query (c : config) : option (valid unit) :=
  match r_query (c_schema c) with
  | None => Some (fail QueryRootMissing)
  | Some q =>
      match find_type c q with
      | None => Some (traced (fail QueryTypeNotDefined) q)
      | Some t => root_checked c q t
      end
  end.
(** schema.rs:68-80 *)
Definition validate_mutation (c : config) : option (valid unit) :=
  match r_mutation (c_schema c) with
  | None => Some (Ok tt)
  | Some n =>
      match find_type c n with
      | None => Some (traced (fail MutationTypeNotDefined) n)
      | Some t => root_checked c n t
      end
  end.
(** schema.rs:82-97: the names of the root types; the directives of the schema are left out. *)
Definition to_schema (c : config) : option (valid (string * option string)) :=
  match validate_query c, validate_mutation c with
  | Some q, Some m =>
      Some (rmap (fun query => (query, r_mutation (c_schema c)))
              (also (also q m)
                 (match r_query (c_schema c) with Some q => Ok q | None => fail QueryRootMissing end)))
  | _, _ => None
  end.

(** * Definitions *)

(** config/config_module.rs:17-48, 93-167: a configuration with what is kept beside it: the
    input types, the types behind every interface, the providers (blueprint/auth.rs:50-67). *)
Record cmodule := {
  m_config : config;
  m_inputs : list string;
  m_interfaces : list (string * list string);
  m_providers : list (option string * provider)
}.

(** config/directives/add_field.rs:9-14 *)
Record add_field := { af_name : string; af_path : list string }.

Section Fields.
  Context {IO : Type}.

  (** blueprint/blueprint.rs:124-134; documentation, directives and the default are left out *)
  Record fdef := {
    d_name : string;
    d_args : list (string * arg);
    d_type : typ;
    d_resolver : option (ir IO)
  }.
  Definition with_resolver (r : option (ir IO)) (d : fdef) : fdef :=
    {| d_name := d_name d; d_args := d_args d; d_type := d_type d; d_resolver := r |}.
  Definition with_name (n : string) (d : fdef) : fdef :=
    {| d_name := n; d_args := d_args d; d_type := d_type d; d_resolver := d_resolver d |}.
  Definition with_type (t : typ) (d : fdef) : fdef :=
    {| d_name := d_name d; d_args := d_args d; d_type := t; d_resolver := d_resolver d |}.

  (** operators/resolver.rs:19-56 for the type named: the compilers of the directives *)
  Variable compile : string -> field -> resolver -> valid (option (ir IO)).
  (** mustache.rs:179-196 *)
  Variable valid_templates : gtype -> fdef -> valid unit.
  Variable m : cmodule.
  Local Notation c := (m_config m).

  (** What every step is given: definitions.rs:541-554 *)
  Record input := { i_object : string; i_field : field; i_type : gtype; i_name : string }.
  Local Notation step := (try_fold input blueprint_error fdef).

  (** definitions.rs:275-305 *)
  Definition update_args : step := fun i _ =>
    Ok {| d_name := i_name i; d_args := f_args (i_field i); d_type := f_type (i_field i);
          d_resolver := None |}.

  (** operators/resolver.rs:70-78 *)
  Definition composed (rs : list (option (ir IO))) : option (ir IO) :=
    match rs with
    | [] => None
    | [r] => r
    | _ => Some (IMerge (flat_map (fun r => match r with Some e => [e] | None => [] end) rs))
    end.
  (** operators/resolver.rs:58-89 *)
  Definition update_resolver : step := fun i d =>
    and_then (all_checked (compile (i_object i) (i_field i)) (f_resolvers (i_field i))) (fun rs =>
      let d := with_resolver (composed rs) d in
      and_then (valid_templates (i_type i) d) (fun _ => Ok d)).

  (** [resolver.unwrap_or(IR::ContextPath(vec![name]))] *)
  Definition or_own_value (d : fdef) : ir IO :=
    match d_resolver d with Some e => e | None => IContextPath [d_name d] end.

  (** operators/modify.rs:9-41 *)
  Definition update_modify : step := fun i d =>
    match f_modify (i_field i) with
    | Some {| mod_name := Some new |} =>
        if existsb (fun n => match find_type c n with
                             | Some t => existsb (fun nf => String.eqb (fst nf) new) (t_fields t)
                             | None => false
                             end) (t_implements (i_type i))
        then fail FieldExistsInInterface
        else Ok (with_name new (with_resolver (Some (or_own_value d)) d))
    | _ => Ok d
    end.

  (** schema.rs:45-66 called with an empty set *)
  Definition all_resolved (f : field) : bool :=
    match field_checked (type_checked (levels c) (c_types c)) (c_types c) f [] with
    | Some (ok, _) => ok
    | None => false      (* ruled out: [levels] is enough *)
    end.
  (** definitions.rs:344-363 *)
  Definition fix_dangling_resolvers : step := fun i d =>
    Ok (if negb (has_resolver (f_resolvers (i_field i))) && all_resolved (i_field i)
        then with_resolver (Some (IDynamic (DValue (VObj [])))) d
        else d).

  (** definitions.rs:367-382 *)
  Definition update_cache_resolvers : step := fun i d =>
    Ok (match (match f_cache (i_field i) with Some a => Some a | None => t_cache (i_type i) end) with
        | Some age => with_resolver (option_map (cache_wrap age) (d_resolver d)) d
        | None => d
        end).

  (** operators/protected.rs:18-24 *)
  Definition is_protected_field (i : input) : bool :=
    match f_protected (i_field i), t_protected (i_type i) with
    | None, None =>
        match find_type c (type_name (f_type (i_field i))) with
        | Some t => match t_protected t with Some _ => true | None => false end
        | None => false
        end
    | _, _ => true
    end.
  (** operators/protected.rs:35-38: of providers with one id the last one stays *)
  Definition providers_by_id : list (string * provider) :=
    fold_left (fun acc ip => match fst ip with Some id => aset id (snd ip) acc | None => acc end)
              (m_providers m) [].
  Definition ids_of (p : option protected) : list string :=
    match p with Some p => match prot_id p with Some l => l | None => [] end | None => [] end.
  (** [Iterator::reduce] with [Auth::and] (blueprint/auth.rs:84-86) *)
  Definition all_of (l : list auth) : option auth :=
    match l with [] => None | a :: t => Some (fold_left AAnd t a) end.
  (** operators/protected.rs:8-91 *)
  Definition update_protected : step := fun i d =>
    if is_protected_field i then
      if smem (i_object i) (m_inputs m) then fail InputTypesCannotBeProtected
      else
        match m_providers m with
        | [] => fail NoAuthProviders
        | _ =>
            rmap (fun auths =>
                    match (match all_of auths with
                           | Some a => Some a
                           | None => all_of (map (fun ip => AProvider (snd ip)) (m_providers m))
                           end) with
                    | Some a => with_resolver (Some (IProtect a (or_own_value d))) d
                    | None => d
                    end)
                 (all_checked (fun id => match aget id providers_by_id with
                                         | Some p => Ok (AProvider p)
                                         | None => fail (AuthProviderNotFound id)
                                         end)
                    (ids_of (t_protected (i_type i)) ++ ids_of (f_protected (i_field i))))
        end
    else Ok d.

  (** operators/enum_alias.rs:10-43; the values of an enum as ScalarModel has them *)
  Definition update_enum_alias : step := fun i d =>
    Ok (match find_enum c (type_name (f_type (i_field i))) with
        | Some e =>
            with_resolver
              (with_aliases (map (fun v => {| n_name := fst v; n_alias := snd v |}) (e_variants e))
                 (d_resolver d)) d
        | None => d
        end).

  (** config/directives/discriminate.rs:34-36 *)
  Definition discriminate_field (d : option (option string)) : option string :=
    option_map (fun o => match o with Some f => f | None => "type" end) d.
  (** union_resolver.rs:10-27, 36-49 and interface_resolver.rs:12-29, 38-51 *)
  Definition discriminated (types : list string) (i : input) (d : fdef) : valid fdef :=
    match new_discriminator types (discriminate_field (f_discriminate (i_field i))) with
    | Ok k => Ok (with_resolver (Some (IDiscriminate k (or_own_value d))) d)
    | Err msg => fail (InvalidDiscriminate msg)
    end.
  (** union_resolver.rs:29-53 *)
  Definition update_union_resolver : step := fun i d =>
    match find_union c (type_name (f_type (i_field i))) with
    | Some u => discriminated (u_types u) i d
    | None => Ok d
    end.
  (** interface_resolver.rs:31-55 *)
  Definition update_interface_resolver : step := fun i d =>
    match aget (type_name (f_type (i_field i))) (m_interfaces m) with
    | Some types => discriminated types i d
    | None => Ok d
    end.

  (** definitions.rs:530-555 *)
  Definition to_field_definition (object : string) (t : gtype) (f : field) (name : string) : valid fdef :=
    and_ (and_ (and_ (and_ (and_ (and_ (and_ (and_ update_args
      update_resolver)
      (trace update_modify "@modify"))
      fix_dangling_resolvers)
      update_cache_resolvers)
      (trace update_protected "@protected"))
      update_enum_alias)
      update_union_resolver)
      update_interface_resolver
      {| i_object := object; i_field := f; i_type := t; i_name := name |}
      {| d_name := ""; d_args := []; d_type := TNamed "JSON" false; d_resolver := None |}.

  (** * Added fields *)

  (** [str::parse::<usize>] as definitions.rs:180 uses it *)
  Definition is_index (s : string) : bool := match parse_usize s with Some _ => true | None => false end.
  (** definitions.rs:307-312; the digits of other scripts are left out *)
  Definition is_digits (s : string) : bool :=
    match s with
    | EmptyString => false
    | _ => forallb (fun ch => N.leb 48 (N_of_ascii ch) && N.leb (N_of_ascii ch) 57) (list_ascii_of_string s)
    end.
  Definition item_is_numeric (l : list string) : bool := existsb is_digits l.

  Definition get_field (n : string) (t : gtype) : option field := oget scmp n (t_fields t).
  (** definitions.rs:430-440 *)
  Definition bad_path {A} (original : list string) (at_field : string) : valid A :=
    traced (fail (PathDoesNotExist original)) at_field.
  (** definitions.rs:99-221.  [is_required] is false in every call (449) and left out.  The
      tail of [rest] in 162-176 skips one name. *)
  Fixpoint process_path (original path : list string) (ft : typ) (ti : gtype) {struct path} : valid typ :=
    match path with
    | [] => Ok (into_nullable ft)
    | name :: rest =>
        if is_index name then process_path original rest (into_single ft) ti
        else
          match (match get_field name ti with Some _ => Some ti | None => find_type c (type_name ft) end) with
          | None => bad_path original name
          | Some ti =>
              match get_field name ti with
              | Some next =>
                  if has_resolver (f_resolvers next) then
                    also (all_checked (fun _ => (fail (PathContainsResolver original) : valid typ)) (f_resolvers next))
                         (process_path original rest (f_type next) ti)
                  else if BuilderModel.is_predefined (type_name (f_type next)) then
                    process_path original rest (f_type next) ti
                  else
                    match find_type c (type_name (f_type next)) with
                    | Some next_type =>
                        rmap (fun of_type => if is_list (f_type next) then TList of_type false else of_type)
                             (process_path original rest (f_type next) next_type)
                    | None => bad_path original name
                    end
              | None =>
                  match rest with
                  | head :: tail =>
                      match get_field head ti with
                      | Some f => process_path original tail (f_type f) ti
                      | None => bad_path original name
                      end
                  | [] => bad_path original name
                  end
              end
          end
    end.

  (** definitions.rs:314-336 *)
  Definition update_resolver_from_path (original path : list string) (source : field) (t : gtype)
    (base : fdef) : valid fdef :=
    rmap (fun of_type =>
            let base := with_type (if item_is_numeric path then TNamed (type_name of_type) false else of_type) base in
            with_resolver (Some (match d_resolver base with
                                 | None => IContextPath path
                                 | Some e => IPath e path
                                 end)) base)
         (process_path original path (f_type source) t).

  (** definitions.rs:429-501 *)
  Definition to_added_field (object : string) (t : gtype) (a : add_field) : valid fdef :=
    match af_path a with
    | [] => fail Panic
    | head :: tail =>
        match get_field head t with
        | Some source =>
            traced
              (and_then (to_field_definition object t source (af_name a)) (fun d =>
                 update_resolver_from_path (af_path a)
                   (if has_resolver (f_resolvers source) then tail else af_path a) source t d))
              "@addField"
        | None => fail (FieldNotFoundInPath head)
        end
    end.

  (** definitions.rs:384-391 *)
  Definition validate_field_type_exist (f : field) : valid unit :=
    let n := type_name (f_type f) in
    if negb (BuilderModel.is_predefined n) &&
       negb (match find_type c n with Some _ => true | None => false end ||
             match find_union c n with Some _ => true | None => false end ||
             match find_enum c n with Some _ => true | None => false end)
    then fail (UndeclaredType n) else Ok tt.

  (** definitions.rs:393-512; the condition of the trace (410-428, 446-450) is kept in
      [traced_name].  [added] is [type_of.added_fields]. *)
  Definition traced_name (t : gtype) (f : field) : bool :=
    match (match t_protected t with Some p => prot_id p | None => None end) with
    | None => true
    | Some ids =>
        match f_protected f with
        | Some p => match prot_id p with
                    | Some ids' => negb (list_eqb String.eqb ids' ids)
                    | None => true
                    end
        | None => false
        end
    end.
  Definition to_fields (object : string) (t : gtype) (added : list add_field) : valid (list fdef) :=
    match all_checked (fun nf =>
            let r := also (validate_field_type_exist (snd nf))
                          (to_field_definition object t (snd nf) (fst nf)) in
            if traced_name t (snd nf) then traced r (fst nf) else r)
            (filter (fun nf => negb (is_omitted (snd nf))) (t_fields t)),
          all_checked (to_added_field object t) added with
    | Ok fs, Ok adds => Ok (fs ++ adds)
    | Ok _, Err e => Err e
    | Err e, Ok _ => Err e
    | Err e, Err e' => Err (e ++ e')
    end.
End Fields.
Arguments fdef : clear implicits.

(** What executing a field gives (jit/exec.rs:105-141): its resolver's outcome or, without
    one, what the parent's value holds under its name. *)
Section Deliver.
  Context {IO F Key St : Type}.
  Variable rx : req_ext.
  Variable ext : auth_ext.
  Variable req : request.
  Variable do_io : IO -> ctx -> St -> result value F * St.
  Variable cache_key : IO -> ctx -> option Key.
  Variable cache_get : Key -> St -> result (option value) F * St.
  Variable cache_set : Key -> value -> Z -> St -> result unit F * St.
  Definition deliver (d : fdef IO) (parent : ctx) (st : St) : result value (ir_error F) * St :=
    match d_resolver d with
    | Some e => eval rx ext req do_io cache_key cache_get cache_set e parent st
    | None =>
        (Ok (match c_value parent with
             | Some v => match get_key (d_name d) v with Some x => x | None => VNull end
             | None => VNull
             end), st)
    end.
End Deliver.
