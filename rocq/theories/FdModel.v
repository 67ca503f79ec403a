(** The resolvers of a federated schema: src/core/blueprint/operators/apollo_federation.rs. *)
From Coq Require Import String Ascii ZArith NArith Bool List.
From Verif Require Import Base Ordered JsonModel TypeModel ConfigModel IrModel ComposeModel FieldModel.
Import ListNotations.
Open Scope string_scope.
Open Scope list_scope.

(** error.rs:10-20, 145-146 *)
Definition not_in_entities : blueprint_error := Other "Apollo federation resolvers can't be a part of entity resolver".
Definition query_not_object : blueprint_error := Other "Query type is not an object inside the blueprint".
Definition type_not_found (n : string) : blueprint_error := Other ("Cannot find type " ++ n ++ " in the config").
Definition field_not_found (n : string) : blueprint_error := Other ("Cannot find field " ++ n ++ " in the type").
Definition no_resolver_in_schema : blueprint_error := Other "No resolver has been found in the schema".

(** apollo_federation.rs:31: [Field { type_of: Type::from(name), ..Default::default() }] *)
Definition fake_field (n : string) : field :=
  {| f_type := TNamed n false; f_args := []; f_doc := None; f_modify := None; f_omit := false; f_cache := None; f_default := None;
     f_protected := None; f_discriminate := None; f_resolvers := []; f_directives := [] |}.

Definition newline : string := String (ascii_of_N 10) "".
Definition tab : string := String (ascii_of_N 9) "".
Definition dq : string := String (ascii_of_N 34) "".
(** apollo_federation.rs:62-74 *)
Definition service_text (sdl : string) : string :=
  (sdl ++ newline
   ++ "extend schema @link(" ++ newline
   ++ tab ++ "url: " ++ dq ++ "https://specs.apollo.dev/federation/v2.3" ++ dq ++ "," ++ newline
   ++ tab ++ "import: ["
   ++ String.concat ", " (map (fun n => dq ++ n ++ dq)
        ["@key"; "@tag"; "@shareable"; "@inaccessible"; "@override"; "@external"; "@provides"; "@requires"; "@composeDirective"; "@interfaceObject"])
   ++ "]" ++ newline
   ++ ")" ++ newline)%string.

Section Federation.
  Context {IO : Type}.

  (** blueprint/blueprint.rs:40-105: a definition; [rest] is all that is not used here *)
  Inductive bdef : Type :=
  | DObject (name : string) (fields : list (fdef IO)) (rest : string)
  | DElse (name : string) (rest : string).
  Definition def_name (d : bdef) : string := match d with DObject n _ _ | DElse n _ => n end.

  (** operators/resolver.rs:19-56: the compilers of the directives, for the type named *)
  Variable compile : string -> field -> resolver -> valid (option (ir IO)).
  (** document.rs: the definitions as a document *)
  Variable print : list bdef -> string.

  (** apollo_federation.rs:26-58 on one entry, with 38-40 for an entry that is itself a table; a [HashMap] is a list of
      entries *)
  Fixpoint entry_ir (n : string) (r : resolver) {struct r} : valid (ir IO) :=
    match r with
    | REntity m =>
        rmap IEntity ((fix go (m : list (string * resolver)) : valid (list (string * ir IO)) :=
          match m with
          | [] => Ok []
          | (k, r) :: t =>
              match entry_ir k r, go t with
              | Ok e, Ok l => Ok ((k, e) :: l)
              | Ok _, Err e => Err e
              | Err e, Ok _ => Err e
              | Err e, Err e' => Err (e ++ e')
              end
          end) m)
    | RService => fail not_in_entities
    | r => and_then (compile n (fake_field n) r) (fun o => match o with Some e => Ok e | None => fail no_resolver_in_schema end)
    end.
  (** apollo_federation.rs:20-60 *)
  Definition compile_entity_resolver (entries : list (string * resolver)) : valid (ir IO) := entry_ir "" (REntity entries).
  (** apollo_federation.rs:62-75 *)
  Definition compile_service (sdl : string) : valid (ir IO) := Ok (IService (service_text sdl)).

  Definition is_federation (r : resolver) : bool := match r with REntity _ | RService => true | _ => false end.
  (** apollo_federation.rs:103-129 on one field; [sdl] is what is left of the text ([mem::take], 126), also returned *)
  Definition federation_field (types : list (string * field)) (sdl : string) (d : fdef IO) : valid (fdef IO) * string :=
    match oget scmp (d_name d) types with
    | None => (fail (field_not_found (d_name d)), sdl)
    | Some f =>
        match find is_federation (f_resolvers f) with
        | Some (REntity m) => (rmap (fun e => with_resolver (Some e) d) (compile_entity_resolver m), sdl)
        | Some RService => (rmap (fun e => with_resolver (Some e) d) (compile_service sdl), "")
        | _ => (Ok d, sdl)
        end
    end.
  (** [Valid::from_iter] with the text that is left *)
  Fixpoint each_left {A B} (f : string -> A -> valid B * string) (sdl : string) (l : list A) : valid (list B) * string :=
    match l with
    | [] => (Ok [], sdl)
    | a :: t =>
        let '(r, sdl) := f sdl a in
        let '(rs, sdl) := each_left f sdl t in
        (match r, rs with
         | Ok b, Ok bs => Ok (b :: bs)
         | Ok _, Err e => Err e
         | Err e, Ok _ => Err e
         | Err e, Err e' => Err (e ++ e')
         end, sdl)
    end.
  (** apollo_federation.rs:89-136 on one definition *)
  Definition federation_def (c : config) (query : string) (sdl : string) (d : bdef) : valid bdef * string :=
    if String.eqb (def_name d) query then
      match d with
      | DElse _ _ => (fail query_not_object, sdl)
      | DObject n fields rest =>
          match find_type c query with
          | None => (fail (type_not_found query), sdl)
          | Some t =>
              let '(r, sdl) := each_left (federation_field (t_fields t)) sdl fields in
              (rmap (fun fields => DObject n fields rest) r, sdl)
          end
      end
    else (Ok d, sdl).
  (** apollo_federation.rs:77-140; [query] is [blueprint.query()], the rest of the blueprint is not touched.  The step is
      traced as "federation" (from_config.rs:55). *)
  Definition update_federation (c : config) (query : string) (defs : list bdef) : valid (list bdef) :=
    traced
      (if match s_federation (c_server c) with Some b => b | None => false end
       then fst (each_left (federation_def c query) (print defs) defs)
       else Ok defs) "federation".
End Federation.
Arguments bdef : clear implicits.
