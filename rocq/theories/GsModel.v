(** What [@grpc] checks against proto files: src/core/blueprint/operators/grpc.rs,
    the schemas of src/core/json/json_schema.rs and src/core/blueprint/from_config.rs. *)
From Coq Require Import String Ascii ZArith Bool List.
From Verif Require Import Base Ordered JsonModel SchemaModel TypeModel ConfigModel BuilderModel PgModel.
Import ListNotations.
Open Scope string_scope.
Open Scope list_scope.

Fixpoint traverse {A B} (f : A -> option B) (l : list A) : option (list B) :=
  match l with
  | [] => Some []
  | a :: l => match f a with None => None | Some b => match traverse f l with None => None | Some bs => Some (b :: bs) end end
  end.

(** ** The pool of descriptors
    [prost_reflect::DescriptorPool], grpc/protobuf.rs:76-91: descriptors by their full names, here with the dot of a
    reference in front.  Map entries have nothing nested. *)
Inductive descriptor : Type := DMessage (m : message) | DEnum (e : penum).
Fixpoint message_pool (scope : string) (m : message) : list (string * descriptor) :=
  let 'Message n entry enums nested _ _ := m in
  let full := (scope ++ "." ++ n)%string in
  (full, DMessage m) :: (if entry then [] else map (fun e => ((full ++ "." ++ pe_name e)%string, DEnum e)) enums ++ flat_map (message_pool full) nested).
Definition file_scope (f : pfile) : string := if String.eqb (pl_package f) "" then "" else ("." ++ pl_package f)%string.
Definition file_pool (f : pfile) : list (string * descriptor) :=
  map (fun e => ((file_scope f ++ "." ++ pe_name e)%string, DEnum e)) (pl_enums f) ++ flat_map (message_pool (file_scope f)) (pl_messages f).
Definition pool (files : list pfile) : list (string * descriptor) := flat_map file_pool files.

Inductive gs_error : Type :=
| InvalidMethod | NoProtoFiles | NoService | NoMethod | NotFound (name : string) | NotAssignable.
(** grpc/protobuf.rs:81-91 *)
Definition find_service (files : list pfile) (name : string) : option pservice :=
  option_map snd (find (fun x => String.eqb (fst x) name)
    (flat_map (fun f => map (fun s => ((if String.eqb (pl_package f) "" then ps_name s else pl_package f ++ "." ++ ps_name s)%string, s)) (pl_services f)) files)).
(** operators/grpc.rs:31-52, grpc/protobuf.rs:114-125 *)
Definition to_operation (files : list pfile) (package service name : string) : result pmethod gs_error :=
  match find_service files (package ++ "." ++ service)%string with
  | None => Err NoService
  | Some s => match find (fun d => String.eqb (pd_name d) name) (ps_methods s) with None => Err NoMethod | Some d => Ok d end
  end.
(** [str::trim_end_matches('/')] *)
Fixpoint trim_slashes (s : string) : string :=
  match s with
  | "" => ""
  | String c t => match trim_slashes t with "" => if Ascii.eqb c "/" then "" else String c "" | t => String c t end
  end.
(** operators/grpc.rs:19-29, the text that is parsed as a template *)
Definition to_url (url package service name : string) : string := (trim_slashes url ++ "/" ++ package ++ "." ++ service ++ "/" ++ name)%string.

Section Proto.
  (** [Casing::to_case(Case::Camel)] of the crate convert_case, and [FieldDescriptor::json_name] *)
  Variable camel : string -> string.
  Variable json : pfield -> string.
  Variable files : list pfile.

  (** ** Schemas of messages: json_schema.rs:242-315
      [None] stands for no result with this much recursion; the pool is not built if a reference leads nowhere, which
      is [None] as well. *)
  (** json_schema.rs:284-299 *)
  Definition scalar_schema (p : primitive) : schema :=
    match p with PBool => SBool | PString | PBytes => SStr | _ => SNum end.
  Definition string_set (l : list string) : list string := fold_left (fun s v => sins scmp v s) l [].
  (** json_schema.rs:269-279 *)
  Definition enum_schema (e : penum) : schema := SEnum (string_set (pe_values e)).
  (** json_schema.rs:281-319; [entry]: the message of a map *)
  Definition field_schema (rec : message -> option schema) (f : pfield) : option schema :=
    let kind := match pf_type_name f with
                | None => Some (scalar_schema (pf_type f), false)
                | Some r => match aget r (pool files) with
                            | Some (DMessage (Message _ entry _ _ _ _ as m)) => option_map (fun s => (s, entry)) (rec m)
                            | Some (DEnum e) => Some (enum_schema e, false)
                            | None => None
                            end
                end in
    option_map (fun se : schema * bool => let (s, entry) := se in
      match pf_label f with
      | LOptional => SOpt s
      | LRequired => s
      | LRepeated => if entry then s else SOpt (SArr s)
      end) kind.
  Definition object_schema (l : list (string * schema)) : schema :=
    match fold_left (fun fs ks => oins scmp (fst ks) (snd ks) fs) l [] with [] => SEmpty | fs => SObj fs end.
  (** json_schema.rs:242-267 *)
  Fixpoint message_schema (fuel : nat) (m : message) : option schema :=
    match fuel with
    | 0 => None
    | S fuel =>
        let 'Message _ entry _ _ _ fields := m in
        if entry then Some SAny
        else option_map object_schema (traverse (fun f => option_map (fun s => (camel (pf_name f), s)) (field_schema (message_schema fuel) f)) fields)
    end.
  (** The message a method refers to. *)
  Definition message_of (r : string) : option message := match aget r (pool files) with Some (DMessage m) => Some m | _ => None end.

  (** ** Schemas of types *)
  Variable c : config.
  (** json_schema.rs:83-92 *)
  Definition from_scalar_type (n : string) : schema :=
    if String.eqb n "String" then SStr else if String.eqb n "Int" then SNum else if String.eqb n "Boolean" then SBool else if String.eqb n "Empty" then SEmpty else SAny.
  (** from_config.rs:83-116 *)
  Fixpoint typ_schema (rec : gtype -> option schema) (t : typ) : option schema :=
    match t with
    | TNamed n non_null =>
        option_map (fun s => if non_null then s else SOpt s)
          (match find_type c n with
           | Some ty => rec ty
           | None => match find_enum c n with Some e => Some (SEnum (string_set (map fst (e_variants e)))) | None => Some (from_scalar_type n) end
           end)
    | TList of_type non_null => option_map (fun s => if non_null then SArr s else SOpt (SArr s)) (typ_schema rec of_type)
    end.
  Fixpoint object_type_schema (fuel : nat) (ty : gtype) : option schema :=
    match fuel with
    | 0 => None
    | S fuel =>
        option_map SObj (traverse (fun kf => option_map (fun s => (fst kf, s)) (typ_schema (object_type_schema fuel) (f_type (snd kf))))
          (filter (fun kf => match f_resolvers (snd kf) with [] => true | _ => false end) (t_fields ty)))
    end.
  Definition to_json_schema (fuel : nat) (t : typ) : option schema := typ_schema (object_type_schema fuel) t.

  (** ** The checks *)
  (** operators/grpc.rs:63-95 *)
  Definition validate_schema (fuel : nat) (d : pmethod) (t : typ) : option (result unit gs_error) :=
    match message_of (pd_input d), message_of (pd_output d) with
    | Some i, Some o =>
        match message_schema fuel i, message_schema fuel o, to_json_schema fuel t with
        | Some _, Some sub, Some super => Some (if is_a sub super then Ok tt else Err NotAssignable)
        | _, _, _ => None
        end
    | _, _ => None
    end.
  Definition by_json_name (m : message) (k : string) : option pfield :=
    let 'Message _ _ _ _ _ fields := m in find (fun f => String.eqb (json f) k) fields.
  (** operators/grpc.rs:97-143: each name but the last is looked up in the answer, and the last of these lookups is kept *)
  Definition validate_group_by (fuel : nat) (d : pmethod) (t : typ) (group_by : list string) : option (result unit gs_error) :=
    match message_of (pd_input d), message_of (pd_output d) with
    | Some i, Some o =>
        let start : result pfield gs_error := Err (NotFound (hd "" group_by)) in
        let field := fold_left (fun _ k => match by_json_name o k with Some f => Ok f | None => Err (NotFound k) end) (removelast group_by) start in
        match message_schema fuel i with
        | None => None
        | Some _ =>
            match field with
            | Err e => Some (Err e)
            | Ok f =>
                match field_schema (message_schema fuel) f, to_json_schema fuel t with
                | Some super, Some s => Some (if is_a (SOpt (SArr s)) super then Ok tt else Err NotAssignable)
                | _, _ => None
                end
            end
        end
    | _, _ => None
    end.

  (** operators/grpc.rs:183-248; what is kept are the url, the method, and whether batches are made.  The templates of
      url, headers and body are taken to be fine, and [select] is left out.  The schemas of the arguments are made and not used. *)
  Record grpc : Type := { g_url : string; g_method : string; g_batch_key : list string }.
  Definition compile_grpc (fuel : nat) (validate : bool) (g : grpc) (t : typ) : option (result (string * pmethod * bool) gs_error) :=
    match grpc_method (g_method g) with
    | None => Some (Err InvalidMethod)
    | Some (package, service, name) =>
        match files with
        | [] => Some (Err NoProtoFiles)
        | _ =>
            match to_operation files package service name with
            | Err e => Some (Err e)
            | Ok d =>
                let done := (to_url (g_url g) package service name, d, match g_batch_key g with [] => false | _ => true end) in
                if validate then
                  option_map (fun r => match r with Ok tt => Ok done | Err e => Err e end)
                    (match g_batch_key g with [] => validate_schema fuel d t | k => validate_group_by fuel d t k end)
                else Some (Ok done)
            end
        end
    end.
End Proto.
