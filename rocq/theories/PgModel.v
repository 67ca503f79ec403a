(** The configuration generated from proto files: src/core/generator/from_proto.rs and
    src/core/generator/graphql_type.rs, src/core/generator/proto/. *)
From Coq Require Import String Ascii ZArith NArith Bool Arith List.
From Verif Require Import Base Ordered JsonModel TypeModel ConfigModel BuilderModel UrlModel OpGenModel.
Import ListNotations.
Open Scope string_scope.
Open Scope list_scope.

(** ** Descriptors: the parts of prost's descriptor types that the code reads *)
Inductive label : Type := LOptional | LRequired | LRepeated.
(** The types that are not named; groups, messages and enums always have a type name. *)
Inductive primitive : Type :=
| PDouble | PFloat | PInt64 | PUInt64 | PInt32 | PFixed64 | PFixed32 | PBool | PString | PBytes | PUInt32 | PSFixed32 | PSFixed64 | PSInt32 | PSInt64.
Record pfield : Type := { pf_name : string; pf_label : label; pf_type : primitive; pf_type_name : option string; pf_oneof : option nat }.
Record penum : Type := { pe_name : string; pe_values : list string }.
(** [pm_oneofs]: the number of oneof declarations. *)
Inductive message : Type :=
| Message (name : string) (map_entry : bool) (enums : list penum) (nested : list message) (oneofs : nat) (fields : list pfield).
Record pmethod : Type := { pd_name : string; pd_input : string; pd_output : string }.
Record pservice : Type := { ps_name : string; ps_methods : list pmethod }.
(** [pl_comments]: what proto/comments_builder.rs:12-28 finds in the source code info, if there is one. *)
Record pfile : Type := {
  pl_package : string; pl_enums : list penum; pl_messages : list message; pl_services : list pservice;
  pl_comments : option (list nat -> option string) }.

(** A reference that is not fully qualified, or a text or list that is indexed where it has nothing. *)
Inductive pg_error : Type := NotQualified (name : string) | Panic.

(** ** Names: graphql_type.rs *)
(** graphql_type.rs:10-12 *)
Fixpoint normalize_name (s : string) : string :=
  match s with "" => "" | String c t => String (if Ascii.eqb c "." then "_"%char else c) (normalize_name t) end.
(** graphql_type.rs:27-31; the entity is given by the function that writes the name. *)
Record gname : Type := { gn_space : list string; gn_name : string }.
(** graphql_type.rs:85-102 *)
Definition gparse (head : string) (tail : list string) : gname :=
  {| gn_space := filter (fun a => negb (String.eqb a "")) (map trim (flat_map (split_on ".") tail)); gn_name := normalize_name head |}.
(** graphql_type.rs:50-52, 126-135 *)
Definition gid (g : gname) : string :=
  match gn_space g with [] => gn_name g | sp => (String.concat "." sp ++ "." ++ gn_name g)%string end.
(** graphql_type.rs:62-66 *)
Definition gspaced (g : gname) : string :=
  match gn_space g with [] => gn_name g | sp => (String.concat "__" sp ++ "__" ++ gn_name g)%string end.
(** graphql_type.rs:149-178: methods; enums and objects *)
Definition method_text (g : gname) : string := ("GEN__" ++ gspaced g)%string.
Definition object_text (g : gname) : string := ((if is_predefined (gn_name g) then "" else "GEN__") ++ gspaced g)%string.

(** from_proto.rs:396-408 *)
Definition graphql_type_from_ref (name : string) : result gname pg_error :=
  match name with
  | String "." name =>
      match rev (split_on "." name) with
      | last :: ((_ :: _) as before) => Ok (gparse last [String.concat "." (rev before)])
      | _ => Ok (gparse name [])
      end
  | _ => Err (NotQualified name)
  end.
(** from_proto.rs:410-431 *)
Definition convert_primitive_type (p : primitive) : string :=
  match p with
  | PDouble | PFloat => "Float"
  | PInt32 | PSInt32 | PFixed32 | PSFixed32 => "Int"
  | PInt64 | PSInt64 | PFixed64 | PSFixed64 => "Int64"
  | PUInt32 => "UInt32"
  | PUInt64 => "UInt64"
  | PBool => "Boolean"
  | PString => "String"
  | PBytes => "Bytes"
  end.
(** from_proto.rs:433-445 *)
Definition get_output_type (o : string) : result gname pg_error :=
  if String.eqb o ".google.protobuf.Empty" then Ok (gparse "Empty" []) else graphql_type_from_ref o.
(** from_proto.rs:447-452 *)
Definition get_input_type (i : string) : result (option gname) pg_error :=
  if String.eqb i ".google.protobuf.Empty" || String.eqb i "" then Ok None
  else match graphql_type_from_ref i with Ok g => Ok (Some g) | Err e => Err e end.

(** ** The configuration that is built *)
(** The parts of [Config] that are set; the others have their defaults.  from_proto.rs:24-41; the query
    name is a parameter. *)
Record context : Type := {
  x_namespace : list string;
  x_types : list (string * gtype); x_unions : list (string * gunion); x_enums : list (string * genum); x_root : option string;
  x_maps : list string;
  x_comments : option (list nat -> option string) }.
Definition with_namespace (ns : list string) (x : context) : context :=
  {| x_namespace := ns; x_types := x_types x; x_unions := x_unions x; x_enums := x_enums x; x_root := x_root x; x_maps := x_maps x; x_comments := x_comments x |}.
Definition with_types (ts : list (string * gtype)) (x : context) : context :=
  {| x_namespace := x_namespace x; x_types := ts; x_unions := x_unions x; x_enums := x_enums x; x_root := x_root x; x_maps := x_maps x; x_comments := x_comments x |}.
Definition with_unions (us : list (string * gunion)) (x : context) : context :=
  {| x_namespace := x_namespace x; x_types := x_types x; x_unions := us; x_enums := x_enums x; x_root := x_root x; x_maps := x_maps x; x_comments := x_comments x |}.
Definition with_enums (es : list (string * genum)) (x : context) : context :=
  {| x_namespace := x_namespace x; x_types := x_types x; x_unions := x_unions x; x_enums := es; x_root := x_root x; x_maps := x_maps x; x_comments := x_comments x |}.
Definition with_map (m : string) (x : context) : context :=
  {| x_namespace := x_namespace x; x_types := x_types x; x_unions := x_unions x; x_enums := x_enums x; x_root := x_root x; x_maps := m :: x_maps x; x_comments := x_comments x |}.
Definition with_root (r : option string) (x : context) : context :=
  {| x_namespace := x_namespace x; x_types := x_types x; x_unions := x_unions x; x_enums := x_enums x; x_root := r; x_maps := x_maps x; x_comments := x_comments x |}.
Definition with_comments (c : option (list nat -> option string)) (x : context) : context :=
  {| x_namespace := x_namespace x; x_types := x_types x; x_unions := x_unions x; x_enums := x_enums x; x_root := x_root x; x_maps := x_maps x; x_comments := c |}.
(** proto/comments_builder.rs:12-28 *)
Definition get_comments (x : context) (path : list nat) : option string := match x_comments x with Some f => f path | None => None end.

(** [Field::default()], [Type::default()] of the configuration with some parts set *)
Definition plain_field (t : typ) (args : list (string * ConfigModel.arg)) (doc : option string) (rs : list resolver) : field :=
  {| f_type := t; f_args := args; f_doc := doc; f_modify := None; f_omit := false; f_cache := None; f_default := None; f_protected := None;
     f_discriminate := None; f_resolvers := rs; f_directives := [] |}.
Definition plain_type (fs : list (string * field)) (doc : option string) (implements : list string) : gtype :=
  {| t_fields := fs; t_added := []; t_doc := doc; t_implements := implements; t_cache := None; t_protected := None; t_resolvers := []; t_directives := [] |}.
Definition insert_field (n : string) (f : field) (t : gtype) : gtype :=
  {| t_fields := oins scmp n f (t_fields t); t_added := t_added t; t_doc := t_doc t; t_implements := t_implements t; t_cache := t_cache t;
     t_protected := t_protected t; t_resolvers := t_resolvers t; t_directives := t_directives t |}.
Definition insert_interface (n : string) (t : gtype) : gtype :=
  {| t_fields := t_fields t; t_added := t_added t; t_doc := t_doc t; t_implements := sins scmp n (t_implements t); t_cache := t_cache t;
     t_protected := t_protected t; t_resolvers := t_resolvers t; t_directives := t_directives t |}.
Definition require_field (f : field) : field :=
  {| f_type := into_required (f_type f); f_args := f_args f; f_doc := f_doc f; f_modify := f_modify f; f_omit := f_omit f; f_cache := f_cache f;
     f_default := f_default f; f_protected := f_protected f; f_discriminate := f_discriminate f; f_resolvers := f_resolvers f; f_directives := f_directives f |}.

Fixpoint indexed {A} (i : nat) (l : list A) : list (nat * A) :=
  match l with [] => [] | a :: l => (i, a) :: indexed (S i) l end.

(** from_proto.rs:71-121 *)
Fixpoint collect_types (type_name : string) (base : gtype) (oneofs : list (list (string * field))) : list (string * gtype) :=
  match oneofs with
  | [] => [(type_name, base)]
  | one_of :: oneofs =>
      match one_of with
      | [(n, f)] => collect_types (type_name ++ "__Var")%string (insert_field n f base) oneofs
      | _ =>
          collect_types (type_name ++ "__Var")%string base oneofs ++
          flat_map (fun inf => collect_types (type_name ++ "__Var" ++ nat_to_string (fst inf))%string
                      (insert_field (fst (snd inf)) (require_field (snd (snd inf))) base) oneofs) (indexed 0 one_of)
      end
  end.
(** from_proto.rs:59-62 *)
Definition insert_type (n : string) (t : gtype) (x : context) : context := with_types (oins scmp n t (x_types x)) x.
(** from_proto.rs:64-159 *)
Definition insert_oneofs (type_name : string) (base : gtype) (oneofs : list (list (string * field))) (x : context) : context :=
  match collect_types type_name base oneofs with
  | [(_, t)] => insert_type type_name t x
  | types =>
      let interface := (type_name ++ "__Interface")%string in
      let x := fold_left (fun x nt => insert_type (fst nt) (insert_interface interface (snd nt)) x) types x in
      let members := fold_left (fun l nt => sins scmp (fst nt) l) types [] in
      let x := insert_type interface base x in
      with_unions (oins scmp type_name {| u_types := members; u_doc := None |} (x_unions x)) x
  end.

Definition nl : string := String (ascii_of_nat 10) "".
(** from_proto.rs:177-204 *)
Definition enum_variant (x : context) (path : list nat) (iv : nat * string) : string :=
  let name := normalize_name (snd iv) in
  match get_comments x (path ++ [2; fst iv]) with
  | Some comment => ("""""" ++ nl ++ "  " ++ comment ++ nl ++ "  """"" ++ nl ++ "  " ++ name)%string
  | None => name
  end.
Definition append_enum (parent : list nat) (number : nat) (x : context) (ie : nat * penum) : context :=
  let path := parent ++ [number; fst ie] in
  let variants := fold_left (fun l v => sins scmp v l) (map (enum_variant x path) (indexed 0 (pe_values (snd ie)))) [] in
  with_enums (oins scmp (object_text (gparse (pe_name (snd ie)) (x_namespace x)))
    {| e_variants := map (fun v => (v, None)) variants; e_doc := get_comments x path |} (x_enums x)) x.
(** from_proto.rs:161-219; the path of a nested enum has another number than that of an enum of a file
    (proto/path_field.rs:14-23) *)
Definition append_enums (enums : list penum) (parent : list nat) (number : nat) (x : context) : context :=
  fold_left (append_enum parent number) (indexed 0 enums) x.

Section Generate.
  (** [to_case(Case::Camel)] of the crate [convert_case] *)
  Variable camel : string -> string.
  (** The other settings of an [@grpc], as one text: URL, body and method *)
  Variable grpc_text : string -> option string -> string -> string.

  (** from_proto.rs:272-298 *)
  Definition field_type (maps : list string) (f : pfield) : result typ pg_error :=
    let t := match pf_label f with LOptional => TNamed "JSON" false | LRequired => into_required (TNamed "JSON" false) | LRepeated => into_list (TNamed "JSON" false) end in
    match pf_type_name f with
    | Some "" => Err Panic
    | Some (String a rest as r) =>
        if smem rest maps then Ok (TNamed "JSON" false)
        else match graphql_type_from_ref r with Ok g => Ok (with_name (object_text g) t) | Err e => Err e end
    | None => Ok (with_name (convert_primitive_type (pf_type f)) t)
    end.
  Definition push_at (i : nat) (nf : string * field) (l : list (list (string * field))) : list (list (string * field)) :=
    map (fun jg => if Nat.eqb (fst jg) i then snd jg ++ [nf] else snd jg) (indexed 0 l).
  (** from_proto.rs:264-311; the type and the fields of the oneofs *)
  Fixpoint append_fields (x : context) (path : list nat) (fields : list (nat * pfield)) (t : gtype) (oneofs : list (list (string * field))) :
      result (gtype * list (list (string * field))) pg_error :=
    match fields with
    | [] => Ok (t, oneofs)
    | (i, f) :: fields =>
        match field_type (x_maps x) f with
        | Err e => Err e
        | Ok ty =>
            let n := camel (gn_name (gparse (pf_name f) (x_namespace x))) in
            let cf := plain_field ty [] (get_comments x (path ++ [2; i])) [] in
            match pf_oneof f with
            | Some o => if Nat.ltb o (length oneofs) then append_fields x path fields t (push_at o (n, cf) oneofs) else Err Panic
            | None => append_fields x path fields (insert_field n cf t) oneofs
            end
        end
    end.

  (** from_proto.rs:221-321, for one message *)
  Fixpoint append_message (path : list nat) (m : message) (x : context) {struct m} : result context pg_error :=
    match m with
    | Message name map_entry enums nested oneofs fields =>
        let msg_type := gparse name (x_namespace x) in
        if map_entry then Ok (with_map (gid msg_type) x)
        else
          let x := append_enums enums path 4 (with_namespace (x_namespace x ++ [name]) x) in
          match (fix go (i : nat) (l : list message) (x : context) : result context pg_error :=
                   match l with
                   | [] => Ok x
                   | m :: l => match append_message (path ++ [3; i]) m x with Ok x => go (S i) l x | Err e => Err e end
                   end) 0 nested x with
          | Err e => Err e
          | Ok x =>
              let x := with_namespace (removelast (x_namespace x)) x in
              match append_fields x path (indexed 0 fields) (plain_type [] (get_comments x path) []) (repeat [] oneofs) with
              | Err e => Err e
              | Ok (t, groups) =>
                  Ok (match oneofs with O => insert_type (object_text msg_type) t x | S _ => insert_oneofs (object_text msg_type) t groups x end)
              end
          end
    end.
  Fixpoint append_messages (path : list nat) (i : nat) (l : list message) (x : context) : result context pg_error :=
    match l with
    | [] => Ok x
    | m :: l => match append_message (path ++ [4; i]) m x with Ok x => append_messages path (S i) l x | Err e => Err e end
    end.

  (** from_proto.rs:339-391 *)
  Definition append_method (query url : string) (service : string) (path : list nat) (im : nat * pmethod) (x : context) : result context pg_error :=
    let m := snd im in
    let field_name := gparse (pd_name m) (x_namespace x ++ [service]) in
    match get_input_type (pd_input m), get_output_type (pd_output m) with
    | Err e, _ => Err e
    | _, Err e => Err e
    | Ok input, Ok output =>
        let '(args, body) :=
          match input with
          | Some g =>
              let key := camel (gn_name g) in
              ([(key, {| arg_type := TNamed (object_text g) true; arg_doc := None; arg_modify := None; arg_default := None |})],
               Some ("{{.args." ++ key ++ "}}")%string)
          | None => ([], None)
          end in
        let f := plain_field (TNamed (object_text output) false) args (get_comments x (path ++ [2; fst im])) [RGrpc [] (grpc_text url body (gid field_name))] in
        let '(t, x) :=
          match oget scmp query (x_types x) with
          | Some t => (t, x)
          | None => (plain_type [] None [], with_root (Some query) x)
          end in
        Ok (insert_type query (insert_field (method_text field_name) f t) x)
    end.
  (** from_proto.rs:323-394 *)
  Fixpoint append_methods (query url service : string) (path : list nat) (l : list (nat * pmethod)) (x : context) : result context pg_error :=
    match l with
    | [] => Ok x
    | im :: l => match append_method query url service path im x with Ok x => append_methods query url service path l x | Err e => Err e end
    end.
  Fixpoint append_services (query url : string) (l : list (nat * pservice)) (x : context) : result context pg_error :=
    match l with
    | [] => Ok x
    | (i, s) :: l => match append_methods query url (ps_name s) [6; i] (indexed 0 (ps_methods s)) x with Ok x => append_services query url l x | Err e => Err e end
    end.

  (** from_proto.rs:458-474: one file.  The comments of the file before are kept if it has none. *)
  Definition append_file (query url : string) (f : pfile) (x : context) : result context pg_error :=
    let x := with_namespace [pl_package f] x in
    let x := match pl_comments f with Some c => with_comments (Some c) x | None => x end in
    match append_messages [] 0 (pl_messages f) (append_enums (pl_enums f) [] 5 x) with
    | Ok x => append_services query url (indexed 0 (pl_services f)) x
    | Err e => Err e
    end.
  Fixpoint append_files (query url : string) (l : list pfile) (x : context) : result context pg_error :=
    match l with
    | [] => Ok x
    | f :: l => match append_file query url f x with Ok x => append_files query url l x | Err e => Err e end
    end.
  (** from_proto.rs:455-475, before ambiguous types are told apart (C36) and what is not used is removed
      (C23); [files] are those of all descriptor sets in turn. *)
  Definition from_proto (query url : string) (files : list pfile) : result context pg_error :=
    append_files query url files {| x_namespace := []; x_types := []; x_unions := []; x_enums := []; x_root := None; x_maps := []; x_comments := None |}.
End Generate.

(** blueprint/operators/grpc.rs:161-181: package, service and name of the method of an [@grpc]; [rsplitn(3, '.')]
    cuts at the last two dots *)
Definition grpc_method (s : string) : option (string * string * string) :=
  match rev (split_on "." s) with
  | name :: service :: ((_ :: _) as before) => Some (String.concat "." (rev before), service, name)
  | _ => None
  end.
