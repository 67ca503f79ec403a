(** Configurations written as GraphQL documents and read from them:
    src/core/config/into_document.rs, src/core/config/from_document.rs,
    src/core/directive.rs, and the interface map of src/core/config/config.rs.
    Source positions of the syntax tree are left out, and so are the traces of errors. *)
From Coq Require Import String Ascii ZArith NArith Bool Arith List.
From Verif Require Import Base Ordered JsonModel TypeModel ConfigModel AmbModel FedModel.
Import ListNotations.
Open Scope string_scope.
Open Scope list_scope.

(** The syntax tree of async_graphql_parser (external crate), as far as it is used. *)
Section Syntax.
(** The arguments of a directive, names and values. *)
Variable Args : Type.
(** [ConstDirective] *)
Record dir := { d_name : string; d_args : Args }.
(** [InputValueDefinition] *)
Record input_value := {
  iv_doc : option string; iv_name : string; iv_type : ptype; iv_default : option string; iv_dirs : list dir }.
(** [FieldDefinition] *)
Record field_def := {
  fd_doc : option string; fd_name : string; fd_args : list input_value; fd_type : ptype; fd_dirs : list dir }.
(** [TypeKind] *)
Inductive kind : Type :=
| KScalar
| KObject (implements : list string) (fields : list field_def)
| KInterface (implements : list string) (fields : list field_def)
| KUnion (members : list string)
| KEnum (values : list (string * list dir))
| KInput (fields : list input_value).
(** [TypeDefinition] *)
Record type_def := { td_doc : option string; td_name : string; td_dirs : list dir; td_kind : kind }.
(** [SchemaDefinition] *)
Record schema_def := {
  sd_dirs : list dir; sd_query : option string; sd_mutation : option string; sd_subscription : option string }.
(** [TypeSystemDefinition]; [DDirective] is a directive definition. *)
Inductive definition : Type :=
| DSchema (s : schema_def)
| DType (t : type_def)
| DDirective.
(** [ServiceDocument] *)
Definition document := list definition.

(** The settings of one directive as arguments and back: the derived [Serialize] and
    [Deserialize] used by src/core/directive.rs:48-85.  serde is an external crate. *)
Record codec (A : Type) := { enc : A -> Args; dec : Args -> valid A }.

(** One codec for each kind of directive.  [k_link] stands for into_document.rs:22-41 on
    the way out (the type of the link is always written).  [k_other] is
    src/core/config/directive.rs:20-44, directives that are kept as they are: their name
    and arguments out of and into the one text of the model; writing never fails, JSON
    values being GraphQL values. *)
Record codecs := {
  k_server : codec server; k_upstream : codec upstream; k_link : codec string; k_telemetry : codec telemetry;
  k_http : codec (list string * string); k_grpc : codec (list string * string); k_graphql : codec (bool * string);
  k_call : codec string; k_js : codec string; k_expr : codec string;
  k_modify : codec modify; k_omit : codec unit; k_cache : codec Z; k_protected : codec protected;
  k_discriminate : codec (option string); k_add_field : codec string; k_alias : codec (list string);
  k_other_name : string -> string; k_other_args : string -> Args; k_other_of : string -> Args -> valid string
}.
End Syntax.
Arguments d_name {Args}. Arguments d_args {Args}.
Arguments iv_doc {Args}. Arguments iv_name {Args}. Arguments iv_type {Args}. Arguments iv_default {Args}. Arguments iv_dirs {Args}.
Arguments fd_doc {Args}. Arguments fd_name {Args}. Arguments fd_args {Args}. Arguments fd_type {Args}. Arguments fd_dirs {Args}.
Arguments KScalar {Args}. Arguments KObject {Args}. Arguments KInterface {Args}. Arguments KUnion {Args}. Arguments KEnum {Args}. Arguments KInput {Args}.
Arguments td_doc {Args}. Arguments td_name {Args}. Arguments td_dirs {Args}. Arguments td_kind {Args}.
Arguments sd_dirs {Args}. Arguments sd_query {Args}. Arguments sd_mutation {Args}. Arguments sd_subscription {Args}.
Arguments DSchema {Args}. Arguments DType {Args}. Arguments DDirective {Args}.
Arguments enc {Args A}. Arguments dec {Args A}.
Arguments k_server {Args}. Arguments k_upstream {Args}. Arguments k_link {Args}. Arguments k_telemetry {Args}.
Arguments k_http {Args}. Arguments k_grpc {Args}. Arguments k_graphql {Args}. Arguments k_call {Args}. Arguments k_js {Args}. Arguments k_expr {Args}.
Arguments k_modify {Args}. Arguments k_omit {Args}. Arguments k_cache {Args}. Arguments k_protected {Args}.
Arguments k_discriminate {Args}. Arguments k_add_field {Args}. Arguments k_alias {Args}.
Arguments k_other_name {Args}. Arguments k_other_args {Args}. Arguments k_other_of {Args}.

Definition to_lower (a : ascii) : ascii :=
  let n := nat_of_ascii a in if (65 <=? n)%nat && (n <=? 90)%nat then ascii_of_nat (n + 32) else a.
Fixpoint to_lowercase (s : string) : string :=
  match s with EmptyString => EmptyString | String a t => String (to_lower a) (to_lowercase t) end.

(** src/core/directive.rs:28-36, on names of Rust types, which are ASCII *)
Definition lower_case_first_letter (s : string) : string :=
  if (String.length s <=? 2)%nat then to_lowercase s
  else match s with String a t => String (to_lower a) t | EmptyString => s end.

(** src/core/directive.rs:39-46, from the name of the Rust type without its path *)
Definition directive_name (rust_type : string) : string := lower_case_first_letter rust_type.

(** src/core/directive.rs:70-85 *)
Definition to_directive {Args A} (rust_type : string) (k : codec Args A) (a : A) : dir Args :=
  {| d_name := directive_name rust_type; d_args := enc k a |}.

(** src/core/directive.rs:17-26: the first directive of that name *)
Fixpoint from_directives {Args A} (rust_type : string) (k : codec Args A) (ds : list (dir Args)) : valid (option A) :=
  match ds with
  | [] => Ok None
  | d :: t =>
      if String.eqb (d_name d) (directive_name rust_type) then rmap Some (dec k (d_args d))
      else from_directives rust_type k t
  end.

(** src/core/config/directives/federation.rs:9-29 *)
Definition FEDERATION_DIRECTIVES : list string :=
  ["authenticated"; "context"; "cost"; "fromContext"; "link"; "key"; "tag"; "shareable"; "inaccessible"; "override";
   "extends"; "external"; "provides"; "requires"; "requiresScope"; "composeDirective"; "interfaceObject"; "listSize"; "policy"].

(** src/core/config/config.rs:505-516: who implements an interface *)
Definition implementors (c : config) : list (string * list string) :=
  fold_left (fun acc kt =>
    fold_left (fun acc i =>
      let s := match oget scmp i acc with Some s => s | None => [] end in
      oins scmp i (sins scmp (fst kt) s) acc)
      (t_implements (snd kt)) acc)
    (c_types c) [].

(** src/core/config/config.rs:518-548, with the map of results threaded through.
    [None]: the recursion has not ended within [fuel] calls. *)
Fixpoint interface_merging (fuel : nat) (impls : list (string * list string))
  (set : list string) (temp : list (string * list string)) : option (list string * list (string * list string)) :=
  match fuel with
  | O => None
  | S fuel =>
      fold_opt (fun st n =>
        match oget scmp n impls, oget scmp n (snd st) with
        | Some inner, None =>
            match interface_merging fuel impls inner (snd st) with
            | Some (inner', temp') => Some (sextend scmp (fst st) inner', oins scmp n inner' temp')
            | None => None
            end
        | Some _, Some inner => Some (sextend scmp (fst st) inner, snd st)
        | None, _ => Some (sins scmp n (fst st), snd st)
        end) set ([], temp)
  end.

(** src/core/config/config.rs:505-562 *)
Definition interfaces_types_map (fuel : nat) (c : config) : option (list (string * list string)) :=
  let impls := implementors c in
  option_map fst
    (fold_opt (fun st is =>
       match interface_merging fuel impls (snd is) (snd st) with
       | Some (s, temp) => Some (oins scmp (fst is) s (fst st), temp)
       | None => None
       end) impls ([], [])).

Section Codecs.
  Context {Args : Type}.
  Variable K : codecs Args.
  Notation dir := (dir Args).
  Notation input_value := (input_value Args).
  Notation field_def := (field_def Args).
  Notation kind := (kind Args).
  Notation type_def := (type_def Args).
  Notation schema_def := (schema_def Args).
  Notation document := (document Args).
  Notation codec := (codec Args).

  (** tailcall-macros/src/resolver.rs:69-79 on src/core/config/resolver.rs:31-41: resolvers
      of federation have no directive *)
  Definition resolver_directive (r : resolver) : option dir :=
    match r with
    | RHttp b t => Some (to_directive "Http" (k_http K) (b, t))
    | RGrpc b t => Some (to_directive "Grpc" (k_grpc K) (b, t))
    | RGraphql b t => Some (to_directive "GraphQL" (k_graphql K) (b, t))
    | RCall t => Some (to_directive "Call" (k_call K) t)
    | RJs t => Some (to_directive "JS" (k_js K) t)
    | RExpr t => Some (to_directive "Expr" (k_expr K) t)
    | REntity _ | RService => None
    end.

  (** tailcall-macros/src/resolver.rs:57-67 *)
  Definition resolver_of (d : dir) : valid (option resolver) :=
    if String.eqb (directive_name "Http") (d_name d) then rmap (fun x => Some (RHttp (fst x) (snd x))) (dec (k_http K) (d_args d))
    else if String.eqb (directive_name "Grpc") (d_name d) then rmap (fun x => Some (RGrpc (fst x) (snd x))) (dec (k_grpc K) (d_args d))
    else if String.eqb (directive_name "GraphQL") (d_name d) then rmap (fun x => Some (RGraphql (fst x) (snd x))) (dec (k_graphql K) (d_args d))
    else if String.eqb (directive_name "Call") (d_name d) then rmap (fun x => Some (RCall x)) (dec (k_call K) (d_args d))
    else if String.eqb (directive_name "JS") (d_name d) then rmap (fun x => Some (RJs x)) (dec (k_js K) (d_args d))
    else if String.eqb (directive_name "Expr") (d_name d) then rmap (fun x => Some (RExpr x)) (dec (k_expr K) (d_args d))
    else Ok None.

  (** tailcall-macros/src/resolver.rs:95-106 *)
  Definition resolvers_of (ds : list dir) : valid (list resolver) :=
    rmap (flat_map opt_list) (viter resolver_of ds).

  (** src/core/config/into_document.rs:206-213 *)
  Definition into_directives (ds : list string) : list dir :=
    map (fun d => {| d_name := k_other_name K d; d_args := k_other_args K d |}) ds.

  (** src/core/config/into_document.rs:215-226 *)
  Definition field_directives (f : field) : list dir :=
    flat_map (fun r => opt_list (resolver_directive r)) (f_resolvers f) ++
    opt_list (option_map (to_directive "Modify" (k_modify K)) (f_modify f)) ++
    (if f_omit f then [to_directive "Omit" (k_omit K) tt] else []) ++
    opt_list (option_map (to_directive "Cache" (k_cache K)) (f_cache f)) ++
    opt_list (option_map (to_directive "Protected" (k_protected K)) (f_protected f)) ++
    into_directives (f_directives f).

  (** src/core/config/into_document.rs:228-253 *)
  Definition type_directives (t : gtype) : list dir :=
    map (to_directive "AddField" (k_add_field K)) (t_added t) ++
    opt_list (option_map (to_directive "Cache" (k_cache K)) (t_cache t)) ++
    opt_list (option_map (to_directive "Protected" (k_protected K)) (t_protected t)) ++
    flat_map (fun r => opt_list (resolver_directive r)) (t_resolvers t) ++
    into_directives (t_directives t).

  (** src/core/config/into_document.rs:73-83 *)
  Definition interface_field (nf : string * field) : field_def :=
    {| fd_doc := f_doc (snd nf); fd_name := fst nf; fd_args := []; fd_type := to_parser (f_type (snd nf));
       fd_dirs := field_directives (snd nf) |}.

  (** src/core/config/into_document.rs:91-103.  Default values keep their text: JSON is
      GraphQL (11-13). *)
  Definition input_field (nf : string * field) : input_value :=
    {| iv_doc := f_doc (snd nf); iv_name := fst nf; iv_type := to_parser (f_type (snd nf));
       iv_default := f_default (snd nf); iv_dirs := field_directives (snd nf) |}.

  (** src/core/config/into_document.rs:125-137 *)
  Definition argument (na : string * arg) : input_value :=
    {| iv_doc := arg_doc (snd na); iv_name := fst na; iv_type := to_parser (arg_type (snd na));
       iv_default := arg_default (snd na); iv_dirs := [] |}.

  (** src/core/config/into_document.rs:118-147 *)
  Definition object_field (nf : string * field) : field_def :=
    {| fd_doc := f_doc (snd nf); fd_name := fst nf; fd_args := map argument (f_args (snd nf));
       fd_type := to_parser (f_type (snd nf)); fd_dirs := field_directives (snd nf) |}.

  (** src/core/config/into_document.rs:62-150 *)
  Definition kind_of (interfaces inputs : list string) (n : string) (t : gtype) : kind :=
    if smem n interfaces then KInterface (t_implements t) (map interface_field (t_fields t))
    else if smem n inputs then KInput (map input_field (t_fields t))
    else match t_fields t with
         | [] => KScalar
         | _ => KObject (t_implements t) (map object_field (t_fields t))
         end.

  (** src/core/config/into_document.rs:61-161 *)
  Definition type_definition (interfaces inputs : list string) (nt : string * gtype) : type_def :=
    {| td_doc := t_doc (snd nt); td_name := fst nt; td_dirs := type_directives (snd nt);
       td_kind := kind_of interfaces inputs (fst nt) (snd nt) |}.

  (** src/core/config/into_document.rs:162-176 *)
  Definition union_definition (nu : string * gunion) : type_def :=
    {| td_doc := None; td_name := fst nu; td_dirs := []; td_kind := KUnion (u_types (snd nu)) |}.

  (** src/core/config/into_document.rs:188-197 *)
  Definition enum_value (v : variant) : string * list dir :=
    (fst v, match snd v with Some a => [to_directive "Alias" (k_alias K) a] | None => [] end).
  (** src/core/config/into_document.rs:178-201 *)
  Definition enum_definition (ne : string * genum) : type_def :=
    {| td_doc := e_doc (snd ne); td_name := fst ne; td_dirs := []; td_kind := KEnum (map enum_value (e_variants (snd ne))) |}.

  (** src/core/config/into_document.rs:17-57 *)
  Definition schema_of (c : config) : schema_def :=
    {| sd_dirs := to_directive "Server" (k_server K) (c_server c) ::
                  to_directive "Upstream" (k_upstream K) (c_upstream c) ::
                  map (to_directive "Link" (k_link K)) (c_links c);
       sd_query := r_query (c_schema c); sd_mutation := r_mutation (c_schema c);
       sd_subscription := r_subscription (c_schema c) |}.

  (** src/core/config/into_document.rs:15-204.  [None]: one of the two walks has not ended
      within [fuel] calls. *)
  Definition config_document (fuel : nat) (c : config) : option document :=
    match interfaces_types_map fuel c, input_types fuel c with
    | Some interfaces, Some inputs =>
        Some (DSchema (schema_of c) ::
              map (fun nt => DType (type_definition (map fst interfaces) inputs nt)) (c_types c) ++
              map (fun nu => DType (union_definition nu)) (c_unions c) ++
              map (fun ne => DType (enum_definition ne)) (c_enums c))
    | _, _ => None
    end.

  (** src/core/config/from_document.rs:31-38 *)
  Definition type_definitions (doc : document) : list type_def :=
    flat_map (fun d => match d with DType t => [t] | _ => [] end) doc.

  (** src/core/config/from_document.rs:22-28 and 64-72 *)
  Definition default_schema : schema_def := {| sd_dirs := []; sd_query := None; sd_mutation := None; sd_subscription := None |}.
  Fixpoint schema_definition (doc : document) : schema_def :=
    match doc with
    | [] => default_schema
    | DSchema s :: _ => s
    | _ :: t => schema_definition t
    end.

  (** src/core/config/from_document.rs:74-85: the last directive of that name *)
  Definition schema_directive {A} (rust_type : string) (k : codec A) (default : A) (s : schema_def) : valid A :=
    fold_left (fun res d => if String.eqb (d_name d) (directive_name rust_type) then dec k (d_args d) else res) (sd_dirs s) (Ok default).

  (** src/core/config/from_document.rs:87-104 *)
  Definition schema_multiple {A} (rust_type : string) (k : codec A) (s : schema_def) : valid (list A) :=
    viter (fun d => dec k (d_args d)) (filter (fun d => String.eqb (d_name d) (directive_name rust_type)) (sd_dirs s)).

  (** src/core/config/from_document.rs:128-137 *)
  Definition to_root_schema (s : schema_def) : root_schema :=
    {| r_query := sd_query s; r_mutation := sd_mutation s; r_subscription := sd_subscription s |}.

  (** src/core/config/from_document.rs:434-448 *)
  Definition to_federation_directives (ds : list dir) : valid (list string) :=
    rmap (flat_map opt_list)
      (viter (fun d => if smem (d_name d) FEDERATION_DIRECTIVES then rmap Some (k_other_of K (d_name d) (d_args d)) else Ok None) ds).

  (** src/core/config/from_document.rs:420-432 *)
  Definition to_add_fields (ds : list dir) : valid (list string) :=
    viter (fun d => dec (k_add_field K) (d_args d)) (filter (fun d => String.eqb (d_name d) (directive_name "AddField")) ds).

  (** src/core/config/from_document.rs:374-391 *)
  Definition to_arg (iv : input_value) : arg :=
    {| arg_type := of_parser (iv_type iv); arg_doc := iv_doc iv;
       arg_modify := match from_directives "Modify" (k_modify K) (iv_dirs iv) with Ok m => m | Err _ => None end;
       arg_default := iv_default iv |}.
  (** src/core/config/from_document.rs:363-373 *)
  Definition to_args (ivs : list input_value) : list (string * arg) :=
    fold_left (fun acc iv => aset (iv_name iv) (to_arg iv) acc) ivs [].

  (** src/core/config/from_document.rs:310-361.  Default values keep their text. *)
  Definition to_common_field (ty : ptype) (doc : option string) (ds : list dir) (args : list (string * arg)) (default : option string) : valid field :=
    rmap (fun r =>
      match r with
      | (((((((resolvers, cache), omit), modify), protected), discriminate)), directives) =>
          {| f_type := of_parser ty; f_args := args; f_doc := doc; f_modify := modify;
             f_omit := match omit with Some _ => true | None => false end;
             f_cache := cache; f_default := default; f_protected := protected; f_discriminate := discriminate;
             f_resolvers := resolvers; f_directives := directives |}
      end)
      (vfuse (vfuse (vfuse (vfuse (vfuse (vfuse (resolvers_of ds)
        (from_directives "Cache" (k_cache K) ds))
        (from_directives "Omit" (k_omit K) ds))
        (from_directives "Modify" (k_modify K) ds))
        (from_directives "Protected" (k_protected K) ds))
        (from_directives "Discriminate" (k_discriminate K) ds))
        (to_federation_directives ds)).

  (** src/core/config/from_document.rs:297-299 *)
  Definition to_field (fd : field_def) : valid field :=
    to_common_field (fd_type fd) (fd_doc fd) (fd_dirs fd) (to_args (fd_args fd)) None.
  (** src/core/config/from_document.rs:300-309 *)
  Definition to_input_field (iv : input_value) : valid field :=
    to_common_field (iv_type iv) (iv_doc iv) (iv_dirs iv) [] (iv_default iv).

  (** src/core/config/from_document.rs:273-296 *)
  Definition to_fields_inner {T} (name : T -> string) (transform : T -> valid field) (fs : list T) : valid (list (string * field)) :=
    rmap (omap_of scmp) (viter (fun f => rmap (fun x => (name f, x)) (transform f)) fs).

  (** Collecting into a [BTreeSet]. *)
  Definition set_of {A} (cmp : A -> A -> comparison) (l : list A) : list A := sextend cmp [] l.

  (** src/core/config/from_document.rs:226-259 *)
  Definition to_object_type (implements : list string) (fields : list field_def) (doc : option string) (ds : list dir) : valid gtype :=
    rmap (fun r =>
      match r with
      | (((((resolvers, cache), fields), protected), added), directives) =>
          {| t_fields := fields; t_added := added; t_doc := doc; t_implements := set_of scmp implements;
             t_cache := cache; t_protected := protected; t_resolvers := resolvers; t_directives := directives |}
      end)
      (vfuse (vfuse (vfuse (vfuse (vfuse (resolvers_of ds)
        (from_directives "Cache" (k_cache K) ds))
        (to_fields_inner fd_name to_field fields))
        (from_directives "Protected" (k_protected K) ds))
        (to_add_fields ds))
        (to_federation_directives ds)).

  (** src/core/config/from_document.rs:260-271 *)
  Definition to_input_object (fields : list input_value) (doc : option string) (ds : list dir) : valid gtype :=
    rmap (fun r =>
      {| t_fields := fst r; t_added := []; t_doc := doc; t_implements := []; t_cache := None;
         t_protected := snd r; t_resolvers := []; t_directives := [] |})
      (vfuse (to_fields_inner iv_name to_input_field fields) (from_directives "Protected" (k_protected K) ds)).

  (** src/core/config/from_document.rs:146-171, 181-183 *)
  Definition to_type (td : type_def) : valid (option gtype) :=
    match td_kind td with
    | KObject implements fields => rmap Some (to_object_type implements fields (td_doc td) (td_dirs td))
    | KInterface implements fields => rmap Some (to_object_type implements fields (td_doc td) (td_dirs td))
    | KEnum _ => Ok None
    | KInput fields => rmap Some (to_input_object fields (td_doc td) (td_dirs td))
    | KUnion _ => Ok None
    | KScalar => Ok (Some empty_gtype)
    end.
  (** The end of src/core/config/from_document.rs:141-180, 184-203 and 205-224: definitions
      of another kind are left out, the others collected by name. *)
  Definition collected {A} (f : type_def -> valid (option A)) (tds : list type_def) : valid (list (string * A)) :=
    rmap (fun l => omap_of scmp (flat_map opt_list l))
      (viter (fun td => rmap (option_map (fun a => (td_name td, a))) (f td)) tds).
  (** src/core/config/from_document.rs:141-180 *)
  Definition to_types (tds : list type_def) : valid (list (string * gtype)) := collected to_type tds.

  (** src/core/config/from_document.rs:393-401 *)
  Definition to_union (td : type_def) : valid (option gunion) :=
    match td_kind td with
    | KUnion members => Ok (Some {| u_types := set_of scmp members; u_doc := td_doc td |})
    | _ => Ok None
    end.
  (** src/core/config/from_document.rs:184-203 *)
  Definition to_union_types (tds : list type_def) : valid (list (string * gunion)) := collected to_union tds.

  (** src/core/config/from_document.rs:404-416 *)
  Definition to_variant (v : string * list dir) : valid variant :=
    rmap (fun a => (fst v, a)) (from_directives "Alias" (k_alias K) (snd v)).
  (** src/core/config/from_document.rs:403-418 *)
  Definition to_enum (td : type_def) : valid (option genum) :=
    match td_kind td with
    | KEnum values => rmap (fun vs => Some {| e_variants := set_of vcmp vs; e_doc := td_doc td |}) (viter to_variant values)
    | _ => Ok None
    end.
  (** src/core/config/from_document.rs:205-224 *)
  Definition to_enum_types (tds : list type_def) : valid (list (string * genum)) := collected to_enum tds.

  (** src/core/config/from_document.rs:30-62 *)
  Definition from_document (doc : document) : valid config :=
    let tds := type_definitions doc in
    let sd := schema_definition doc in
    rmap (fun r =>
      match r with
      | ((((((server, upstream), types), unions), enums), links), telemetry) =>
          {| c_server := server; c_upstream := upstream; c_schema := to_root_schema sd; c_types := types;
             c_unions := unions; c_enums := enums; c_links := links; c_telemetry := telemetry |}
      end)
      (vfuse (vfuse (vfuse (vfuse (vfuse (vfuse (schema_directive "Server" (k_server K) empty_server sd)
        (schema_directive "Upstream" (k_upstream K) empty_upstream sd))
        (to_types tds))
        (to_union_types tds))
        (to_enum_types tds))
        (schema_multiple "Link" (k_link K) sd))
        (schema_directive "Telemetry" (k_telemetry K) empty_telemetry sd)).
End Codecs.
