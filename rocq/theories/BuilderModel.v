(** Query documents, the schema index and the builder of operation plans:
    src/core/blueprint/index.rs, src/core/jit/builder.rs. *)
From Coq Require Import String Ascii ZArith NArith Bool Arith List.
From Verif Require Import Base JsonModel TypeModel DiscModel PlanModel.
Import ListNotations.
Open Scope string_scope.
Open Scope list_scope.

(** Values of a query text ([async_graphql_value::Value]; the binary case, which no
    query text denotes, is left out). *)
Inductive qvalue : Type :=
| QVar (name : string)
| QNull
| QBool (b : bool)
| QNum (n : number)
| QStr (s : string)
| QEnum (s : string)
| QList (l : list qvalue)
| QObj (m : list (string * qvalue)).

(** [async_graphql::parser::types::Directive]: name and arguments. *)
Definition qdirective : Type := string * list (string * qvalue).

(** [async_graphql::parser::types::Selection]; positions are left out. *)
Inductive selection : Type :=
| SField (alias : option string) (name : string) (args : list (string * qvalue))
         (directives : list qdirective) (sel : list selection)
| SSpread (fragment : string) (directives : list qdirective)
| SInline (cond : option string) (directives : list qdirective) (sel : list selection).

(** [FragmentDefinition]: the type condition and the selection set. *)
Definition fragment : Type := string * list selection.

Inductive op_type : Type := OQuery | OMutation | OSubscription.
Record operation : Type := { o_ty : op_type; o_sel : list selection }.

(** [DocumentOperations]: one anonymous operation, or named ones. *)
Inductive operations : Type :=
| Single (o : operation)
| Multiple (l : list (string * operation)).
Record document : Type := { d_operations : operations; d_fragments : list (string * fragment) }.

(** src/core/scalar.rs:11, 18-76 *)
Definition plain_scalars : list string := ["Boolean"; "Float"; "ID"; "Int"; "String"].
Definition custom_scalars : list string :=
  ["Empty"; "Email"; "PhoneNumber"; "Date"; "DateTime"; "Url"; "JSON"; "Int8"; "Int16"; "Int32"; "Int64";
   "Int128"; "UInt8"; "UInt16"; "UInt32"; "UInt64"; "UInt128"; "Bytes"].
(** src/core/scalar.rs:109-115 *)
Definition is_predefined (name : string) : bool := smem name plain_scalars || smem name custom_scalars.
(** src/core/scalar.rs [Scalar::find] with the default of builder.rs:229-231 *)
Definition find_scalar (name : string) : string := if smem name custom_scalars then name else "Empty".

Section Index.
  Context {IR : Type}.

  (** src/core/blueprint/blueprint.rs: [InputFieldDefinition] *)
  Record input_field : Type := { if_type : typ; if_default : option value }.

  (** src/core/blueprint/index.rs:21-25 *)
  Inductive query_field : Type :=
  | QField (type_of : typ) (resolver : option IR) (args : list (string * input_field))
  | QInput (f : input_field).

  (** src/core/blueprint/index.rs:15-19: the definition and the fields of each type. *)
  Inductive definition : Type :=
  | DObject (implements : list string)
  | DInterface
  | DInput
  | DScalar
  | DEnum (values : list (string * list string))
  | DUnion (types : list string).
  Record index : Type :=
    { ix_map : list (string * (definition * list (string * query_field)));
      ix_query : string; ix_mutation : option string }.

  Definition ix_def (ix : index) (t : string) : option definition :=
    match aget t (ix_map ix) with Some (d, _) => Some d | None => None end.

  (** src/core/blueprint/index.rs:37-41 *)
  Definition type_is_scalar (ix : index) (t : string) : bool :=
    match ix_def ix t with Some DScalar => true | _ => is_predefined t end.

  (** src/core/blueprint/index.rs:53-57 *)
  Definition type_is_enum (ix : index) (t : string) : bool :=
    match ix_def ix t with Some (DEnum _) => true | _ => false end.

  (** src/core/blueprint/index.rs:59-70 *)
  Definition validate_enum_value (ix : index) (t v : string) : bool :=
    match ix_def ix t with
    | Some (DEnum values) => existsb (fun ev => String.eqb (fst ev) v || smem v (snd ev)) values
    | _ => false
    end.

  (** src/core/blueprint/index.rs:72-76 *)
  Definition get_field (ix : index) (t f : string) : option query_field :=
    match aget t (ix_map ix) with Some (_, fs) => aget f fs | None => None end.

  (** src/core/blueprint/index.rs:86-101 *)
  Definition is_type_implements (ix : index) (t t' : string) : bool :=
    if String.eqb t t' then true
    else match ix_def ix t with
         | Some (DObject implements) =>
             if smem t' implements then true
             else match ix_def ix t' with Some (DUnion types) => smem t types | _ => false end
         | _ => false
         end.

  (** src/core/blueprint/index.rs:103-108: the fields of an input type. *)
  Definition get_input_fields (ix : index) (t : string) : option (list (string * input_field)) :=
    match aget t (ix_map ix) with
    | Some (DInput, fs) =>
        Some (flat_map (fun nf => match snd nf with QInput f => [(fst nf, f)] | QField _ _ _ => [] end) fs)
    | _ => None
    end.
End Index.
Arguments query_field IR : clear implicits.
Arguments index IR : clear implicits.

(** src/core/jit/model.rs:98-105, [Arg]; the identifier, which nothing reads, is left out. *)
Record arg : Type := { a_name : string; a_type : typ; a_value : option qvalue; a_default : option value }.

(** src/core/jit/model.rs:171-195, [Field] as the builder makes it; [pos] is left out. *)
Inductive bfield (IR : Type) : Type :=
| BField (id : nat) (name output : string) (ir : option IR) (type_of : typ) (cond : string)
         (skip include : option string) (args : list arg) (parent_fragment : option string)
         (directives : list qdirective) (is_enum : bool) (scalar : option string) (sel : list (bfield IR)).
Arguments BField {IR}.

Section Builder.
  Context {IR : Type}.
  Notation field := (bfield IR).

  Definition b_id (f : field) := let '(BField i _ _ _ _ _ _ _ _ _ _ _ _ _) := f in i.
  Definition b_name (f : field) := let '(BField _ n _ _ _ _ _ _ _ _ _ _ _ _) := f in n.
  Definition b_output (f : field) := let '(BField _ _ o _ _ _ _ _ _ _ _ _ _ _) := f in o.
  Definition b_cond (f : field) := let '(BField _ _ _ _ _ c _ _ _ _ _ _ _ _) := f in c.
  Definition b_sel (f : field) := let '(BField _ _ _ _ _ _ _ _ _ _ _ _ _ l) := f in l.

  (** The plan field of PlanModel.v: what execution looks at. *)
  Fixpoint plan_field (f : field) : pfield IR :=
    let '(BField i n o e t c s inc _ _ _ en sc sel) := f in
    PField i n o e t (Some c) s inc en sc
      ((fix go (l : list field) := match l with [] => [] | g :: rest => plan_field g :: go rest end) sel).

  (** src/core/jit/builder.rs:92-111 *)
  Definition get_condition (d : qdirective) : option condition :=
    match aget "if" (snd d) with
    | Some (QBool b) => Some (if b then CTrue else CFalse)
    | Some (QVar v) => Some (CVar v)
    | _ => None
    end.

  (** src/core/jit/builder.rs:112-125 *)
  Definition condition_of (name : string) (default : condition) (ds : list qdirective) : condition :=
    match find (fun d => String.eqb (fst d) name) ds with
    | Some d => match get_condition d with Some c => c | None => default end
    | None => default
    end.
  Definition skip_of := condition_of "skip" CFalse.
  Definition include_of := condition_of "include" CTrue.

  (** src/core/jit/builder.rs:161-175 *)
  Definition other_directives (ds : list qdirective) : list qdirective :=
    filter (fun d => negb (String.eqb (fst d) "skip" || String.eqb (fst d) "include")) ds.

  (** src/core/jit/builder.rs:178-205: a repeated argument is the last one ([HashMap]). *)
  Definition build_args (given : list (string * qvalue)) (schema : list (string * input_field)) : list arg :=
    map (fun a => {| a_name := fst a; a_type := if_type (snd a); a_value := aget (fst a) (rev given);
                     a_default := if_default (snd a) |}) schema.

  (** src/core/jit/builder.rs:145-149 *)
  Definition output_of (alias : option string) (name : string) : string :=
    match alias with Some a => a | None => name end.

  (** Stable sort by identifier (builder.rs:312). *)
  Fixpoint insert_by_id (f : field) (l : list field) : list field :=
    match l with
    | [] => [f]
    | g :: rest => if Nat.leb (b_id f) (b_id g) then f :: l else g :: insert_by_id f rest
    end.
  Fixpoint sort_by_id (l : list field) : list field :=
    match l with [] => [] | f :: rest => insert_by_id f (sort_by_id rest) end.

  Variable ix : index IR.
  Variable frags : list (string * fragment).

  Section Iter.
    (** the recursive call: parent fragment, selection set, type, counter *)
    Variable rec : option string -> list selection -> string -> nat -> option (list field * nat).
    Variable parent_fragment : option string.
    Variable cond : string.

    (** src/core/jit/builder.rs:141-305, the loop; the lists are [fields],
        [fragments_fields] and [visited]. *)
    Fixpoint iter_items (items : list selection) (fields ffields : list field) (visited : list string) (n : nat)
      : option (list field * list field * list string * nat) :=
      match items with
      | [] => Some (fields, ffields, visited, n)
      | SField alias name given ds sel :: rest =>
          let output := output_of alias name in
          if smem output visited then iter_items rest fields ffields visited n
          else
            let visited := output :: visited in
            if is_const_skip (skip_of ds) (include_of ds) then iter_items rest fields ffields visited n
            else
              let include := cond_variable (include_of ds) in
              let skip := cond_variable (skip_of ds) in
              match get_field ix cond name with
              | Some def =>
                  let args := match def with QField _ _ schema => build_args given schema | QInput _ => [] end in
                  let t := match def with QField t _ _ => t | QInput f => if_type f end in
                  let e := match def with QField _ r _ => r | QInput _ => None end in
                  match rec None sel (type_name t) (S n) with
                  | None => None
                  | Some (children, n') =>
                      let f := BField n name output e t cond skip include args parent_fragment
                                 (other_directives ds) (type_is_enum ix (type_name t))
                                 (if type_is_scalar ix (type_name t) then Some (find_scalar (type_name t)) else None)
                                 children in
                      iter_items rest (fields ++ [f]) ffields visited n'
                  end
              | None =>
                  if String.eqb name "__typename" then
                    let f := BField n name output None (TNamed "String" true) cond skip include []
                               parent_fragment (other_directives ds) false (Some "Empty") [] in
                    iter_items rest (fields ++ [f]) ffields visited (S n)
                  else iter_items rest fields ffields visited n
              end
      | SSpread name _ :: rest =>
          match aget name frags with
          | Some (on, sel) =>
              match rec (Some on) sel on n with
              | None => None
              | Some (fs, n') => iter_items rest fields (ffields ++ fs) visited n'
              end
          | None => iter_items rest fields ffields visited n
          end
      | SInline c _ sel :: rest =>
          let on := match c with Some t => t | None => cond end in
          match rec (Some on) sel on n with
          | None => None
          | Some (fs, n') => iter_items rest fields (ffields ++ fs) visited n'
          end
      end.

    (** src/core/jit/builder.rs:306-313 *)
    Definition iter_set (items : list selection) (n : nat) : option (list field * nat) :=
      match iter_items items [] [] [] n with
      | None => None
      | Some (fields, ffields, visited, n') =>
          Some (sort_by_id (fields ++ filter (fun f => negb (smem (b_output f) visited)) ffields), n')
      end.
  End Iter.

  (** src/core/jit/builder.rs:130-314.  The code recurses without bound; [None] says
      that [fuel] nested calls were not enough. *)
  Fixpoint iter (fuel : nat) (parent_fragment : option string) (items : list selection) (cond : string)
           (n : nat) : option (list field * nat) :=
    match fuel with
    | O => None
    | S fuel => iter_set (iter fuel) parent_fragment cond items n
    end.
End Builder.

Inductive build_error : Type :=
| OperationNotFound (name : string)
| OperationNameRequired
| RootTypeNotDefined (ty : op_type).

(** src/core/jit/builder.rs:327-349 *)
Definition get_operation (d : document) (name : option string) : result operation build_error :=
  match name with
  | Some n =>
      match d_operations d with
      | Single _ => Err (OperationNotFound n)
      | Multiple l => match aget n l with Some o => Ok o | None => Err (OperationNotFound n) end
      end
  | None =>
      match d_operations d with
      | Single o => Ok o
      | Multiple [(_, o)] => Ok o
      | Multiple _ => Err OperationNameRequired
      end
  end.

(** src/core/jit/builder.rs:316-322 *)
Definition get_type {IR} (ix : index IR) (ty : op_type) : option string :=
  match ty with
  | OQuery => Some (ix_query ix)
  | OMutation => ix_mutation ix
  | OSubscription => None
  end.

(** src/core/jit/builder.rs:352-384: the root type, the kind of operation and the
    fields.  The introspection flag is left out. *)
Definition build {IR} (fuel : nat) (ix : index IR) (d : document) (name : option string)
  : option (result (string * op_type * list (bfield IR)) build_error) :=
  match get_operation d name with
  | Err e => Some (Err e)
  | Ok o =>
      match get_type ix (o_ty o) with
      | None => Some (Err (RootTypeNotDefined (o_ty o)))
      | Some root =>
          match iter ix (d_fragments d) fuel None (o_sel o) root 0 with
          | None => None
          | Some (fs, _) => Some (Ok (root, o_ty o, fs))
          end
      end
  end.
