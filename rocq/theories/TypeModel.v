(** GraphQL type references: src/core/wrapping_type.rs *)
From Coq Require Import String Ascii ZArith NArith Bool List.
From Verif Require Import Base JsonModel.
Import ListNotations.
Open Scope string_scope.
Open Scope list_scope.

(** src/core/wrapping_type.rs:14-30 *)
Inductive typ : Type :=
| TNamed (name : string) (non_null : bool)
| TList (of_type : typ) (non_null : bool).

(** src/core/wrapping_type.rs:61-66 *)
Fixpoint type_name (t : typ) : string :=
  match t with
  | TNamed n _ => n
  | TList t' _ => type_name t'
  end.

(** src/core/wrapping_type.rs:69-74 *)
Definition is_nullable (t : typ) : bool :=
  negb (match t with TNamed _ nn => nn | TList _ nn => nn end).

(** src/core/wrapping_type.rs:76-78 *)
Definition is_list (t : typ) : bool :=
  match t with TList _ _ => true | TNamed _ _ => false end.

(** src/core/wrapping_type.rs:81-86 *)
Definition into_required (t : typ) : typ :=
  match t with
  | TNamed n _ => TNamed n true
  | TList t' _ => TList t' true
  end.

(** src/core/wrapping_type.rs:89-94 *)
Definition into_nullable (t : typ) : typ :=
  match t with
  | TNamed n _ => TNamed n false
  | TList t' _ => TList t' false
  end.

(** src/core/wrapping_type.rs:97-99 *)
Definition into_list (t : typ) : typ := TList t false.

(** src/core/wrapping_type.rs:102-107 *)
Fixpoint into_single (t : typ) : typ :=
  match t with
  | TNamed _ _ => t
  | TList t' _ => into_single t'
  end.

(** src/core/wrapping_type.rs:110-117 *)
Fixpoint with_name (name : string) (t : typ) : typ :=
  match t with
  | TNamed _ nn => TNamed name nn
  | TList t' nn => TList (with_name name t') nn
  end.

(** src/core/wrapping_type.rs:32-51, the [Debug] text. *)
Fixpoint type_text (t : typ) : string :=
  match t with
  | TNamed n nn => if nn then n ++ "!" else n
  | TList t' nn => if nn then "[" ++ type_text t' ++ "]!" else "[" ++ type_text t' ++ "]"
  end.

(** async_graphql_parser::types::{Type, BaseType} (external crate). *)
Inductive ptype : Type :=
| PType (base : pbase) (nullable : bool)
with pbase : Type :=
| PNamed (name : string)
| PList (t : ptype).

(** src/core/wrapping_type.rs:120-133 *)
Fixpoint of_parser (p : ptype) : typ :=
  match p with
  | PType base nullable =>
      let non_null := negb nullable in
      match base with
      | PNamed n => TNamed n non_null
      | PList t => TList (of_parser t) non_null
      end
  end.

(** src/core/wrapping_type.rs:135-148 *)
Fixpoint to_parser (t : typ) : ptype :=
  let nullable := is_nullable t in
  let base := match t with
              | TNamed n _ => PNamed n
              | TList t' _ => PList (to_parser t')
              end in
  PType base nullable.

(** async_graphql::dynamic::TypeRef (external crate). *)
Inductive tref : Type :=
| RNamed (name : string)
| RNonNull (t : tref)
| RList (t : tref).

(** src/core/wrapping_type.rs:150-169 *)
Fixpoint to_tref (t : typ) : tref :=
  let nullable := is_nullable t in
  let base := match t with
              | TNamed n _ => RNamed n
              | TList t' _ => RList (to_tref t')
              end in
  if nullable then base else RNonNull base.
