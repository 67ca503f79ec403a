(** Vocabulary for the merging of similar types (C74). *)
From Coq Require Import String Ascii ZArith Bool List.
From Verif Require Import Base Ordered JsonModel TypeModel ConfigModel.
Import ListNotations.
Open Scope string_scope.
Open Scope list_scope.

(** Names that are left to generated types. *)
Definition reserved (n : string) : Prop := exists rest, n = ("GEN__M" ++ rest)%string.

Definition has_field (c : config) (n f : string) (x : field) : Prop :=
  exists t, find_type c n = Some t /\ oget scmp f (t_fields t) = Some x.

(** A configuration as its text gives it: maps in order, no type called JSON, no name for both a type
    and a union, and no definition with a reserved name. *)
Record ready (c : config) : Prop := {
  rd_types : osorted scmp (c_types c);
  rd_fields : forall n t, find_type c n = Some t -> osorted scmp (t_fields t);
  rd_json : find_type c "JSON" = None;
  rd_unions : forall n, find_union c n <> None -> find_type c n = None;
  rd_reserved : forall n, reserved n -> find_type c n = None /\ find_union c n = None
}.

(** Types and arguments under new names of types. *)
Fixpoint typ_under (s : string -> string) (t : typ) : typ :=
  match t with TNamed n nn => TNamed (s n) nn | TList t nn => TList (typ_under s t) nn end.
Definition args_under (s : string -> string) (l : list (string * arg)) : list (string * arg) :=
  map (fun ka => (fst ka, {| arg_type := typ_under s (arg_type (snd ka)); arg_doc := arg_doc (snd ka);
                             arg_modify := arg_modify (snd ka); arg_default := arg_default (snd ka) |})) l.
(** [x'] is [x] under new names, but for its type. *)
Definition same_but_type (s : string -> string) (x x' : field) : Prop :=
  f_args x' = args_under s (f_args x) /\ f_doc x' = f_doc x /\ f_modify x' = f_modify x /\ f_omit x' = f_omit x /\
  f_cache x' = f_cache x /\ f_default x' = f_default x /\ f_protected x' = f_protected x /\
  f_discriminate x' = f_discriminate x /\ f_resolvers x' = f_resolvers x /\ f_directives x' = f_directives x.

(** [c'] is [c] with each type [n] merged into the type [s n].  A merged type has the fields of all its
    parts; each is the field of one of them, but of type JSON where it is in one of them. *)
Record merged_by (s : string -> string) (c c' : config) : Prop := {
  mb_types : forall n, find_type c n <> None -> find_type c' (s n) <> None;
  mb_no_more : forall n', find_type c' n' <> None -> exists n, find_type c n <> None /\ s n = n';
  mb_names : forall n, s n = n \/ ((find_type c n <> None \/ reserved n) /\ reserved (s n));
  mb_kept : forall n f x, has_field c n f x -> exists x', has_field c' (s n) f x';
  mb_field : forall n' f x', has_field c' n' f x' ->
    exists n x, s n = n' /\ has_field c n f x /\ same_but_type s x x' /\
      (f_type x' = typ_under s (f_type x) \/ type_name (f_type x') = "JSON");
  mb_json : forall n' f x', has_field c' n' f x' ->
    (type_name (f_type x') = "JSON" <-> exists n x, s n = n' /\ has_field c n f x /\ type_name (f_type x) = "JSON");
  mb_implements : forall n' t', find_type c' n' = Some t' -> forall i',
    (In i' (t_implements t') <-> exists n t i, s n = n' /\ find_type c n = Some t /\ In i (t_implements t) /\ s i = i');
  mb_unions : forall u, match find_union c u, find_union c' u with
    | Some x, Some x' => (forall m', In m' (u_types x') <-> exists m, In m (u_types x) /\ s m = m') /\ u_doc x' = u_doc x
    | None, None => True
    | _, _ => False
    end;
  mb_rest : c_schema c' = c_schema c /\ c_enums c' = c_enums c /\ c_server c' = c_server c /\ c_upstream c' = c_upstream c /\
    c_links c' = c_links c /\ c_telemetry c' = c_telemetry c
}.

(** The type of what a path of fields leads to, from a type. *)
Fixpoint leads_to (c : config) (n : string) (path : list string) (m : string) : Prop :=
  match path with
  | [] => m = n
  | f :: path => exists x, has_field c n f x /\ leads_to c (type_name (f_type x)) path m
  end.
(** Types that are merged agree, after the merging, on the types of the fields they share. *)
Definition agreeing (s : string -> string) (c : config) : Prop :=
  forall n m f x y, s n = s m -> has_field c n f x -> has_field c m f y ->
    s (type_name (f_type x)) = s (type_name (f_type y)).

(** All fields of the type are of types that are not object types: predefined scalars and enums. *)
Definition leaf (c : config) (n : string) : Prop :=
  find_type c n <> None /\ forall f x, has_field c n f x -> find_type c (type_name (f_type x)) = None /\ ~ reserved (type_name (f_type x)).
(** Every type has a field: no scalars are declared. *)
Definition no_scalars (c : config) : Prop := forall n t, find_type c n = Some t -> t_fields t <> [].
