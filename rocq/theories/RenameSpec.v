(** Specification of a consistent renaming. *)
From Coq Require Import String Ascii ZArith NArith Bool List.
From Verif Require Import Base Ordered JsonModel TypeModel ConfigModel.
Import ListNotations.
Open Scope string_scope.
Open Scope list_scope.

Definition defined (c : config) (n : string) : Prop :=
  find_type c n <> None \/ find_enum c n <> None \/ find_union c n <> None.

(** New names do not clash: with each other, with what exists, or with what is
    being renamed. *)
Record fresh_names (names : list (string * string)) (c : config) : Prop := {
  fn_keys : NoDup (map fst names);
  fn_values : NoDup (map snd names);
  fn_new : forall v, In v (map snd names) -> ~ defined c v;
  fn_apart : forall v, In v (map snd names) -> ~ In v (map fst names)
}.

(** Roots are object types, and the query and mutation roots differ. *)
Record proper_roots (c : config) : Prop := {
  pr_query : forall q, r_query (c_schema c) = Some q -> find_type c q <> None;
  pr_mutation : forall m, r_mutation (c_schema c) = Some m -> find_type c m <> None;
  pr_differ : forall q, r_query (c_schema c) = Some q -> r_mutation (c_schema c) <> Some q
}.

(** The renaming as a function on names. *)
Definition new_name (names : list (string * string)) (n : string) : string :=
  match aget n names with Some v => v | None => n end.

(** The same type expression over the new names. *)
Fixpoint renamed_typ (names : list (string * string)) (t : typ) : typ :=
  match t with
  | TNamed n nn => TNamed (new_name names n) nn
  | TList of nn => TList (renamed_typ names of) nn
  end.

Definition renamed_arg (names : list (string * string)) (a a' : arg) : Prop :=
  arg_type a' = renamed_typ names (arg_type a) /\ arg_doc a' = arg_doc a /\
  arg_modify a' = arg_modify a /\ arg_default a' = arg_default a.

Definition same_entries {V} (R : V -> V -> Prop) (m m' : list (string * V)) : Prop :=
  Forall2 (fun a b => fst a = fst b /\ R (snd a) (snd b)) m m'.

Definition renamed_field (names : list (string * string)) (f f' : field) : Prop :=
  f_type f' = renamed_typ names (f_type f) /\
  same_entries (renamed_arg names) (f_args f) (f_args f') /\
  f_doc f' = f_doc f /\ f_modify f' = f_modify f /\ f_omit f' = f_omit f /\
  f_cache f' = f_cache f /\ f_default f' = f_default f /\ f_protected f' = f_protected f /\
  f_discriminate f' = f_discriminate f /\ f_resolvers f' = f_resolvers f /\
  f_directives f' = f_directives f.

(** The same set of names over the new names. *)
Definition renamed_set (names : list (string * string)) (s s' : list string) : Prop :=
  ssorted scmp s' /\ forall x, In x s' <-> exists n, In n s /\ x = new_name names n.

Definition renamed_gtype (names : list (string * string)) (t t' : gtype) : Prop :=
  same_entries (renamed_field names) (t_fields t) (t_fields t') /\
  renamed_set names (t_implements t) (t_implements t') /\
  t_added t' = t_added t /\ t_doc t' = t_doc t /\ t_cache t' = t_cache t /\
  t_protected t' = t_protected t /\ t_resolvers t' = t_resolvers t /\
  t_directives t' = t_directives t.

Definition renamed_gunion (names : list (string * string)) (u u' : gunion) : Prop :=
  renamed_set names (u_types u) (u_types u') /\ u_doc u' = u_doc u.

(** The definitions of [m'] are those of [m], under the new names and changed by [R]. *)
Definition renamed_definitions {V} (names : list (string * string)) (R : V -> V -> Prop)
  (find find' : string -> option V) : Prop :=
  (forall n x, find n = Some x -> exists x', find' (new_name names n) = Some x' /\ R x x') /\
  (forall n' x', find' n' = Some x' -> exists n x, n' = new_name names n /\ find n = Some x /\ R x x').

(** The whole configuration is the old one under the new names. *)
Record consistently_renamed (names : list (string * string)) (c c' : config) : Prop := {
  cr_types : renamed_definitions names (renamed_gtype names) (find_type c) (find_type c');
  cr_unions : renamed_definitions names (renamed_gunion names) (find_union c) (find_union c');
  cr_enums : renamed_definitions names eq (find_enum c) (find_enum c');
  cr_query : r_query (c_schema c') = option_map (new_name names) (r_query (c_schema c));
  cr_mutation : r_mutation (c_schema c') = option_map (new_name names) (r_mutation (c_schema c));
  cr_server : c_server c' = c_server c;
  cr_upstream : c_upstream c' = c_upstream c;
  cr_links : c_links c' = c_links c;
  cr_telemetry : c_telemetry c' = c_telemetry c
}.
