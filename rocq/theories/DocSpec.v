(** Vocabulary for configurations written as documents (C50) and for the types behind an
    interface (C51). *)
From Coq Require Import String Ascii ZArith Bool List.
From Verif Require Import Base Ordered JsonModel TypeModel ConfigModel FedModel MergeSpec AmbSpec DocModel.
Import ListNotations.
Open Scope string_scope.
Open Scope list_scope.

(** Directives whose settings survive being written as arguments and read again (what
    serde is trusted for). *)
Definition lawful {Args A} (k : codec Args A) : Prop := forall a, dec k (enc k a) = Ok a.
Record lawful_codecs {Args} (K : codecs Args) : Prop := {
  l_server : lawful (k_server K); l_upstream : lawful (k_upstream K); l_link : lawful (k_link K); l_telemetry : lawful (k_telemetry K);
  l_http : lawful (k_http K); l_grpc : lawful (k_grpc K); l_graphql : lawful (k_graphql K);
  l_call : lawful (k_call K); l_js : lawful (k_js K); l_expr : lawful (k_expr K);
  l_modify : lawful (k_modify K); l_omit : lawful (k_omit K); l_cache : lawful (k_cache K); l_protected : lawful (k_protected K);
  l_discriminate : lawful (k_discriminate K); l_add_field : lawful (k_add_field K); l_alias : lawful (k_alias K);
  l_other : forall d, k_other_of K (k_other_name K d) (k_other_args K d) = Ok d;
  l_other_name : forall n a d, k_other_of K n a = Ok d -> k_other_name K d = n
}.

(** A type listed behind some type's [implements]. *)
Definition Implemented (c : config) (i : string) : Prop := exists n t, In (n, t) (c_types c) /\ In i (t_implements t).

(** How a type is used, which decides how it is written. *)
Inductive use := AsInterface | AsInput | AsScalar | AsObject.
Inductive usage (c : config) (n : string) (t : gtype) : use -> Prop :=
| U_interface : Implemented c n -> usage c n t AsInterface
| U_input : ~ Implemented c n -> InputUse c n -> usage c n t AsInput
| U_scalar : ~ Implemented c n -> t_fields t = [] -> usage c n t AsScalar
| U_object : ~ Implemented c n -> ~ InputUse c n -> t_fields t <> [] -> usage c n t AsObject.

(** Resolvers that have a directive: all but those of federation. *)
Definition has_directive (r : resolver) : bool := match r with REntity _ | RService => false | _ => true end.

(** What of an argument, a field, a type comes back. *)
Definition arg_back (a : arg) : arg :=
  {| arg_type := arg_type a; arg_doc := arg_doc a; arg_modify := None; arg_default := arg_default a |}.
Definition field_back (u : use) (f : field) : field :=
  {| f_type := f_type f;
     f_args := match u with AsObject => map (fun na => (fst na, arg_back (snd na))) (f_args f) | _ => [] end;
     f_doc := f_doc f; f_modify := f_modify f; f_omit := f_omit f; f_cache := f_cache f;
     f_default := match u with AsInput => f_default f | _ => None end;
     f_protected := f_protected f; f_discriminate := None;
     f_resolvers := filter has_directive (f_resolvers f); f_directives := f_directives f |}.
Definition type_back (u : use) (t : gtype) : gtype :=
  match u with
  | AsScalar => empty_gtype
  | AsInput =>
      {| t_fields := map (fun nf => (fst nf, field_back u (snd nf))) (t_fields t); t_added := []; t_doc := t_doc t;
         t_implements := []; t_cache := None; t_protected := t_protected t; t_resolvers := []; t_directives := [] |}
  | _ =>
      {| t_fields := map (fun nf => (fst nf, field_back u (snd nf))) (t_fields t); t_added := t_added t; t_doc := t_doc t;
         t_implements := t_implements t; t_cache := t_cache t; t_protected := t_protected t;
         t_resolvers := filter has_directive (t_resolvers t); t_directives := t_directives t |}
  end.
(** What of a configuration comes back. *)
Record comes_back (c c' : config) : Prop := {
  cb_server : c_server c' = c_server c;
  cb_upstream : c_upstream c' = c_upstream c;
  cb_schema : c_schema c' = c_schema c;
  cb_links : c_links c' = c_links c;
  cb_enums : c_enums c' = c_enums c;
  cb_unions : c_unions c' = map (fun nu => (fst nu, {| u_types := u_types (snd nu); u_doc := None |})) (c_unions c);
  cb_telemetry : c_telemetry c' = empty_telemetry;
  cb_types : Forall2 (fun nt nt' => fst nt' = fst nt /\ exists u, usage c (fst nt) (snd nt) u /\ snd nt' = type_back u (snd nt))
                     (c_types c) (c_types c')
}.

(** Configurations whose kept directives are those the reader keeps, and whose containers
    have the invariants of Rust's. *)
Definition kept_directive {Args} (K : codecs Args) (d : string) : Prop := In (k_other_name K d) FEDERATION_DIRECTIVES.
Definition stored_field {Args} (K : codecs Args) (f : field) : Prop :=
  NoDup (map fst (f_args f)) /\ Forall (kept_directive K) (f_directives f).
Definition stored_type {Args} (K : codecs Args) (t : gtype) : Prop :=
  wf_gtype t /\ Forall (kept_directive K) (t_directives t) /\ Forall (fun nf => stored_field K (snd nf)) (t_fields t).
Record stored {Args} (K : codecs Args) (c : config) : Prop := {
  sto_types : wf_map (stored_type K) (c_types c);
  sto_unions : wf_map wf_gunion (c_unions c);
  sto_enums : wf_map wf_genum (c_enums c)
}.

(** Configurations that use nothing a document cannot say. *)
Definition sayable_arg (a : arg) : Prop := arg_modify a = None.
Definition sayable_field (u : use) (f : field) : Prop :=
  match u with
  | AsObject => Forall (fun na => sayable_arg (snd na)) (f_args f) /\ f_default f = None
  | AsInput => f_args f = []
  | _ => f_args f = [] /\ f_default f = None
  end /\
  f_discriminate f = None /\ Forall (fun r => has_directive r = true) (f_resolvers f).
Definition sayable_type (u : use) (t : gtype) : Prop :=
  Forall (fun nf => sayable_field u (snd nf)) (t_fields t) /\
  Forall (fun r => has_directive r = true) (t_resolvers t) /\
  match u with
  | AsScalar => t = empty_gtype
  | AsInput => t_added t = [] /\ t_implements t = [] /\ t_cache t = None /\ t_resolvers t = [] /\ t_directives t = []
  | _ => True
  end.
Definition sayable (c : config) : Prop :=
  c_telemetry c = empty_telemetry /\
  Forall (fun nu => u_doc (snd nu) = None) (c_unions c) /\
  forall n t u, In (n, t) (c_types c) -> usage c n t u -> sayable_type u t.

(** [n] implements [i], directly or through other interfaces. *)
Definition implements_directly (c : config) (n i : string) : Prop := exists t, In (n, t) (c_types c) /\ In i (t_implements t).
Inductive Implements (c : config) : string -> string -> Prop :=
| I_direct n i : implements_directly c n i -> Implements c n i
| I_through n m i : implements_directly c n m -> Implements c m i -> Implements c n i.
(** No type implements itself. *)
Definition acyclic_implements (c : config) : Prop := forall n, ~ Implements c n n.

(** What is written of [c], read again. *)
Definition reread {Args} (K : codecs Args) (c c' : config) : Prop :=
  exists fuel doc, config_document K fuel c = Some doc /\ from_document K doc = Ok c'.
