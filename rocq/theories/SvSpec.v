(** Vocabulary for the schema that is served (C83). *)
From Coq Require Import String Ascii ZArith NArith Bool List.
From Verif Require Import Base TypeModel ConfigModel ScalarModel FieldModel FieldSpec SvModel.
Import ListNotations.
Open Scope string_scope.
Open Scope list_scope.

(** A field that is to be left out of the schema. *)
Definition left_out (f : field) : Prop := f_omit f = true \/ exists mo, f_modify f = Some mo /\ mod_omit mo = Some true.
(** The fields that stay, in their order. *)
Inductive staying : list (string * field) -> list (string * field) -> Prop :=
| stay_none : staying [] []
| stay_out k f l l' : left_out f -> staying l l' -> staying ((k, f) :: l) l'
| stay_in k f l l' : ~ left_out f -> staying l l' -> staying ((k, f) :: l) ((k, f) :: l').

(** The name under which a field is to be seen. *)
Definition seen_as (k : string) (f : field) (n : string) : Prop := renamed f n \/ ((forall new, ~ renamed f new) /\ n = k).

Definition argument_as_written (na : string * arg) (s : shown_input) : Prop :=
  si_name s = fst na /\ si_type s = arg_type (snd na) /\ si_default s = arg_default (snd na).
Definition field_as_written (nf : string * field) (s : shown_field) : Prop :=
  seen_as (fst nf) (snd nf) (sf_name s) /\ sf_type s = f_type (snd nf) /\ sf_doc s = f_doc (snd nf) /\
  Forall2 argument_as_written (f_args (snd nf)) (sf_args s).
(** A field of an interface is told without documentation and arguments. *)
Definition bare_field_as_written (nf : string * field) (s : shown_field) : Prop :=
  seen_as (fst nf) (snd nf) (sf_name s) /\ sf_type s = f_type (snd nf) /\ sf_doc s = None /\ sf_args s = [].
Definition input_as_written (nf : string * field) (s : shown_input) : Prop :=
  seen_as (fst nf) (snd nf) (si_name s) /\ si_type s = f_type (snd nf) /\ si_doc s = f_doc (snd nf) /\ si_default s = f_default (snd nf).

(** The field at the start of the path of an added field. *)
Definition starts_at (t : gtype) (a : add_field) (f : field) : Prop :=
  exists head path before after, af_path a = head :: path /\ t_fields t = before ++ (head, f) :: after.
(** An added field: its type is the subject of C65. *)
Definition added_as_written (t : gtype) (a : add_field) (s : shown_field) : Prop :=
  exists f, starts_at t a f /\ seen_as (af_name a) f (sf_name s) /\ sf_doc s = f_doc f /\ Forall2 argument_as_written (f_args f) (sf_args s).

Section Kinds.
  Variable m : cmodule.
  Variable added : gtype -> list add_field.
  Local Notation c := (m_config m).

  Definition is_input (n : string) : Prop := In n (m_inputs m).
  Definition is_interface (n : string) : Prop := exists ts, In (n, ts) (m_interfaces m).

  (** A declaration, and what clients are told. *)
  Inductive as_written : string -> shown -> Prop :=
  | aw_object n t fs own adds :
      In (n, t) (c_types c) -> t_fields t <> [] -> ~ is_input n -> ~ is_interface n ->
      staying (t_fields t) fs -> Forall2 field_as_written fs own -> Forall2 (added_as_written t) (added t) adds ->
      as_written n (SObject n (t_doc t) (own ++ adds) (t_implements t))
  | aw_interface n t fs own adds :
      In (n, t) (c_types c) -> t_fields t <> [] -> ~ is_input n -> is_interface n ->
      staying (t_fields t) fs -> Forall2 bare_field_as_written fs own -> length adds = length (added t) ->
      as_written n (SInterface n None (own ++ adds) [])
  | aw_input n t fs own adds :
      In (n, t) (c_types c) -> t_fields t <> [] -> is_input n ->
      staying (t_fields t) fs -> Forall2 input_as_written fs own -> length adds = length (added t) ->
      as_written n (SInput n (t_doc t) (own ++ adds))
  | aw_scalar n t :
      In (n, t) (c_types c) -> t_fields t = [] -> as_written n (SScalar n None NoRule)
  | aw_enum n e :
      In (n, e) (c_enums c) -> e_variants e <> [] -> as_written n (SEnum n (e_doc e) (map fst (e_variants e)))
  | aw_union n u :
      In (n, u) (c_unions c) -> as_written n (SUnion n None (u_types u)).

  Definition declared (n : string) : Prop :=
    In n (map fst (c_types c)) \/ In n (map fst (c_unions c)) \/ In n (map fst (c_enums c)).
  (** Every name is declared once. *)
  Definition declared_once : Prop := NoDup (map fst (c_types c) ++ map fst (c_unions c) ++ map fst (c_enums c)).
End Kinds.

(** The type of a field of something that is shown. *)
Definition field_type_in (s : shown) (t : typ) : Prop :=
  match s with
  | SObject _ _ fs _ | SInterface _ _ fs _ => exists f, In f fs /\ sf_type f = t
  | SInput _ _ fs => exists f, In f fs /\ si_type f = t
  | _ => False
  end.
(** The built-in scalars that are not those of the specification, each with its rule. *)
Definition built_in (n : string) (s : scalar) : Prop :=
  In (n, s) [("Empty", NoRule); ("Email", Email); ("PhoneNumber", PhoneNumber); ("Date", Date); ("DateTime", DateTime); ("Url", Url);
             ("JSON", JSON); ("Int8", Int8); ("Int16", Int16); ("Int32", Int32); ("Int64", Int64); ("Int128", Int128);
             ("UInt8", UInt8); ("UInt16", UInt16); ("UInt32", UInt32); ("UInt64", UInt64); ("UInt128", UInt128); ("Bytes", Bytes)].
(** What is told of something names a type: as that of a field, an argument or an input field, as a member or as an interface. *)
Definition names_type (s : shown) (k : string) : Prop :=
  match s with
  | SObject _ _ fs is => (exists f, In f fs /\ (type_name (sf_type f) = k \/ exists a, In a (sf_args f) /\ type_name (si_type a) = k)) \/ In k is
  | SInterface _ _ fs _ => exists f, In f fs /\ type_name (sf_type f) = k
  | SInput _ _ fs => exists f, In f fs /\ type_name (si_type f) = k
  | SUnion _ _ ts => In k ts
  | _ => False
  end.
(** Names that start with two underscores belong to introspection. *)
Definition reserved (n : string) : Prop := exists rest, n = ("__" ++ rest)%string.
