(** What it means for a value to conform to a schema. *)
From Coq Require Import String Ascii Bool List.
From Verif Require Import Base JsonModel SchemaModel.
Import ListNotations.

(** An object conforms if every field schema is met: an optional field may be
    absent or null, any other field must be present. *)
Inductive conforms : schema -> value -> Prop :=
| conf_any v : conforms SAny v
| conf_str s : conforms SStr (VStr s)
| conf_num n : conforms SNum (VNum n)
| conf_bool b : conforms SBool (VBool b)
| conf_empty_null : conforms SEmpty VNull
| conf_empty_obj : conforms SEmpty (VObj [])
| conf_enum_str vs x : In x vs -> conforms (SEnum vs) (VStr x)
| conf_enum vs x : In x vs -> conforms (SEnum vs) (VEnum x)
| conf_arr s l : Forall (conforms s) l -> conforms (SArr s) (VList l)
| conf_opt_null s : conforms (SOpt s) VNull
| conf_opt s v : conforms s v -> conforms (SOpt s) v
| conf_obj fs m :
    (forall k s, In (k, s) fs ->
       (exists v, aget k m = Some v /\ conforms s v) \/
       (aget k m = None /\ exists s', s = SOpt s')) ->
    conforms (SObj fs) (VObj m).

(** Schemas as the code builds them: object keys are map keys, hence distinct. *)
Inductive wf_schema : schema -> Prop :=
| wf_obj fs : NoDup (akeys fs) -> Forall (fun kv => wf_schema (snd kv)) fs -> wf_schema (SObj fs)
| wf_arr s : wf_schema s -> wf_schema (SArr s)
| wf_opt s : wf_schema s -> wf_schema (SOpt s)
| wf_enum vs : wf_schema (SEnum vs)
| wf_str : wf_schema SStr
| wf_num : wf_schema SNum
| wf_bool : wf_schema SBool
| wf_empty : wf_schema SEmpty
| wf_any : wf_schema SAny.

(** No enum anywhere. *)
Inductive enum_free : schema -> Prop :=
| ef_obj fs : Forall (fun kv => enum_free (snd kv)) fs -> enum_free (SObj fs)
| ef_arr s : enum_free s -> enum_free (SArr s)
| ef_opt s : enum_free s -> enum_free (SOpt s)
| ef_str : enum_free SStr
| ef_num : enum_free SNum
| ef_bool : enum_free SBool
| ef_empty : enum_free SEmpty
| ef_any : enum_free SAny.

(** No object requires a field of the unconstrained type. *)
Inductive no_any_field : schema -> Prop :=
| na_obj fs :
    Forall (fun kv => snd kv <> SAny /\ no_any_field (snd kv)) fs -> no_any_field (SObj fs)
| na_arr s : no_any_field s -> no_any_field (SArr s)
| na_opt s : no_any_field s -> no_any_field (SOpt s)
| na_enum vs : no_any_field (SEnum vs)
| na_str : no_any_field SStr
| na_num : no_any_field SNum
| na_bool : no_any_field SBool
| na_empty : no_any_field SEmpty
| na_any : no_any_field SAny.
