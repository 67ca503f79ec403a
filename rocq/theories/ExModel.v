(** Fields with [@expr]: src/core/blueprint/operators/expr.rs. *)
From Coq Require Import String Ascii Bool List.
From Verif Require Import Base JsonModel SchemaModel TypeModel ConfigModel GsModel MustacheModel CtxModel CallModel.
Import ListNotations.
Open Scope string_scope.
Open Scope list_scope.

(** [BlueprintError::InvalidJson] and what [BlueprintError::from_validation_str] makes of a failed check (its messages are left out) *)
Inductive ex_error : Type := InvalidJson (e : string) | DoesNotFit.
(** expr.rs:9-21; [None] stands for no result with this much recursion *)
Definition validate_data_with_schema (c : config) (fuel : nat) (t : typ) (v : value) : option (result unit ex_error) :=
  match to_json_schema c fuel t with
  | None => None
  | Some s => Some (if validate s v then Ok tt else Err DoesNotFit)
  end.
(** expr.rs:30-60; resolver.rs:45-48 is the only caller and sets [validate] *)
Definition compile_expr (c : config) (fuel : nat) (t : typ) (body : value) (check : bool) : option (result dynamic ex_error) :=
  let d := dynamic_of body in
  if negb (dynamic_is_const d) then Some (Ok d)
  else match const_value d with
       | Err e => Some (Err (InvalidJson e))
       | Ok v =>
           match (if check then validate_data_with_schema c fuel t v else Some (Ok tt)) with
           | None => None
           | Some (Ok _) => Some (Ok d)
           | Some (Err e) => Some (Err e)
           end
       end.
