(** Union/interface discrimination: src/core/ir/discriminator.rs and
    src/core/ir/discriminator/. *)
From Coq Require Import String Bool List.
From Verif Require Import Base JsonModel.
Import ListNotations.
Open Scope string_scope.
Open Scope list_scope.

(** src/core/ir/discriminator.rs:103 *)
Definition TYPENAME_FIELD : string := "__typename".

(** src/core/ir/discriminator.rs:111-115 *)
Definition get_type_name (v : value) : option string :=
  match get_key TYPENAME_FIELD v with Some x => as_str x | None => None end.

(** src/core/ir/discriminator.rs:117-126; [insert_key] on an [IndexMap] keeps
    the position of an existing key.  Error texts are shortened throughout. *)
Definition set_type_name (type_name : string) (v : value) : result value string :=
  match v with
  | VNull => Ok VNull
  | VObj m => Ok (VObj (aset TYPENAME_FIELD (VStr type_name) m))
  | _ => Err "Cannot discriminate the type of a non object type."
  end.

(** src/core/ir/discriminator.rs:28-34, type_field_discriminator.rs:19-26,
    keyed_discriminator.rs:18-23.  [types] is a [BTreeSet]. The [type_name],
    used in error texts only, is left out. *)
Inductive discriminator : Type :=
| Keyed (types : list string)
| TypeField (typename_field : string) (types : list string).

(** src/core/ir/discriminator.rs:46-65 *)
Definition new_discriminator (types : list string) (typename_field : option string)
  : result discriminator string :=
  match typename_field with
  | Some f => if String.eqb f "" then Err "The `field` cannot be an empty string"
              else Ok (TypeField f types)
  | None => Ok (Keyed types)
  end.

(** src/core/ir/discriminator/keyed_discriminator.rs:39-62 *)
Definition keyed_resolve (types : list string) (v : value) : result string string :=
  match v with
  | VNull => Ok "NULL"
  | VObj [(name, _)] =>
      if smem name types then Ok name else Err "not in the list of acceptable types"
  | VObj [] => Err "contains no keys"
  | VObj _ => Err "contains more than one keys"
  | _ => Err "can only use object values"
  end.

(** src/core/ir/discriminator/keyed_discriminator.rs:66-78 *)
Definition keyed_resolve_and_set (types : list string) (v : value) : result value string :=
  rbind (keyed_resolve types v) (fun type_name =>
    match v with
    | VObj ((_, inner) :: _) => set_type_name type_name inner
    | _ => Err "can only use object values"
    end).

(** src/core/ir/discriminator/type_field_discriminator.rs:45-68 *)
Definition field_resolve (field : string) (types : list string) (v : value) : result string string :=
  match v with
  | VNull => Ok "NULL"
  | VObj m =>
      match aget field m with
      | None => Err "does not contain the type name field"
      | Some (VStr type_name) =>
          if smem type_name types then Ok type_name
          else Err "not in the list of acceptable types"
      | Some _ => Err "requires the field to be of type string"
      end
  | _ => Err "can only use object values"
  end.

(** src/core/ir/discriminator/type_field_discriminator.rs:72-76 *)
Definition field_resolve_and_set (field : string) (types : list string) (v : value) : result value string :=
  rbind (field_resolve field types v) (fun type_name => set_type_name type_name v).

(** src/core/ir/discriminator.rs:69-93.  A list has no type name, so the test
    of lines 71-73 only concerns objects. *)
Fixpoint resolve_type (d : discriminator) (v : value) : result value string :=
  match get_type_name v with
  | Some _ => Ok v
  | None =>
      match v with
      | VNull => Ok VNull
      | VList arr =>
          (fix go (l : list value) (acc : list value) : result value string :=
             match l with
             | [] => Ok (VList (rev acc))
             | x :: t =>
                 match resolve_type d x with
                 | Ok y => go t (y :: acc)
                 | Err e => Err e
                 end
             end) arr []
      | VObj _ =>
          match d with
          | Keyed types => keyed_resolve_and_set types v
          | TypeField field types => field_resolve_and_set field types v
          end
      | _ => Err "Discriminator can only determine the types of arrays or objects"
      end
  end.
