(** Introspection: which operations ask for it (src/core/jit/builder.rs), how an operation is answered
    then (src/core/jit/exec_const.rs), and how the two answers become one (src/core/jit/response.rs). *)
From Coq Require Import String Ascii Bool List.
From Verif Require Import Base JsonModel BuilderModel.
Import ListNotations.
Open Scope string_scope.
Open Scope list_scope.

(** [str::contains] *)
Fixpoint contains (needle s : string) : bool :=
  String.prefix needle s || match s with "" => false | String _ s => contains needle s end.

(** src/core/jit/builder.rs:366-373 *)
Definition is_introspection_query (o : operation) : bool :=
  existsb (fun s => match s with
                    | SField _ name _ _ _ => contains "__schema" name || contains "__type" name
                    | _ => false
                    end) (o_sel o).

(** src/core/jit/response.rs:12-23.  The cache control is left out. *)
Record response (E : Type) : Type := { r_data : value; r_errors : list E; r_extensions : list (string * value) }.
Arguments r_data {E}. Arguments r_errors {E}. Arguments r_extensions {E}.

Section Execute.
  Context {E : Type}.
  (** src/core/jit/response.rs:25-34 and 48-53 *)
  Definition failed (errors : list E) : response E := {| r_data := VNull; r_errors := errors; r_extensions := [] |}.

  (** src/core/jit/response.rs:66-79; [insert_key] of a key that is not there appends it *)
  Definition add_missing (self : list (string * value)) (kv : string * value) : list (string * value) :=
    match aget (fst kv) self with None => self ++ [kv] | Some _ => self end.
  Definition merge_data (self other : value) : value :=
    match other with
    | VObj o => match self with VObj s => VObj (fold_left add_missing o s) | _ => other end
    | _ => self
    end.
  (** src/core/jit/response.rs:64-91 *)
  Definition merge_with (self other : response E) : response E :=
    {| r_data := merge_data (r_data self) (r_data other); r_errors := r_errors self ++ r_errors other;
       r_extensions := r_extensions self ++ r_extensions other |}.

  (** src/core/jit/exec_const.rs:37-108: the guards ([Err] if one does not hold), the values of the
      variables ([Err] if one is missing), the operation's own answer, and what the library says of the
      schema for the same request. *)
  Definition execute (enabled asks : bool) (before input : option E) (own schema : response E) : response E :=
    match before with
    | Some e => failed [e]
    | None =>
        let is_introspection_query := enabled && asks in
        match input with
        | Some e => failed [e]
        | None => if is_introspection_query then merge_with own schema else own
        end
    end.
End Execute.
