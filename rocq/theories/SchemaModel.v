(** src/core/json/json_schema.rs *)
From Coq Require Import String Ascii ZArith NArith Bool List.
From Verif Require Import Base JsonModel.
Import ListNotations.
Open Scope string_scope.
Open Scope list_scope.

(** src/core/json/json_schema.rs:11-21.  [BTreeMap] and [BTreeSet] are lists
    in key order. *)
Inductive schema : Type :=
| SObj (fields : list (string * schema))
| SArr (s : schema)
| SOpt (s : schema)
| SEnum (variants : list string)
| SStr
| SNum
| SBool
| SEmpty
| SAny.

(** src/core/json/json_schema.rs:233-239 *)
Definition is_optional (s : schema) : bool :=
  match s with SOpt _ => true | _ => false end.
Definition is_required (s : schema) : bool := negb (is_optional s).

(** src/core/json/json_schema.rs:95-153; only success or failure is kept, not
    the messages.  [Valid::from_iter] succeeds iff all items do. *)
Fixpoint validate (s : schema) (v : value) {struct s} : bool :=
  match s with
  | SStr => match v with VStr _ => true | _ => false end
  | SNum => match v with VNum _ => true | _ => false end
  | SBool => match v with VBool _ => true | _ => false end
  | SEmpty => match v with VNull => true | VObj [] => true | _ => false end
  | SAny => true
  | SArr s' => match v with VList l => forallb (validate s') l | _ => false end
  | SObj fields =>
      match v with
      | VObj m =>
          (fix all (fs : list (string * schema)) : bool :=
             match fs with
             | [] => true
             | (name, fs') :: t =>
                 (if is_required fs'
                  then match aget name m with
                       | Some fv => validate fs' fv
                       | None => false
                       end
                  else match aget name m with
                       | Some fv => validate fs' fv
                       | None => true
                       end) && all t
             end) fields
      | _ => false
      end
  | SOpt s' => match v with VNull => true | _ => validate s' v end
  | SEnum _ => true
  end.

Fixpoint list_eqb (a b : list string) : bool :=
  match a, b with
  | [], [] => true
  | x :: a', y :: b' => String.eqb x y && list_eqb a' b'
  | _, _ => false
  end.

(** src/core/json/json_schema.rs:156-227, [self.is_a(super_type)], success only. *)
Fixpoint is_a (sub super : schema) {struct super} : bool :=
  match super with
  | SAny => true
  | SStr => match sub with SStr => true | _ => false end
  | SNum => match sub with SNum => true | _ => false end
  | SBool => match sub with SBool => true | _ => false end
  | SEmpty => match sub with SEmpty => true | _ => false end
  | SObj expected =>
      match sub with
      | SObj actual =>
          (fix all (es : list (string * schema)) : bool :=
             match es with
             | [] => true
             | (key, e) :: t =>
                 match aget key actual with
                 | Some a => is_a a e
                 | None => false
                 end && all t
             end) expected
      | _ => false
      end
  | SArr expected =>
      match sub with SArr actual => is_a actual expected | _ => false end
  | SOpt expected =>
      match sub with SOpt actual => is_a actual expected | _ => is_a sub expected end
  | SEnum expected =>
      match sub with SEnum actual => list_eqb actual expected | _ => false end
  end.
