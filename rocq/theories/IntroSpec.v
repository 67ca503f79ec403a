(** Vocabulary for introspection (C73). *)
From Coq Require Import String Bool List.
From Verif Require Import Base JsonModel BuilderModel IntroModel.
Import ListNotations.
Open Scope string_scope.
Open Scope list_scope.

(** A field under which a selection appears. *)
Definition shown_as (s : selection) : option string :=
  match s with SField alias name _ _ _ => Some (match alias with Some a => a | None => name end) | _ => None end.
(** The field asks about the schema. *)
Definition about_schema (s : selection) : Prop :=
  match s with SField _ name _ _ _ => name = "__schema" \/ name = "__type" | _ => False end.
(** [s] is the first of the selections that is shown as [k]. *)
Definition first_shown (l : list selection) (k : string) (s : selection) : Prop :=
  exists before after, l = before ++ s :: after /\ shown_as s = Some k /\ forall x, In x before -> shown_as x <> Some k.
(** The members of two objects: all of the first, then those of the second that the first does not have. *)
Inductive joined (first : list (string * value)) : list (string * value) -> list (string * value) -> Prop :=
| joined_none : joined first [] first
| joined_new l k v r : joined first l r -> ~ In k (map fst r) -> joined first (l ++ [(k, v)]) (r ++ [(k, v)])
| joined_old l k v r : joined first l r -> In k (map fst r) -> joined first (l ++ [(k, v)]) r.
