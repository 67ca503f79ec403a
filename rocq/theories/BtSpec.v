(** Vocabulary for checking and starting (C96). *)
From Coq Require Import String Ascii NArith Bool List.
From Verif Require Import Base LkModel BtModel.
Import ListNotations.
Open Scope string_scope.

(** Every reference to a graph in a blueprint was accepted (C88). *)
Definition graphs_accepted {Cfg Bp} (blueprint_of : Cfg -> result Bp string) (graph_ref : Bp -> option string) : Prop :=
  forall c b r, blueprint_of c = Ok b -> graph_ref b = Some r -> exists others e, validate_apollo r others = Ok e.
(** The address that stands for all addresses *)
Inductive unspecified : ip -> Prop :=
| U4 : unspecified (V4 0 0 0 0)
| U6 : forall l, (forall n, In n l -> n = 0%N) -> unspecified (V6 l).
