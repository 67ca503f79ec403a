(** What running transformations one after the other means (C44). *)
From Coq Require Import String Bool List.
From Verif Require Import Base ComposeModel.
Import ListNotations.
Open Scope list_scope.

Section Spec.
  Context {S E : Type}.
  (** the errors of an outcome *)
  Definition errors (x : checked S E) : list (cause E) := match x with Ok _ => [] | Err e => e end.
  (** One after the other, each from where the one before it left off: all succeed and
      end in [s']. *)
  Inductive succeeds : list (S -> checked S E) -> S -> S -> Prop :=
  | succeeds_nil s : succeeds [] s s
  | succeeds_cons f l s s1 s2 : f s = Ok s1 -> succeeds l s1 s2 -> succeeds (f :: l) s s2.
  (** Stopped at the first that fails, with its errors. *)
  Inductive stops : list (S -> checked S E) -> S -> list (cause E) -> Prop :=
  | stops_here f l s e : f s = Err e -> stops (f :: l) s e
  | stops_later f l s s1 e : f s = Ok s1 -> stops l s1 e -> stops (f :: l) s e.
  (** All are run; one that fails leaves the state as it was; [es] are the errors of all
      in order. *)
  Inductive reports : list (S -> checked S E) -> S -> S -> list (cause E) -> Prop :=
  | reports_nil s : reports [] s s []
  | reports_ok f l s s1 s2 es : f s = Ok s1 -> reports l s1 s2 es -> reports (f :: l) s s2 es
  | reports_err f l s s2 e es : f s = Err e -> reports l s s2 es -> reports (f :: l) s s2 (e ++ es).
End Spec.
