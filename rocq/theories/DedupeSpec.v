(** Vocabulary for deduplication (C12). *)
From Coq Require Import Bool Arith List.
From Verif Require Import Base DedupeModel.
Import ListNotations.
Open Scope list_scope.

Section Spec.
  Context {K V : Type}.
  Notation state := (state (K := K) (V := V)).

  (** Call [i], made with key [k], is in phase [p]. *)
  Definition is (s : state) (i : nat) (k : K) (p : phase (V := V)) : Prop := s_calls s i = Some (k, p).

  (** In the history [ls], some call with key [k] executed and returned [v]. *)
  Definition Executed (ls : list (label (K := K) (V := V))) (k : K) (v : V) : Prop :=
    exists j, In (Arrive j k) ls /\ In (Finish j v) ls.
End Spec.
