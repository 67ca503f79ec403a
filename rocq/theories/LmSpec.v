(** Vocabulary for the limits of operations (C102). *)
From Coq Require Import String ZArith NArith Bool List.
From Verif Require Import Base JsonModel LmModel.
Import ListNotations.
Open Scope string_scope.

(** The user limits the time of operations. *)
Definition limited (s : settings) (ms : N) : Prop := (0 < ms)%N /\ s_timeout s = Some (Z.of_N ms).
Definition unlimited (s : settings) : Prop := s_timeout s = None \/ exists z, s_timeout s = Some z /\ (z <= 0)%Z.
Definition traces (s : settings) : Prop := s_tracing s = Some true.
Definition validates (s : settings) : Prop := s_validation s = Some true.
(** The operation keeps to the rules that are checked. *)
Definition accepted (s : settings) (o : operation) : Prop := (validates s -> o_strict o = true) /\ (~ validates s -> o_fast o = true).
(** The same but for a note about tracing *)
Definition noted (s : settings) (a b : response) : Prop :=
  r_data b = r_data a /\ r_errors b = r_errors a /\
  (traces s -> r_extensions b = r_extensions a ++ ["tracing"])%list /\ (~ traces s -> r_extensions b = r_extensions a).
Definition out_of_time : response := {| r_data := VNull; r_errors := ["Global timeout"]; r_extensions := [] |}.
