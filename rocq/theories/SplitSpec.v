(** Vocabulary for batched GraphQL and gRPC calls (C40). *)
From Coq Require Import String Bool List.
From Verif Require Import Base JsonModel HttpBatchModel.
Import ListNotations.
Open Scope string_scope.

(** [b] is the call [first] with another body: same method, address, query and headers. *)
Definition with_other_body (first b : req) : Prop :=
  q_get b = q_get first /\ q_base b = q_base first /\ q_query b = q_query first /\ q_headers b = q_headers first.
