(** C12: calls with the same key share one execution, and nobody is lost.

    [steps new ls = Some s]: [ls] is a possible history of one deduplicator, [s] the
    state it leads to.  Calls arrive, run their atomic steps, receive, finish and are
    dropped in any order. *)
From Coq Require Import Bool Arith List.
From Verif Require Import Base DedupeModel DedupeSpec DedupeProofs.
Import ListNotations.
Open Scope list_scope.

Section Claims.
  Context {K V : Type}.
  Variable keq : forall a b : K, {a = b} + {a <> b}.
  Variable persist : bool.
  Notation state := (state (K := K) (V := V)).
  Notation step := (step keq persist).
  Notation steps := (steps keq persist).

  (** At no time two calls with one key execute. *)
  Theorem C12_one_execution_per_key_at_a_time :
    forall ls (s : state) i j k,
      steps new ls = Some s -> is s i k Executing -> is s j k Executing -> i = j.
  Proof. exact (one_executes keq persist). Qed.

  (** A call that arrives while another with its key executes joins it ... *)
  Theorem C12_a_call_joins_a_running_execution :
    forall ls (s : state) i j k, steps new ls = Some s -> is s i k Trying -> is s j k Executing ->
      exists s', step s (Step i) = Some s' /\ is s' i k (Awaiting j) /\ forall i', i' <> i -> s_calls s' i' = s_calls s i'.
  Proof. exact (step_joins keq persist). Qed.

  (** ... and from then on can only wait, be dropped, or return what that one returns. *)
  Theorem C12_joined_calls_get_the_result :
    forall l1 (s1 : state) i j k, steps new l1 = Some s1 -> is s1 i k (Awaiting j) ->
    forall l2 s2 v, steps s1 l2 = Some s2 -> In (Finish j v) (l1 ++ l2) ->
      is s2 i k (Awaiting j) \/ is s2 i k Dropped \/ is s2 i k (Returned v).
  Proof. exact (joined keq persist). Qed.
  Theorem C12_a_finished_execution_releases_the_waiting :
    forall ls (s : state) i j k v, steps new ls = Some s -> is s i k (Awaiting j) -> In (Finish j v) ls ->
      exists s', step s (Receive i) = Some s' /\ is s' i k (Returned v).
  Proof. exact (receive_value keq persist). Qed.

  (** If the executing call is dropped, those waiting for it are released and try again ... *)
  Theorem C12_a_dropped_execution_releases_the_waiting :
    forall ls (s : state) i j k, steps new ls = Some s -> is s i k (Awaiting j) -> is s j k Dropped ->
      exists s', step s (Receive i) = Some s' /\ is s' i k Trying.
  Proof. exact (receive_retry keq persist). Qed.

  (** ... and a trying call executes if nobody with its key does and no result is stored. *)
  Theorem C12_a_call_executes_when_nobody_else_does :
    forall ls (s : state) i k, steps new ls = Some s -> is s i k Trying ->
      (forall j, ~ is s j k Executing) -> (persist = true -> forall v, ~ Executed ls k v) ->
      exists s', step s (Step i) = Some s' /\ is s' i k Executing /\ forall i', i' <> i -> s_calls s' i' = s_calls s i'.
  Proof. exact (step_executes keq persist). Qed.

  (** No call waits for ever: when no execution is under way and no call can move,
      every call has returned or was dropped. *)
  Theorem C12_nobody_waits_in_vain :
    forall ls (s : state) i k p, steps new ls = Some s -> is s i k p ->
      (forall j, step s (Step j) = None) -> (forall j, step s (Receive j) = None) ->
      (forall j k', ~ is s j k' Executing) ->
      p = Dropped \/ exists v, p = Returned v.
  Proof. exact (nobody_stuck keq persist). Qed.

  (** A result was computed by the call itself, or by an execution with the same key
      the call was waiting for when it ended, or, only where results are kept, by an
      earlier execution with the same key. *)
  Theorem C12_where_results_come_from :
    forall ls (s : state) i k v, steps new ls = Some s -> is s i k (Returned v) ->
      In (Finish i v) ls \/
      (exists l1 j l2 s1, ls = l1 ++ Finish j v :: l2 /\ steps new l1 = Some s1 /\
         is s1 j k Executing /\ is s1 i k (Awaiting j)) \/
      (persist = true /\ Executed ls k v).
  Proof. exact (results keq persist). Qed.

  (** Where results are kept, later calls get the stored one, so all calls with a key agree. *)
  Theorem C12_stored_results_are_returned :
    forall ls (s : state) i k v, steps new ls = Some s -> is s i k Trying -> persist = true -> Executed ls k v ->
      exists s', step s (Step i) = Some s' /\ is s' i k (Returned v) /\ forall i', i' <> i -> s_calls s' i' = s_calls s i'.
  Proof. exact (step_stored keq persist). Qed.
  Theorem C12_stored_results_agree :
    forall ls (s : state) i j k v w, steps new ls = Some s -> persist = true ->
      is s i k (Returned v) -> is s j k (Returned w) -> v = w.
  Proof.
    intros ls s i j k v w H P A B. eapply (executed_unique keq persist ls s k v w H P); eapply returned_executed; eauto.
  Qed.
End Claims.
Print Assumptions C12_one_execution_per_key_at_a_time.
Print Assumptions C12_a_call_joins_a_running_execution.
Print Assumptions C12_joined_calls_get_the_result.
Print Assumptions C12_a_finished_execution_releases_the_waiting.
Print Assumptions C12_a_dropped_execution_releases_the_waiting.
Print Assumptions C12_a_call_executes_when_nobody_else_does.
Print Assumptions C12_nobody_waits_in_vain.
Print Assumptions C12_where_results_come_from.
Print Assumptions C12_stored_results_are_returned.
Print Assumptions C12_stored_results_agree.

(** Non-vacuity: call 1 joins call 0, which is dropped; call 1 executes afresh, call 2
    joins it, and call 3, arriving afterwards, gets the kept result or executes. *)
Definition h12 : list (label (K := nat) (V := nat)) :=
  [Arrive 0 5; Step 0; Arrive 1 5; Step 1; Drop 0; Receive 1; Step 1; Arrive 2 5; Step 2; Finish 1 50; Receive 2; Arrive 3 5; Step 3].
Definition phases (persist : bool) (n : nat) : option (list (option (nat * phase))) :=
  match steps Nat.eq_dec persist new (firstn n h12) with
  | Some s => Some (map (s_calls s) [0; 1; 2; 3])
  | None => None
  end.
Example C12_case :
  phases true 13 = Some [Some (5, Dropped); Some (5, Returned 50); Some (5, Returned 50); Some (5, Returned 50)] /\
  phases false 13 = Some [Some (5, Dropped); Some (5, Returned 50); Some (5, Returned 50); Some (5, Executing)] /\
  phases false 4 = Some [Some (5, Executing); Some (5, Awaiting 0); None; None] /\
  phases false 9 = Some [Some (5, Dropped); Some (5, Executing); Some (5, Awaiting 1); None].
Proof. vm_compute. repeat split. Qed.
