(** C25 (cache control) and C42 (bodies). *)
From Coq Require Import String Ascii ZArith NArith Bool Permutation List.
From Verif Require Import Base JsonModel AnswerModel AnswerSpec AnswerProofs.
Import ListNotations.
Open Scope list_scope.
Open Scope string_scope.

(** Witnesses: an answer valid for a minute, one valid for five seconds and private, and
    one that must not be cached. *)
Definition policy25 (a : option Z) (c : option cachability) : policy :=
  {| p_max_age := a; p_cachability := c; p_no_store := false |}.
Definition up25 (p : policy) : upstream := {| a_success := true; a_policy := Some p; a_reused := false |}.
Definition again25 (p : policy) : upstream := {| a_success := true; a_policy := Some p; a_reused := true |}.
Definition minute25 : policy := policy25 (Some 60%Z) None.
Definition short25 : policy := policy25 (Some 5%Z) (Some Private).
Definition never25 : policy := policy25 None (Some NoCache).
Definition resp25 (ok : bool) (s : string) : any_response := {| r_body := s; r_cc := cc_default; r_ok := ok |}.
Definition one25 : batch_response := Single (resp25 true "{}").
Definition two25 : batch_response := Batch [resp25 true "{""data"":1}"; resp25 true "{""data"":2}"].

(** The announced max-age is positive, at most that of every answer fetched, and none of
    them said no-cache. *)
Theorem C25_max_age_is_a_lower_bound : forall l b h n,
  o_cache (graphql_answer true (note_answers true l) b) = Some h -> says_max_age h n ->
  (0 < n)%Z /\
  forall p, fetched l p ->
    (forall a, p_max_age p = Some a -> (0 <= a)%Z -> (n <= a)%Z) /\ p_cachability p <> Some NoCache.
Proof. exact max_age_bounded. Qed.
Print Assumptions C25_max_age_is_a_lower_bound.

(** One private answer makes the response private. *)
Theorem C25_private_is_kept : forall l b p,
  batch_is_ok b = true -> nonempty_batch b -> fetched l p -> p_cachability p = Some Private ->
  exists h, o_cache (graphql_answer true (note_answers true l) b) = Some h /\ says_private h.
Proof. exact marked_private. Qed.
Print Assumptions C25_private_is_kept.

(** One no-cache answer makes the response no-cache.  The bound on the ages is needed, see
    [C25_no_cache_lost_refuted]. *)
Theorem C25_no_cache_is_kept_partial : forall l b p,
  batch_is_ok b = true -> nonempty_batch b -> fetched l p -> p_cachability p = Some NoCache ->
  (forall q a, fetched l q -> p_max_age q = Some a -> (0 <= a < 2 ^ 31)%Z) ->
  exists h, o_cache (graphql_answer true (note_answers true l) b) = Some h /\ says_no_cache h.
Proof. exact marked_no_cache. Qed.
Print Assumptions C25_no_cache_is_kept_partial.

(** The order in which the answers arrive does not matter. *)
Theorem C25_order_is_irrelevant : forall l l' b, Permutation l l' ->
  graphql_answer true (note_answers true l) b = graphql_answer true (note_answers true l') b.
Proof. intros l l' b P. f_equal. now apply note_answers_order. Qed.
Print Assumptions C25_order_is_irrelevant.

(** A batch says what a single response would have said. *)
Theorem C25_batches_agree : forall l b r,
  batch_is_ok b = true -> nonempty_batch b -> r_ok r = true ->
  o_cache (graphql_answer true (note_answers true l) b) =
  o_cache (graphql_answer true (note_answers true l) (Single r)).
Proof. intros l b r O N R. rewrite (answer_cache l b O N). symmetry. now apply answer_cache. Qed.
Print Assumptions C25_batches_agree.

Example C25_witness :
  o_cache (graphql_answer true (note_answers true [up25 minute25; up25 short25]) two25) = Some "max-age=5, private" /\
  o_cache (graphql_answer true (note_answers true [up25 short25; up25 never25]) one25) = Some "no-cache, private" /\
  says_max_age "max-age=5, private" 5 /\ fetched [up25 minute25; up25 short25] minute25 /\ nonempty_batch two25.
Proof.
  repeat split; try reflexivity; [now right| |discriminate].
  exists (up25 minute25). cbn. auto.
Qed.

(** Without the setting a batch announces what its members brought along: an age that
    suits all of them, no-cache if one of them says so, private if one of them is. *)
Theorem C25_batch_age_suits_every_member : forall c rs h n,
  o_cache (graphql_answer false c (Batch rs)) = Some h -> says_max_age h n ->
  (0 < n)%Z /\
  forall r, In r rs -> cc_age (r_cc r) <> (-1)%Z /\ (cc_age (r_cc r) <> 0 -> n <= cc_age (r_cc r))%Z.
Proof. intros c rs h n H. exact (batch_policies c rs h H n). Qed.
Print Assumptions C25_batch_age_suits_every_member.
Theorem C25_batch_keeps_no_cache_and_private : forall c rs r, batch_is_ok (Batch rs) = true -> In r rs ->
  (cc_age (r_cc r) = (-1)%Z -> exists h, o_cache (graphql_answer false c (Batch rs)) = Some h /\ says_no_cache h) /\
  (cc_public (r_cc r) = false -> exists h, o_cache (graphql_answer false c (Batch rs)) = Some h /\ says_private h).
Proof. exact batch_marks. Qed.
Print Assumptions C25_batch_keeps_no_cache_and_private.

Definition member25 (a : Z) (p : bool) : any_response :=
  {| r_body := "{}"; r_cc := {| cc_age := a; cc_public := p |}; r_ok := true |}.
Example C25_batch_witness :
  o_cache (graphql_answer false cache_ctx_new (Batch [member25 60 true; member25 0 true; member25 5 false])) = Some "max-age=5, private" /\
  o_cache (graphql_answer false cache_ctx_new (Batch [member25 60 true; member25 (-1) true; member25 5 false])) = Some "no-cache, private".
Proof. split; reflexivity. Qed.

(** Nothing is announced when an operation of the batch failed. *)
Theorem C25_errors_are_not_cacheable : forall enabled c b,
  batch_is_ok b = false -> o_cache (graphql_answer enabled c b) = None.
Proof. intros enabled c b H. unfold graphql_answer. cbn. now rewrite H. Qed.
Print Assumptions C25_errors_are_not_cacheable.

(** Answers noted on several threads: what remains is a value some answer asked for. *)
Theorem C25_threads_leave_a_policy : forall todos schedule z,
  s_age (race_run (race_start todos) schedule) = Some z -> In z (concat todos).
Proof. exact race_one_of. Qed.
Print Assumptions C25_threads_leave_a_policy.

(** And the smallest of them, if no update is interrupted. *)
Theorem C25_uninterrupted_updates_leave_the_smallest : forall todos schedule,
  uninterrupted (race_start todos) schedule -> race_done (race_run (race_start todos) schedule) -> concat todos <> [] ->
  exists z, s_age (race_run (race_start todos) schedule) = Some z /\ smallest z (concat todos).
Proof. exact race_smallest. Qed.
Print Assumptions C25_uninterrupted_updates_leave_the_smallest.

Example C25_uninterrupted_witness :
  let s := race_start [[60%Z; 7%Z]; [5%Z]] in
  uninterrupted s [0; 0; 1; 1; 0]%nat /\ race_done (race_run s [0; 0; 1; 1; 0]%nat) /\
  s_age (race_run s [0; 0; 1; 1; 0]%nat) = Some 5%Z.
Proof.
  cbn zeta. split; [|split; [|reflexivity]].
  - intros before j after i t E N P.
    do 5 (destruct before as [|? before];
          [injection E as <- _; destruct i as [|[|[|i]]]; cbn in N; try discriminate; injection N as <-; cbn in P; congruence
          |injection E as <- E]).
    destruct before; discriminate.
  - intros t [<-|[<-|[]]]; split; reflexivity.
Qed.

(** Finding: but otherwise not the smallest one, because the value is read and written in two
    separate critical sections.  The resolvers of one request are polled by one task
    today, so this does not happen unless they are spawned. *)
Theorem C25_parallel_updates_refuted : exists todos schedule,
  race_done (race_run (race_start todos) schedule) /\
  In 5%Z (concat todos) /\ s_age (race_run (race_start todos) schedule) = Some 60%Z.
Proof.
  exists [[60%Z]; [5%Z]], [0; 1; 1; 0]%nat. split; [|split; [right; now left|reflexivity]].
  intros t [<-|[<-|[]]]; split; reflexivity.
Qed.
Print Assumptions C25_parallel_updates_refuted.

(** Finding: the policy of an answer taken over from the response cache or from a call
    another request had in flight is forgotten, even if it was private. *)
Theorem C25_reused_answers_refuted : exists a p,
  a_success a = true /\ a_policy a = Some p /\ p_cachability p = Some Private /\
  o_cache (graphql_answer true (note_answers true [a; up25 minute25]) one25) = Some "max-age=60".
Proof. exists (again25 short25), short25. repeat split; reflexivity. Qed.
Print Assumptions C25_reused_answers_refuted.

(** Finding: no-store is not looked at. *)
Theorem C25_no_store_refuted : exists p,
  p_no_store p = true /\ o_cache (graphql_answer true (note_answers true [up25 p]) one25) = Some "max-age=60".
Proof. exists {| p_max_age := Some 60%Z; p_cachability := None; p_no_store := true |}. split; reflexivity. Qed.
Print Assumptions C25_no_store_refuted.

(** Finding: an age of 2^31 seconds wraps to a negative number, which hides the no-cache
    of another answer. *)
Theorem C25_no_cache_lost_refuted : exists l p,
  fetched l p /\ p_cachability p = Some NoCache /\
  o_cache (graphql_answer true (note_answers true l) one25) = None.
Proof.
  exists [up25 never25; up25 (policy25 (Some 2147483648%Z) None)], never25. repeat split.
  exists (up25 never25). cbn. auto.
Qed.
Print Assumptions C25_no_cache_lost_refuted.

(** * C42 *)

(** The body of a batch denotes the list of the values its members denote, in order,
    whatever the texts of scalars and names are. *)
Theorem C42_batch_body_is_the_list : forall atom key rs vs,
  Forall2 (fun r v => text atom key (r_body r) v) rs vs ->
  forall enabled c, text atom key (o_body (graphql_answer enabled c (Batch rs))) (VList vs).
Proof. intros atom key rs vs F enabled c. now apply batch_body_text. Qed.
Print Assumptions C42_batch_body_is_the_list.

Theorem C42_single_body_is_unchanged : forall enabled c r,
  o_body (graphql_answer enabled c (Single r)) = r_body r.
Proof. reflexivity. Qed.
Print Assumptions C42_single_body_is_unchanged.

Definition atom42 (s : string) (v : value) : Prop :=
  (s = "1" /\ v = VNum (NInt 1)) \/ (s = "2" /\ v = VNum (NInt 2)).
Definition key42 (s n : string) : Prop := s = """" ++ n ++ """".
Example C42_witness :
  o_body (graphql_answer true cache_ctx_new two25) = "[{""data"":1},{""data"":2}]" /\
  Forall2 (fun r v => text atom42 key42 (r_body r) v)
    [resp25 true "{""data"":1}"; resp25 true "{""data"":2}"] [VObj [("data", VNum (NInt 1))]; VObj [("data", VNum (NInt 2))]].
Proof.
  split; [reflexivity|]. apply Forall2_cons; [|apply Forall2_cons; [|apply Forall2_nil]].
  - apply (text_obj atom42 key42 """data"":1"), (members_one atom42 key42 """data""" "data" "1"); [reflexivity|].
    apply text_atom. now left.
  - apply (text_obj atom42 key42 """data"":2"), (members_one atom42 key42 """data""" "data" "2"); [reflexivity|].
    apply text_atom. now right.
Qed.

(** A REST call that succeeds is answered with the data of its only field, and otherwise
    with a status saying so. *)
Theorem C42_rest_body_is_unwrapped : forall to_text error_text enabled c data,
  exists v, unwrapped data v /\
  let o := rest_answer to_text error_text enabled true c data in
  o_status o = 200%Z /\ o_body o = to_text v.
Proof. intros. exists (flatten_response data). split; [apply flatten_spec|]. split; reflexivity. Qed.
Print Assumptions C42_rest_body_is_unwrapped.
Theorem C42_rest_errors_have_a_status : forall to_text error_text enabled c data,
  let o := rest_answer to_text error_text enabled false c data in
  o_status o = 500%Z /\ o_cache o = None /\ o_body o = error_text.
Proof. intros. repeat split; reflexivity. Qed.
Print Assumptions C42_rest_errors_have_a_status.
Example C42_rest_witness :
  unwrapped (VObj [("user", VObj [("id", VNum (NInt 1)); ("name", VStr "Ann")])]) (VObj [("id", VNum (NInt 1)); ("name", VStr "Ann")]) /\
  unwrapped (VObj [("a", VNull); ("b", VNull)]) (VObj [("a", VNull); ("b", VNull)]).
Proof. split; [left; eexists; reflexivity|]. right. split; [reflexivity|discriminate]. Qed.

(** A header about caching is only sent when every operation of the batch succeeded. *)
Theorem C42_cache_header_needs_success : forall enabled c l h,
  o_cache (graphql_answer enabled c (Batch l)) = Some h -> forall r, In r l -> r_ok r = true.
Proof.
  intros enabled c l h H. apply batch_is_ok_iff. unfold graphql_answer in H. cbn [o_cache] in H.
  destruct (batch_is_ok (Batch l)); congruence.
Qed.
Print Assumptions C42_cache_header_needs_success.
