(** C40: what the callers of batched upstream GraphQL and gRPC calls get. *)
From Coq Require Import String Ascii Bool Arith ZArith List.
From Verif Require Import Base JsonModel JsonSpec DlModel HttpBatchModel HttpBatchSpec AnswerSpec SplitModel SplitSpec SplitProofs.
Import ListNotations.
Open Scope string_scope.
Open Scope list_scope.

Section Gql.
  Context {Meta Raw E : Type}.
  Variable default : Meta.
  Variable listed : list string.
  Variable execute : req -> result Raw E.
  Variable to_json : Raw -> result (resp (Meta := Meta)) E.
  Notation load := (gql_load listed execute to_json).
  Notation answer := (answer_of default listed).

  (** One call is made: the first caller's, with the array of all bodies.  If the answer
      is an array the i-th caller gets its i-th element, or null if there is none;
      if it is anything else every caller gets null. *)
  Theorem C40_graphql_answers_are_split_by_position :
    forall keys m, NoDup (map (key_of listed) keys) -> load true keys = Ok m ->
      exists first others b raw, keys = first :: others /\ with_other_body first b /\
        q_body b = Some (collect_request_bodies keys) /\ execute b = Ok raw /\
        (forall res vs, to_json raw = Ok res -> r_body res = VList vs ->
           forall i r, nth_error keys i = Some r ->
             answer m r = {| r_meta := r_meta res; r_body := nth i vs VNull |}) /\
        ((forall res vs, to_json raw = Ok res -> r_body res <> VList vs) ->
           forall r, answer m r = {| r_meta := default; r_body := VNull |}).
  Proof. exact (batch_split default listed execute to_json). Qed.

  (** The array of bodies is the JSON array whose i-th element is the i-th caller's body. *)
  Theorem C40_graphql_batch_body_is_the_array_of_bodies :
    forall atom name keys vs,
      Forall2 (fun r v => exists b, q_body r = Some b /\ text atom name b v) keys vs ->
      text atom name (collect_request_bodies keys) (VList vs).
  Proof. exact bodies_text. Qed.

  (** The batch fails exactly if that one call fails. *)
  Theorem C40_graphql_batch_fails_with_its_call :
    forall keys, keys <> [] ->
      ((exists e, load true keys = Err e) <->
       exists first others b e, keys = first :: others /\ b = with_body first (collect_request_bodies keys) /\ execute b = Err e).
  Proof. exact (batch_fails listed execute to_json). Qed.

  (** Without batching each caller gets the answer to its own call, and all fail if one does. *)
  Theorem C40_graphql_unbatched_calls_are_their_own :
    forall keys m, NoDup (map (key_of listed) keys) -> load false keys = Ok m ->
      forall r, In r keys -> exists raw v, execute r = Ok raw /\ to_json raw = Ok v /\ answer m r = v.
  Proof. exact (unbatched_split default listed execute to_json). Qed.
  Theorem C40_graphql_unbatched_calls_fail_together :
    forall keys,
      (exists e, load false keys = Err e) <->
      exists r, In r keys /\ ((exists e, execute r = Err e) \/ exists raw e, execute r = Ok raw /\ to_json raw = Err e).
  Proof. exact (unbatched_fails listed execute to_json). Qed.
End Gql.
Print Assumptions C40_graphql_answers_are_split_by_position.
Print Assumptions C40_graphql_batch_body_is_the_array_of_bodies.
Print Assumptions C40_graphql_batch_fails_with_its_call.
Print Assumptions C40_graphql_unbatched_calls_are_their_own.
Print Assumptions C40_graphql_unbatched_calls_fail_together.

Section Grpc.
  Context {Meta E : Type}.
  Variable default : Meta.
  Variable listed : list string.
  Variable upstream : req -> result (resp (Meta := Meta)) E.
  Variable Msg : Type.
  Variable parse : string -> result Msg E.
  Variable id_of : string -> Msg -> result string E.
  Variable pack : list Msg -> result string E.
  Variable single : req -> result req E.
  Notation load := (grpc_load listed upstream Msg parse id_of pack single).
  Notation answer := (answer_of default listed).

  (** One call is made: the first caller's, with the message that holds the messages of
      all callers in order.  Each caller gets the first of the records that carry the id
      of its own message, or null if no record does. *)
  Theorem C40_grpc_callers_get_the_first_record_of_their_own_id :
    forall g keys m, NoDup (map (key_of listed) keys) -> load (Some g) keys = Ok m ->
      exists first others msgs body res, keys = first :: others /\
        Forall2 (fun r msg => parse (text_of r) = Ok msg) keys msgs /\ pack msgs = Ok body /\
        upstream (with_body first body) = Ok res /\
        forall r, In r keys -> exists msg id, parse (text_of r) = Ok msg /\ id_of (group_key g) msg = Ok id /\
          forall found rs, matches (group_path g) (r_body res) found ->
            Forall (fun kv => exact_id (fst kv)) found -> picked id found rs ->
            answer m r = {| r_meta := r_meta res; r_body := match rs with x :: _ => x | [] => VNull end |}.
  Proof. exact (grouped_split default listed upstream Msg parse id_of pack single). Qed.

  (** A grouped batch fails exactly if some caller's body is no message or lacks the id,
      the messages cannot be packed, or the one call fails. *)
  Theorem C40_grpc_when_a_batch_fails :
    forall g keys, keys <> [] ->
      ((exists e, load (Some g) keys = Err e) <->
       (exists r e, In r keys /\ parse (text_of r) = Err e) \/
       (exists r msg e, In r keys /\ parse (text_of r) = Ok msg /\ id_of (group_key g) msg = Err e) \/
       (exists msgs e, Forall2 (fun r msg => parse (text_of r) = Ok msg) keys msgs /\ pack msgs = Err e) \/
       (exists first others msgs body e, keys = first :: others /\
          Forall2 (fun r msg => parse (text_of r) = Ok msg) keys msgs /\ pack msgs = Ok body /\
          upstream (with_body first body) = Err e)).
  Proof. exact (grouped_fails_iff listed upstream Msg parse id_of pack single). Qed.

  Theorem C40_grpc_ungrouped_calls_are_their_own :
    forall keys m, NoDup (map (key_of listed) keys) -> load None keys = Ok m ->
      forall r, In r keys -> exists q v, single r = Ok q /\ upstream q = Ok v /\ answer m r = v.
  Proof. exact (ungrouped_split default listed upstream Msg parse id_of pack single). Qed.
End Grpc.
Print Assumptions C40_grpc_callers_get_the_first_record_of_their_own_id.
Print Assumptions C40_grpc_when_a_batch_fails.
Print Assumptions C40_grpc_ungrouped_calls_are_their_own.

(** *** Witnesses *)
Definition post40 (body : string) (hs : list (string * string)) : req :=
  {| q_get := false; q_base := "http://u/graphql"; q_query := []; q_headers := hs; q_body := Some body; q_value := None |}.
(** A service that answers a batch of two with two answers naming the sender. *)
Definition exec40 (r : req) : result (option string) nat := Ok (aget "authorization" (q_headers r)).
Definition json40 (who : option string) : result (resp (Meta := nat)) nat :=
  let own n := VObj [("n", VNum (NInt n)); ("for", VStr (match who with Some w => w | None => "" end))] in
  Ok {| r_meta := 200%nat; r_body := VList [own 1%Z; own 2%Z] |}.
Definition one40 : req := post40 "{1}" [("authorization", "ann")].
Definition two40 : req := post40 "{2}" [("authorization", "bob")].
Definition three40 : req := post40 "{3}" [].

Example C40_case :
  NoDup (map (key_of []) [one40; two40; three40]) /\
  exists m, gql_load [] exec40 json40 true [one40; two40; three40] = Ok m /\
    map (fun r => r_body (answer_of 0%nat [] m r)) [one40; two40; three40] =
      [VObj [("n", VNum (NInt 1)); ("for", VStr "ann")]; VObj [("n", VNum (NInt 2)); ("for", VStr "ann")]; VNull] /\
    collect_request_bodies [one40; two40; three40] = "[{1},{2},{3}]".
Proof.
  split.
  - repeat constructor; cbn; intros H; repeat destruct H as [H|H]; try discriminate; auto.
  - eexists. split; [vm_compute; reflexivity|]. split; vm_compute; reflexivity.
Qed.

(** Finding: a batch is sent with the first caller's headers, so the second caller is
    answered as if it were the first, even if the header is listed as one that keeps
    calls apart. *)
Theorem C40_callers_are_answered_as_themselves_refuted :
  exists listed m, gql_load listed exec40 json40 true [one40; two40] = Ok m /\
    In "authorization" listed /\ NoDup (map (key_of listed) [one40; two40]) /\
    aget "authorization" (q_headers two40) = Some "bob" /\
    r_body (answer_of 0%nat listed m two40) = VObj [("n", VNum (NInt 2)); ("for", VStr "ann")].
Proof.
  exists ["authorization"]. eexists. split; [vm_compute; reflexivity|]. split; [now left|].
  split; [|split; vm_compute; reflexivity].
  constructor; [intros [H|[]]; vm_compute in H; discriminate|]. constructor; [intros []|constructor].
Qed.
Print Assumptions C40_callers_are_answered_as_themselves_refuted.

(** gRPC: messages are their ids; the service answers with the records of a table. *)
Definition parse40 (s : string) : result string nat := if String.eqb s "" then Err 1%nat else Ok s.
Definition id40 (field msg : string) : result string nat := Ok msg.
Definition pack40 (l : list string) : result string nat := Ok (String.concat "," l).
Definition rec40 (id : Z) (n : string) : value := VObj [("id", VNum (NInt id)); ("n", VStr n)].
Definition up40 (r : req) : result (resp (Meta := nat)) nat :=
  Ok {| r_meta := 200%nat; r_body := VObj [("items", VList [rec40 2 "b"; rec40 1 "a"; rec40 1 "c"])] |}.
Definition g40 : group := {| g_path := ["items"; "id"]; g_key := None |}.
Definition load40 : list req -> result (list (key * resp (Meta := nat))) grpc_trouble :=
  grpc_load [] up40 string parse40 id40 pack40 (fun r => Ok r) (Some g40).

Example C40_grpc_case :
  exists m, load40 [post40 "1" []; post40 "2" []; post40 "3" []] = Ok m /\ map (fun r => r_body (answer_of 0%nat [] m r)) [post40 "1" []; post40 "2" []; post40 "3" []] =
      [rec40 1 "a"; rec40 2 "b"; VNull] /\ (exists e, load40 [post40 "1" []; post40 "" []] = Err e).
Proof.
  eexists. split; [vm_compute; reflexivity|]. split; [vm_compute; reflexivity|]. eexists. vm_compute. reflexivity.
Qed.

(** Finding: of several records with the caller's id all but the first are dropped. *)
Theorem C40_grpc_callers_get_all_their_records_refuted :
  exists keys r m found rs,
    load40 keys = Ok m /\ In r keys /\ matches (group_path g40) (VObj [("items", VList [rec40 2 "b"; rec40 1 "a"; rec40 1 "c"])]) found /\ picked (text_of r) found rs /\ rs = [rec40 1 "a"; rec40 1 "c"] /\ r_body (answer_of 0%nat [] m r) = rec40 1 "a".
Proof.
  exists [post40 "1" []], (post40 "1" []). eexists.
  exists [(VNum (NInt 2), rec40 2 "b"); (VNum (NInt 1), rec40 1 "a"); (VNum (NInt 1), rec40 1 "c")], [rec40 1 "a"; rec40 1 "c"].
  split; [vm_compute; reflexivity|]. split; [now left|]. split.
  - apply (matches_step _ "items" "id" [] (VList [rec40 2 "b"; rec40 1 "a"; rec40 1 "c"])); [reflexivity|].
    apply (matches_list "id" [] _ [[(VNum (NInt 2), rec40 2 "b")]; [(VNum (NInt 1), rec40 1 "a")]; [(VNum (NInt 1), rec40 1 "c")]]).
    repeat constructor.
  - split; [|split; [reflexivity|vm_compute; reflexivity]].
    apply picked_skip; [intros H; inversion H|]. apply picked_take; [exact (id_int 1)|]. apply picked_take; [exact (id_int 1)|apply picked_nil].
Qed.
Print Assumptions C40_grpc_callers_get_all_their_records_refuted.
