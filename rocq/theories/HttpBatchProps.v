(** C13: what the callers of a batched upstream HTTP call get. *)
From Coq Require Import String Ascii Bool Arith ZArith List.
From Verif Require Import Base JsonModel JsonSpec DlModel HttpBatchModel HttpBatchSpec HttpBatchProofs.
Import ListNotations.
Open Scope string_scope.
Open Scope list_scope.

Section Claims.
  Context {Meta E : Type}.
  Variable listed : list string.
  Variable upstream : req -> result (resp (Meta := Meta)) E.
  Notation load := (load listed upstream).
  Notation key_of := (key_of listed).

  (** One call is made for the whole batch, and each caller gets from its answer the
      records grouped under the caller's own id (the last value its own query gives
      for the key, or the id taken from its own body): all of them, or the first. *)
  Theorem C13_callers_get_the_records_of_their_own_id :
    forall g path name is_list base others m, path_of g path -> key_named g name ->
      NoDup (map key_of (base :: others)) -> load (Some g) is_list (base :: others) = Ok m ->
      exists res, upstream (merged g base others) = Ok res /\
        forall r, In r (base :: others) ->
          exists id, (if q_get base then exists ids, values_of name (q_query r) = ids ++ [id] else q_value r = Some id) /\
            forall found rs, matches path (r_body res) found ->
              Forall (fun kv => exact_id (fst kv)) found -> picked id found rs ->
              lookup key_dec (key_of r) m = Some {| r_meta := r_meta res; r_body := shown is_list rs |}.
  Proof.
    intros g path name is_list base others m P K. rewrite (path_of_eq _ _ P), (key_named_eq _ _ K). exact (grouped listed upstream g is_list base others m).
  Qed.

  (** The call that is made: the first caller's, asking also for everyone else's ids,
      in order. *)
  Theorem C13_the_merged_get_call :
    forall g name base others, key_named g name -> q_get base = true ->
      let m := merged g base others in
      q_get m = true /\ q_base m = q_base base /\ q_headers m = q_headers base /\ q_body m = q_body base /\
      q_query m = q_query base ++ flat_map (fun r => filter (fun p => String.eqb name (fst p)) (q_query r)) others /\
      values_of name (q_query m) = flat_map (fun r => values_of name (q_query r)) (base :: others).
  Proof. intros g name base others K. rewrite (key_named_eq _ _ K). exact (merged_get g base others). Qed.

  (** Calls with bodies are merged into the JSON array of the bodies, in order. *)
  Theorem C13_the_merged_call_with_bodies :
    forall g base others, q_get base = false ->
      (forall r, In r (base :: others) -> exists b, q_body r = Some b /\ b <> "") ->
      let m := merged g base others in
      q_base m = q_base base /\ q_headers m = q_headers base /\ q_query m = flat_map q_query (base :: others) /\
      exists bodies, map q_body (base :: others) = map Some bodies /\
        q_body m = Some (String.append "[" (String.append (String.concat "," bodies) "]")).
  Proof. exact merged_post. Qed.

  (** The batch fails exactly if that call fails or some caller's query lacks the key. *)
  Theorem C13_when_a_batch_fails :
    forall g name is_list base others, key_named g name -> q_get base = true ->
      ((exists e, load (Some g) is_list (base :: others) = Err e) <->
       (exists e, upstream (merged g base others) = Err e) \/
       exists r, In r (base :: others) /\ values_of name (q_query r) = []).
  Proof.
    intros g name is_list base others K. rewrite (key_named_eq _ _ K). exact (grouped_fails listed upstream g is_list base others).
  Qed.

  (** If the service answers every GET call with the records of a table whose ids are
      asked for, looking at nothing else, each caller gets exactly what its own call
      would have returned. *)
  Theorem C13_like_its_own_call_partial :
    forall base_url name meta table g keys,
      Selects upstream base_url name meta table ->
      path_of g [name] -> key_named g name ->
      keys <> [] -> NoDup (map key_of keys) ->
      (forall r, In r keys -> q_get r = true /\ q_base r = base_url /\ exists id, values_of name (q_query r) = [id]) ->
      exists m, load (Some g) true keys = Ok m /\
        forall r, In r keys -> exists v, upstream r = Ok v /\ lookup key_dec (key_of r) m = Some v.
  Proof.
    intros base_url name meta table g keys T P K. exact (like_its_own_call listed upstream base_url name meta table g keys T (eq_sym (path_of_eq _ _ P)) (eq_sym (key_named_eq _ _ K))).
  Qed.

  (** Without grouping each caller gets the answer to its own call. *)
  Theorem C13_ungrouped_calls_are_their_own :
    forall is_list keys m, NoDup (map key_of keys) -> load None is_list keys = Ok m ->
      forall r, In r keys -> exists v, upstream r = Ok v /\ lookup key_dec (key_of r) m = Some v.
  Proof. exact (ungrouped listed upstream). Qed.
End Claims.
Print Assumptions C13_callers_get_the_records_of_their_own_id.
Print Assumptions C13_the_merged_get_call.
Print Assumptions C13_the_merged_call_with_bodies.
Print Assumptions C13_when_a_batch_fails.
Print Assumptions C13_like_its_own_call_partial.
Print Assumptions C13_ungrouped_calls_are_their_own.

(** *** Witnesses *)
Definition rec13 (id : Z) (n : string) : value := VObj [("id", VNum (NInt id)); ("n", VStr n)].
Definition table13 : list (string * value) := [("1", rec13 1 "a"); ("2", rec13 2 "b"); ("1", rec13 1 "c"); ("3", rec13 3 "d")].
Definition up13 (r : req) : result (resp (Meta := nat)) nat :=
  Ok {| r_meta := 200%nat;
        r_body := VList (map snd (filter (fun e => existsb (String.eqb (fst e)) (values_of "id" (q_query r))) table13)) |}.
Definition get13 (q hs : list (string * string)) : req :=
  {| q_get := true; q_base := "http://u/users"; q_query := q; q_headers := hs; q_body := None; q_value := None |}.
Definition g13 : group := {| g_path := ["id"]; g_key := None |}.

Example C13_groups :
  path_of g13 ["id"] /\ key_named g13 "id" /\
  path_of {| g_path := []; g_key := None |} ["id"] /\ key_named {| g_path := []; g_key := None |} "id" /\
  path_of {| g_path := ["data"; "user"; "uid"]; g_key := None |} ["data"; "user"; "uid"] /\
  key_named {| g_path := ["data"; "user"; "uid"]; g_key := None |} "uid" /\
  key_named {| g_path := ["data"; "user"; "uid"]; g_key := Some "userId" |} "userId".
Proof.
  split; [right; split; [discriminate|reflexivity]|]. split; [right; split; [reflexivity|]; exists []; right; split; [discriminate|reflexivity]|].
  split; [left; split; reflexivity|]. split; [right; split; [reflexivity|]; exists []; left; split; reflexivity|].
  split; [right; split; [discriminate|reflexivity]|].
  split; [right; split; [reflexivity|]; exists ["data"; "user"]; right; split; [discriminate|reflexivity]|]. now left.
Qed.

(** Every grouping has such a path and such a key. *)
Theorem C13_every_group_has_path_and_key : forall g, (exists path, path_of g path) /\ exists name, key_named g name.
Proof. intros g. split; [apply path_of_one|apply key_named_one]. Qed.
Print Assumptions C13_every_group_has_path_and_key.

Example C13_case :
  Selects up13 "http://u/users" "id" 200%nat table13 /\
  load [] up13 (Some g13) true [get13 [("id", "1")] []; get13 [("id", "2")] []; get13 [("id", "9")] []] =
  Ok [(key_of [] (get13 [("id", "1")] []), {| r_meta := 200%nat; r_body := VList [rec13 1 "a"; rec13 1 "c"] |});
      (key_of [] (get13 [("id", "2")] []), {| r_meta := 200%nat; r_body := VList [rec13 2 "b"] |});
      (key_of [] (get13 [("id", "9")] []), {| r_meta := 200%nat; r_body := VList [] |})].
Proof.
  split; [|vm_compute; reflexivity]. constructor; [|reflexivity].
  intros id v I. cbn in I.
  destruct I as [I|[I|[I|[I|[]]]]]; injection I as <- <-; eexists; eexists; split; try reflexivity; split; try reflexivity;
    (split; [exact (id_int _)|cbn; discriminate]).
Qed.

(** Finding: the batch is sent with the first caller's headers.  With a service that
    shows only the caller's own tenant, the second caller is given what the first one
    may see, even if the header is listed as one that keeps calls apart. *)
Definition tenant13 (r : req) : result (resp (Meta := nat)) nat :=
  Ok {| r_meta := 200%nat;
        r_body := VList (flat_map (fun id => [VObj [("id", VStr id); ("tenant", VStr (match aget "tenant" (q_headers r) with Some t => t | None => "" end))]])
                                  (values_of "id" (q_query r))) |}.
Definition ofA : req := get13 [("id", "1")] [("tenant", "A")].
Definition ofB : req := get13 [("id", "2")] [("tenant", "B")].
Theorem C13_headers_of_another_caller_refuted :
  exists m v own,
    load ["tenant"] tenant13 (Some g13) true [ofA; ofB] = Ok m /\
    lookup key_dec (key_of ["tenant"] ofB) m = Some v /\ tenant13 ofB = Ok own /\
    r_body v = VList [VObj [("id", VStr "2"); ("tenant", VStr "A")]] /\
    r_body own = VList [VObj [("id", VStr "2"); ("tenant", VStr "B")]].
Proof. eexists. eexists. eexists. split; [vm_compute; reflexivity|]. split; [vm_compute; reflexivity|]. repeat split. Qed.
Print Assumptions C13_headers_of_another_caller_refuted.

(** Finding: so are its other query parameters. *)
Definition lang13 (r : req) : result (resp (Meta := nat)) nat :=
  Ok {| r_meta := 200%nat;
        r_body := VList (flat_map (fun id => [VObj [("id", VStr id); ("lang", VList (map VStr (values_of "lang" (q_query r))))]])
                                  (values_of "id" (q_query r))) |}.
Theorem C13_parameters_of_another_caller_refuted :
  exists m v own,
    load [] lang13 (Some g13) true [get13 [("lang", "en"); ("id", "1")] []; get13 [("lang", "fr"); ("id", "2")] []] = Ok m /\
    lookup key_dec (key_of [] (get13 [("lang", "fr"); ("id", "2")] [])) m = Some v /\
    lang13 (get13 [("lang", "fr"); ("id", "2")] []) = Ok own /\
    r_body v = VList [VObj [("id", VStr "2"); ("lang", VList [VStr "en"])]] /\
    r_body own = VList [VObj [("id", VStr "2"); ("lang", VList [VStr "fr"])]].
Proof. eexists. eexists. eexists. split; [vm_compute; reflexivity|]. split; [vm_compute; reflexivity|]. repeat split. Qed.
Print Assumptions C13_parameters_of_another_caller_refuted.

(** Finding: one failing call among ungrouped ones fails all of them. *)
Definition half13 (r : req) : result (resp (Meta := nat)) nat :=
  match values_of "id" (q_query r) with ["1"] => Err 500%nat | _ => up13 r end.
Theorem C13_a_failure_of_another_caller_refuted :
  exists own, half13 (get13 [("id", "2")] []) = Ok own /\
    load [] half13 None true [get13 [("id", "2")] []; get13 [("id", "1")] []] = Err (Upstream 500%nat).
Proof. eexists. split; [vm_compute; reflexivity|]. vm_compute. reflexivity. Qed.
Print Assumptions C13_a_failure_of_another_caller_refuted.

Example C13_post_case :
  q_body (merged g13 {| q_get := false; q_base := "u"; q_query := []; q_headers := []; q_body := Some "{1}"; q_value := Some "1" |}
                 [{| q_get := false; q_base := "u"; q_query := []; q_headers := []; q_body := Some "{2}"; q_value := Some "2" |}])
  = Some "[{1},{2}]".
Proof. reflexivity. Qed.
