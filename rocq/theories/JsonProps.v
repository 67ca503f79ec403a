(** Properties C45, C14, C05. *)
From Coq Require Import String Ascii ZArith NArith Bool List.
From Verif Require Import Base JsonModel JsonSpec JsonProofs.
Import ListNotations.
Open Scope string_scope.
Open Scope list_scope.

(** ** C45: JSON path lookup *)

(** A lookup answers [w] exactly when following the path leads to [w]. *)
Theorem C45_lookup_follows_path :
  forall (path : list string) (v w : value),
    get_path path v = Some w <-> reaches v path w.
Proof. exact get_path_spec. Qed.
Print Assumptions C45_lookup_follows_path.

(** Lookups compose along path concatenation. *)
Theorem C45_lookup_composes :
  forall (p q : list string) (v : value),
    get_path (p ++ q) v =
    match get_path p v with Some w => get_path q w | None => None end.
Proof. exact get_path_app. Qed.
Print Assumptions C45_lookup_composes.

Definition doc45 : value :=
  VObj [("a", VList [VNull; VObj [("b", VStr "x"); ("a", VBool true)]])].

Example C45_witness : get_path ["a"; "1"; "b"] doc45 = Some (VStr "x")
                      /\ get_path ["a"; "+01"; "a"] doc45 = Some (VBool true)
                      /\ get_path ["a"; "2"] doc45 = None
                      /\ get_path ["a"; "-1"] doc45 = None.
Proof. vm_compute. auto. Qed.

(** ** C14: grouping *)

(** The group stored under an id is the list, in document order, of exactly the
    records carrying that id; ids without record have no group.  Premise: the
    integer ids fit a double exactly (see [C14_large_ids_refuted]). *)
Theorem C14_group_is_the_records_with_that_id :
  forall (v : value) (path : list string) (found : list (value * value)) (id : string) (rs : list value),
    matches path v found ->
    Forall (fun kv => exact_id (fst kv)) found ->
    (aget id (group_by v path) = Some rs <-> picked id found rs /\ rs <> []).
Proof. exact group_by_spec. Qed.
Print Assumptions C14_group_is_the_records_with_that_id.

(** Every document has such a list of matches, and only one. *)
Theorem C14_matches_total_and_unique :
  forall (v : value) (path : list string),
    exists found, matches path v found /\ forall found', matches path v found' -> found' = found.
Proof.
  exact (fun v p => ex_intro _ _ (conj (gather_matches v p)
           (fun f H => matches_fun v p f _ H (gather_matches v p)))).
Qed.
Print Assumptions C14_matches_total_and_unique.

Theorem C14_one_group_per_id :
  forall (v : value) (path : list string), NoDup (akeys (group_by v path)).
Proof. exact group_by_NoDup. Qed.
Print Assumptions C14_one_group_per_id.

(** Finding: ids beyond 2^53 pass through a double, so two records with
    different ids are put in one group. *)
Theorem C14_large_ids_refuted :
  exists a b v,
    a <> b /\ v = VList [VObj [("id", VNum (NInt a))]; VObj [("id", VNum (NInt b))]] /\
    group_by v ["id"] = [(Z_to_string a, [VObj [("id", VNum (NInt a))]; VObj [("id", VNum (NInt b))]])].
Proof. exact group_by_big_collision. Qed.
Print Assumptions C14_large_ids_refuted.

Definition doc14 : value :=
  VObj [("data", VList [VObj [("u", VObj [("id", VNum (NInt 1))])];
                        VList [VObj [("u", VObj [("id", VStr "1"); ("n", VNull)])]];
                        VObj [("u", VObj [("id", VNum (NInt 2))])];
                        VObj [("u", VNull)]])].

Example C14_witness :
  group_by doc14 ["data"; "u"; "id"] =
    [("1", [VObj [("id", VNum (NInt 1))]; VObj [("id", VStr "1"); ("n", VNull)]]);
     ("2", [VObj [("id", VNum (NInt 2))]])]
  /\ Forall (fun kv => exact_id (fst kv)) (gather_path_matches doc14 ["data"; "u"; "id"] []).
Proof. split; [vm_compute; reflexivity|]. repeat constructor; discriminate. Qed.

(** ** C05: resolvers over list parents *)

(** One call per element the field applies to, in document order. *)
Theorem C05_one_call_per_applicable_element :
  forall {E} (part : value -> bool) (call : value -> result value E) cn ms
         (l : list value) (elems : list value),
    leaves (VList l) elems ->
    fst (execute_field part call cn ms (Some (VList l))) = map Some (filter part elems).
Proof. exact @execute_calls. Qed.
Print Assumptions C05_one_call_per_applicable_element.

(** The result has the shape of the parent; at each element it is that
    element's own result, or null where the field does not apply. *)
Theorem C05_result_at_each_position :
  forall {E} (part : value -> bool) (call : value -> result value E) cn ms (l : list value) (w : value),
    snd (execute_field part call cn ms (Some (VList l))) = Ok w ->
    lifted (fun elem res => (part elem = true /\ call elem = Ok res)
                            \/ (part elem = false /\ res = VNull)) (VList l) w.
Proof. exact @execute_list_shape. Qed.
Print Assumptions C05_result_at_each_position.

(** It fails exactly when some applicable element's call fails, with the error
    of the first such element; in particular never with "Expected value to be
    present". *)
Theorem C05_error_is_first_failing_element :
  forall {E} (part : value -> bool) (call : value -> result value E) cn ms
         (l : list value) (elems : list value) (e : E),
    leaves (VList l) elems ->
    (snd (execute_field part call cn ms (Some (VList l))) = Err e <->
     exists pre a post,
       elems = pre ++ a :: post /\ part a = true /\ call a = Err e /\
       Forall (fun x => part x = true -> exists b, call x = Ok b) pre).
Proof. exact @execute_err. Qed.
Print Assumptions C05_error_is_first_failing_element.

(** Non-vacuity: a nested list with one element the field does not apply to. *)
Definition list05 : list value := [VList [VStr "a"; VBool true]; VList []; VStr "b"].
Definition part05 (v : value) : bool := match v with VStr _ => true | _ => false end.
Definition call05 (v : value) : result value string :=
  match v with VStr s => Ok (VStr (s ++ "!")) | _ => Err "bad" end.

Example C05_witness :
  execute_field part05 call05 (Err "none") "missing" (Some (VList list05))
  = ([Some (VStr "a"); Some (VStr "b")],
     Ok (VList [VList [VStr "a!"; VNull]; VList []; VStr "b!"]))
  /\ leaves (VList list05) [VStr "a"; VBool true; VStr "b"].
Proof. split; [vm_compute; reflexivity|]. exact (for_each_leaves (VList list05)). Qed.
