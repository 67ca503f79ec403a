(** C90: what a GraphQL server that is asked answers is passed on, and errors are told as GraphQL wants them. *)
From Coq Require Import String Ascii ZArith Bool Arith Lia List.
From Verif Require Import Base JsonModel ErSpec UgModel UgSpec UgProofs.
Import ListNotations.
Open Scope string_scope.
Open Scope list_scope.

(** ** Errors of an answer *)
(** Every error is told with its text, its place in the query, its path, and, if it is of gRPC, with its details; one of reading the query with all its places. *)
Theorem C90_error_is_told : forall p g, to_gql p = Some g -> exists m, message_of (p_error p) m /\
  wire g = match p_error p with ParseError _ ps => error_json m ps [] [] | e => error_json m [p_pos p] (p_path p) (extensions_of e) end.
Proof. intros p g E. pose proof (to_gql_main p) as M. rewrite E in M. exact M. Qed.
Print Assumptions C90_error_is_told.

(** All can be told but for one: that an answer is not valid, with an empty message. *)
Theorem C90_can_be_told : forall p, (forall es, p_error p = IR (APIValidation es) -> ~ In "" es) -> exists g, to_gql p = Some g.
Proof. intros p H. pose proof (to_gql_main p) as M. destruct (to_gql p) as [g|]; [eauto|]. destruct M as (es & E & I). destruct (H es E I). Qed.
Print Assumptions C90_can_be_told.

(** ** Answers of servers *)
(** However fetches are shared and kept, an answer has the error of its own, if any, and then all errors that servers gave to what the request itself asked
    them for, once each and in order, with message, path and first location. *)
Theorem C90_errors_are_passed_on : forall decode fs r own, (forall p, own = Some p -> exists g, to_gql p = Some g) ->
  exists gs, answer_errors own (run decode fs) r = Some gs /\
    map wire gs = (match own with Some p => match to_gql p with Some g => [wire g] | None => [] end | None => [] end) ++ map passed_on (errors_for decode r [] fs).
Proof.
  intros decode fs r own O. unfold answer_errors, run. destruct (run_from decode fs [] _ (knows_nothing decode)) as [_ A]. rewrite A.
  destruct (all_gql_server (errors_for decode r [] fs)) as (gs & E & M). change (added _ r) with (@nil positioned). cbn [app]. destruct own as [p|].
  - destruct (O p eq_refl) as [g Eg]. exists (g :: gs). cbn [app all_gql]. rewrite Eg, E. split; [reflexivity|]. cbn. now rewrite M.
  - exists gs. split; [exact E|exact M].
Qed.
Print Assumptions C90_errors_are_passed_on.

(** Each request that asks gets the value of its field, or null: that of the answer if the server is asked, and otherwise that of the first answer that was kept. *)
Theorem C90_values : forall decode before f, exists res,
  w_got (run decode (before ++ [f])) = w_got (run decode before) ++ map (fun r => (r, res)) (f_askers f) /\
  (fresh decode before f = true -> value_in decode (f_body f) (f_field f) res) /\
  (fresh decode before f = false -> exists i g, nth_error before i = Some g /\ leaves_value decode f g = true /\ value_in decode (f_body g) (f_field g) res /\
     forall j g', j < i -> nth_error before j = Some g' -> leaves_value decode f g' = false).
Proof.
  intros decode before f. unfold run. rewrite fold_left_app. destruct (run_from decode before [] _ (knows_nothing decode)) as [K _].
  destruct (run_fetch_main decode before _ f K) as (_ & _ & R). exact R.
Qed.
Print Assumptions C90_values.

(** ** Cases *)
Definition e90 : server_error := {| se_message := "no user"; se_locations := [{| line := 1; column := 9 |}; {| line := 2; column := 3 |}]; se_path := [SField "user"; SIndex 0]; se_extensions := Some [("code", VStr "NOT_FOUND")] |}.
Definition decode90 (v : value) : result (value * list server_error) string :=
  match v with
  | VObj m => Ok (match aget "data" m with Some d => d | None => VNull end, if amem "errors" m then [e90] else [])
  | _ => Err "not an object"
  end.
Definition body90 : value := VObj [("data", VObj [("user", VNull)]); ("errors", VList [])].
Definition fetch90 (cached : bool) (askers : list nat) : fetch := {| f_key := "k"; f_cached := cached; f_field := "user"; f_askers := askers; f_body := body90 |}.
Example C90_passed_on_example : exists g, answer_errors None (run decode90 [fetch90 false [7]]) 7 = Some [g] /\
  wire g = VObj [("message", VStr "no user"); ("locations", VList [VObj [("line", VNum (NInt 1)); ("column", VNum (NInt 9))]]); ("path", VList [VStr "user"; VNum (NInt 0)])].
Proof. eexists. split; reflexivity. Qed.
Example C90_values_example : w_got (run decode90 [fetch90 true [1; 2]; fetch90 true [3]]) = [(1, Ok VNull); (2, Ok VNull); (3, Ok VNull)] /\
  fresh decode90 [fetch90 true [1; 2]] (fetch90 true [3]) = false.
Proof. split; reflexivity. Qed.
Example C90_grpc_example : exists g, to_gql {| p_error := IR (GRPC 3 "bad" "id" VNull); p_pos := {| line := 1; column := 9 |}; p_path := [SField "news"] |} = Some g /\
  wire g = VObj [("message", VStr "gRPC Error: status: 3, description: `bad`, message: `id`"); ("locations", VList [VObj [("line", VNum (NInt 1)); ("column", VNum (NInt 9))]]);
    ("path", VList [VStr "news"]);
    ("extensions", VObj [("grpcCode", VNum (NInt 3)); ("grpcDescription", VStr "bad"); ("grpcStatusDetails", VNull); ("grpcStatusMessage", VStr "id")])].
Proof. eexists. split; reflexivity. Qed.

(** ** What does not hold *)
(** Requests that share a fetch with another do not get its errors: two clients ask the same at the same time, and one is told nothing. *)
Theorem C90_all_askers_are_told_refuted : exists decode f, f_askers f = [1; 2] /\ errors_in decode f <> [] /\
  added (run decode [f]) 1 <> [] /\ w_got (run decode [f]) = [(1, Ok VNull); (2, Ok VNull)] /\ added (run decode [f]) 2 = [].
Proof. exists decode90, (fetch90 false [1; 2]). repeat split; discriminate. Qed.
Print Assumptions C90_all_askers_are_told_refuted.

(** What is kept is kept without its errors: later answers are null without one. *)
Theorem C90_kept_with_errors_refuted : exists decode f g, f_askers f = [1] /\ f_askers g = [2] /\
  added (run decode [f; g]) 1 <> [] /\ In (2, Ok VNull) (w_got (run decode [f; g])) /\ added (run decode [f; g]) 2 = [].
Proof. exists decode90, (fetch90 true [1]), (fetch90 true [2]). repeat split; [discriminate|]. right. left. reflexivity. Qed.
Print Assumptions C90_kept_with_errors_refuted.

(** Extensions and further locations are lost, and an error without location is told to be at 0:0. *)
Theorem C90_passed_on_as_is_refuted :
  (exists e, se_extensions e <> None /\ passed_on e = passed_on {| se_message := se_message e; se_locations := se_locations e; se_path := se_path e; se_extensions := None |}) /\
  (exists e, length (se_locations e) = 2 /\ passed_on e = passed_on {| se_message := se_message e; se_locations := firstn 1 (se_locations e); se_path := se_path e; se_extensions := se_extensions e |}) /\
  (exists e, se_locations e = [] /\ passed_on e = error_json (se_message e) [{| line := 0; column := 0 |}] (se_path e) []).
Proof.
  split; [exists e90; split; [discriminate|reflexivity]|]. split; [exists e90; split; reflexivity|].
  exists {| se_message := "m"; se_locations := []; se_path := []; se_extensions := None |}. split; reflexivity.
Qed.
Print Assumptions C90_passed_on_as_is_refuted.

(** One error cannot be told: telling it panics. *)
Theorem C90_all_can_be_told_refuted : exists p, to_gql p = None.
Proof. exists {| p_error := IR (APIValidation [""]); p_pos := {| line := 1; column := 1 |}; p_path := [] |}. reflexivity. Qed.
Print Assumptions C90_all_can_be_told_refuted.
