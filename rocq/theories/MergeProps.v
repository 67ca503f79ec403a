(** C20: merging configurations. *)
From Coq Require Import String Ascii ZArith NArith Bool List.
From Verif Require Import Base Ordered JsonModel TypeModel ConfigModel MergeModel MergeSpec MergeProofs.
Import ListNotations.
Open Scope string_scope.
Open Scope list_scope.

(** Two small configurations that share a type and disagree on settings. *)
Definition left_config : config :=
  {| c_server := with_vars [("b", "1"); ("a", "0")] empty_server;
     c_upstream := empty_upstream;
     c_schema := {| r_query := Some "Query"; r_mutation := None; r_subscription := None |};
     c_types := [("Query", {| t_fields := [("id", empty_field); ("name", empty_field)];
                              t_added := []; t_doc := Some "left"; t_implements := ["Node"];
                              t_cache := None; t_protected := None;
                              t_resolvers := [RService]; t_directives := [] |})];
     c_unions := []; c_enums := []; c_links := ["one"]; c_telemetry := empty_telemetry |}.
Definition right_config : config :=
  {| c_server := with_vars [("a", "2")] empty_server;
     c_upstream := empty_upstream;
     c_schema := {| r_query := Some "Root"; r_mutation := None; r_subscription := None |};
     c_types := [("Extra", empty_gtype);
                 ("Query", {| t_fields := [("id", {| f_type := TNamed "ID" true; f_args := [];
                                f_doc := None; f_modify := None; f_omit := false; f_cache := None;
                                f_default := None; f_protected := None; f_discriminate := None;
                                f_resolvers := []; f_directives := [] |})];
                              t_added := []; t_doc := None; t_implements := ["Entity"; "Node"];
                              t_cache := None; t_protected := None;
                              t_resolvers := [RService; RJs "f"]; t_directives := [] |})];
     c_unions := []; c_enums := []; c_links := ["two"]; c_telemetry := empty_telemetry |}.

Lemma left_config_wf : wf_config left_config.
Proof. apply wf_configb_ok. reflexivity. Qed.
Lemma right_config_wf : wf_config right_config.
Proof. apply wf_configb_ok. reflexivity. Qed.

(** Merging three configurations gives the same result however the merges are
    grouped, and the result is again a configuration. *)
Theorem C20_merging_is_associative : forall a b c,
  wf_config a -> wf_config b -> wf_config c ->
  m_config (m_config a b) c = m_config a (m_config b c) /\ wf_config (m_config a b).
Proof. exact (fun a b c Wa Wb Wc => conj (m_config_assoc a b c Wa Wb Wc) (m_config_closed a b Wa Wb)). Qed.
Print Assumptions C20_merging_is_associative.

Example C20_associative_instance :
  m_config (m_config left_config right_config) left_config =
  m_config left_config (m_config right_config left_config) /\
  m_config left_config right_config <> left_config.
Proof.
  split; [|discriminate].
  exact (proj1 (C20_merging_is_associative _ _ _ left_config_wf right_config_wf left_config_wf)).
Qed.

(** The empty configuration is neutral on both sides, up to writing the server's
    variables in key order, which does not change the variables. *)
Theorem C20_empty_is_neutral : forall c, wf_config c ->
  m_config c empty_config = vars_in_order c /\
  m_config empty_config c = vars_in_order c /\
  get_vars (c_server (vars_in_order c)) = get_vars (c_server c).
Proof. exact (fun c W => conj (m_config_empty_r c) (conj (m_config_empty_l c W) (vars_in_order_vars c))). Qed.
Print Assumptions C20_empty_is_neutral.

Example C20_neutral_instance :
  s_vars (c_server (m_config left_config empty_config)) = [("a", "0"); ("b", "1")] /\
  c_types (m_config empty_config left_config) = c_types left_config.
Proof. split; reflexivity. Qed.

(** A setting given on the right overrides the left one, and one not given keeps it. *)
Theorem C20_right_wins_on_single_settings : forall A (p : config -> option A) l r,
  Single A p -> wf_config l -> wf_config r ->
  p (m_config l r) = match p r with Some v => Some v | None => p l end.
Proof. exact single_right_wins. Qed.
Print Assumptions C20_right_wins_on_single_settings.

Example C20_single_instances :
  r_query (c_schema (m_config left_config right_config)) = Some "Root" /\
  oget scmp "a" (get_vars (c_server (m_config left_config right_config))) = Some "2" /\
  oget scmp "b" (get_vars (c_server (m_config left_config right_config))) = Some "1" /\
  through (find_type (m_config left_config right_config) "Query") t_doc = Some "left" /\
  option_map f_type (through (find_type (m_config left_config right_config) "Query")
                       (fun t => oget scmp "id" (t_fields t))) = Some (TNamed "ID" true) /\
  option_map f_type (through (find_type (m_config left_config right_config) "Query")
                       (fun t => oget scmp "name" (t_fields t))) = Some (TNamed "JSON" false).
Proof. repeat split; reflexivity. Qed.

(** Settings that are lists are concatenated. *)
Theorem C20_lists_are_concatenated : forall A (p : config -> list A) l r,
  Listed A p -> wf_config l -> wf_config r -> p (m_config l r) = p l ++ p r.
Proof. exact listed_concatenated. Qed.
Print Assumptions C20_lists_are_concatenated.

Example C20_list_instance : c_links (m_config left_config right_config) = ["one"; "two"].
Proof. reflexivity. Qed.

(** Settings that are sets are united. *)
Theorem C20_sets_are_united : forall A (p : config -> list A) l r x,
  Collected A p -> wf_config l -> wf_config r ->
  (In x (p (m_config l r)) <-> In x (p l) \/ In x (p r)).
Proof. exact collected_united. Qed.
Print Assumptions C20_sets_are_united.

Example C20_set_instance :
  through_list (find_type (m_config left_config right_config) "Query") t_implements
    = ["Entity"; "Node"] /\
  through_list (find_type (m_config left_config right_config) "Query") t_resolvers
    = [RService; RJs "f"] /\
  map fst (c_types (m_config left_config right_config)) = ["Extra"; "Query"].
Proof. repeat split; reflexivity. Qed.

(** Not every setting follows the rule: a batch delay (or a route) that the right
    configuration does not mention still overrides the left one, because the
    member is filled with its default before merging. *)
Theorem C20_unmentioned_batch_delay_refuted : exists d n,
  let l := batch_of_written (Some d) [] None in
  let r := batch_of_written None [] (Some n) in
  b_delay (m_batch l r) <> d.
Proof. exists 5%Z, 10%Z. discriminate. Qed.
Print Assumptions C20_unmentioned_batch_delay_refuted.

Theorem C20_unmentioned_route_refuted : exists s g,
  let l := routes_of_written (Some s) None in
  let r := routes_of_written None (Some g) in
  ro_status (m_routes l r) <> s.
Proof. exists "/health", "/gql". discriminate. Qed.
Print Assumptions C20_unmentioned_route_refuted.

(** JSON documents: members of both objects are merged, members of one are kept. *)
Theorem C20_json_members : forall a b k, NoDup (akeys b) ->
  get_key k (m_json (VObj a) (VObj b)) =
  match aget k a, aget k b with
  | Some x, Some y => Some (m_json x y)
  | Some x, None => Some x
  | None, o => o
  end.
Proof. exact m_json_members. Qed.
Print Assumptions C20_json_members.

(** Merging JSON documents of a common shape is associative. *)
Theorem C20_json_associative_partial : forall x y z s,
  has_shape x s -> has_shape y s -> has_shape z s ->
  m_json (m_json x y) z = m_json x (m_json y z).
Proof. exact (fun x y z s Hx Hy Hz => m_json_assoc z x y s Hx Hy Hz). Qed.
Print Assumptions C20_json_associative_partial.

Definition sample_shape : shape :=
  ShObj (fun k => if String.eqb k "tags" then ShList else ShScalar).
Example C20_json_instance :
  let x := VObj [("id", VNum (NInt 1)); ("tags", VList [VStr "a"])] in
  let y := VObj [("tags", VList [VStr "b"]); ("name", VStr "n")] in
  has_shape x sample_shape /\ has_shape y sample_shape /\
  m_json x y = VObj [("id", VNum (NInt 1)); ("tags", VList [VStr "a"; VStr "b"]); ("name", VStr "n")].
Proof.
  cbn. repeat split; auto; repeat constructor; cbn; intuition congruence.
Qed.

(** Without a common shape it is not: a list absorbs one element at a time. *)
Theorem C20_json_associative_refuted : exists x y z,
  m_json (m_json x y) z <> m_json x (m_json y z).
Proof.
  exists (VList [VNum (NInt 1)]), (VNum (NInt 2)), (VNum (NInt 3)). discriminate.
Qed.
Print Assumptions C20_json_associative_refuted.
