(** C23: removing unused types keeps exactly what operations can reach. *)
From Coq Require Import String Ascii ZArith NArith Bool List.
From Verif Require Import Base Ordered OrderedFacts JsonModel TypeModel ConfigModel MergeSpec GraphModel
  GraphSpec ShakeProofs.
Import ListNotations.
Open Scope string_scope.
Open Scope list_scope.

(** The walk ends on every configuration, cyclic ones included. *)
Theorem C23_shaking_terminates : forall c, exists c', tree_shake c = Some c'.
Proof. exact shake_total. Qed.
Print Assumptions C23_shaking_terminates.

(** An object type survives, unchanged, exactly when it is reachable. *)
Theorem C23_types_kept_iff_reachable : forall c c',
  names_disjoint c -> tree_shake c = Some c' ->
  forall n t, find_type c' n = Some t <-> find_type c n = Some t /\ Reachable c n.
Proof. exact shake_types. Qed.
Print Assumptions C23_types_kept_iff_reachable.

Theorem C23_unions_kept_iff_reachable : forall c c',
  names_disjoint c -> tree_shake c = Some c' ->
  forall n u, find_union c' n = Some u <-> find_union c n = Some u /\ Reachable c n.
Proof. exact shake_unions. Qed.
Print Assumptions C23_unions_kept_iff_reachable.

(** Everything else is untouched. *)
Theorem C23_rest_untouched : forall c c', tree_shake c = Some c' ->
  c_server c' = c_server c /\ c_upstream c' = c_upstream c /\ c_schema c' = c_schema c /\
  c_enums c' = c_enums c /\ c_links c' = c_links c /\ c_telemetry c' = c_telemetry c.
Proof. exact shake_rest. Qed.
Print Assumptions C23_rest_untouched.

(** Whatever a remaining definition mentions is still defined if it was before. *)
Theorem C23_no_new_dangling_reference : forall c c',
  names_disjoint c -> tree_shake c = Some c' ->
  forall n m, Refers c' n m ->
  (forall t, find_type c m = Some t -> find_type c' m = Some t) /\
  (forall u, find_union c m = Some u -> find_union c' m = Some u) /\
  find_enum c' m = find_enum c m.
Proof. exact shake_closed. Qed.
Print Assumptions C23_no_new_dangling_reference.

(** A second run removes nothing. *)
Theorem C23_shaking_is_idempotent : forall c c', names_disjoint c ->
  osorted scmp (c_types c) -> osorted scmp (c_unions c) ->
  tree_shake c = Some c' -> tree_shake c' = Some c'.
Proof. exact shake_idempotent. Qed.
Print Assumptions C23_shaking_is_idempotent.

(** A cyclic schema with a union, an argument type, an interface and two unused types. *)
Definition fld (t : typ) : field :=
  {| f_type := t; f_args := []; f_doc := None; f_modify := None; f_omit := false; f_cache := None;
     f_default := None; f_protected := None; f_discriminate := None; f_resolvers := [];
     f_directives := [] |}.
Definition with_arg (n : string) (t : typ) (f : field) : field :=
  {| f_type := f_type f;
     f_args := [(n, {| arg_type := t; arg_doc := None; arg_modify := None; arg_default := None |})];
     f_doc := None; f_modify := None; f_omit := false; f_cache := None; f_default := None;
     f_protected := None; f_discriminate := None; f_resolvers := []; f_directives := [] |}.
Definition obj (fs : list (string * field)) (impl : list string) : gtype :=
  {| t_fields := fs; t_added := []; t_doc := None; t_implements := impl; t_cache := None;
     t_protected := None; t_resolvers := []; t_directives := [] |}.
Definition graph (q s : option string) (types : list (string * gtype))
  (unions : list (string * gunion)) : config :=
  {| c_server := empty_server; c_upstream := empty_upstream;
     c_schema := {| r_query := q; r_mutation := None; r_subscription := s |};
     c_types := types; c_unions := unions; c_enums := []; c_links := [];
     c_telemetry := empty_telemetry |}.
Definition named (n : string) : typ := TNamed n false.
Definition shaken_sample : config :=
  graph (Some "Query") None
    [("Dog", obj [("name", fld (named "String"))] []);
     ("Dust", obj [("more", fld (named "Rust"))] []);
     ("Filter", obj [("id", fld (named "Int"))] []);
     ("Node", obj [("id", fld (named "Int"))] []);
     ("Query", obj [("pet", fld (named "Pet"));
                    ("user", with_arg "by" (named "Filter") (fld (named "User")))] []);
     ("Rust", obj [("more", fld (named "Dust"))] []);
     ("User", obj [("friend", fld (named "User"))] ["Node"])]
    [("Junk", {| u_types := ["Dust"]; u_doc := None |});
     ("Pet", {| u_types := ["Dog"]; u_doc := None |})].

Lemma disjoint_check : forall c,
  forallb (fun kv => match find_type c (fst kv) with None => true | _ => false end) (c_unions c) = true ->
  names_disjoint c.
Proof.
  intros c H n N. rewrite forallb_forall in H.
  destruct (find_union c n) as [u|] eqn:F; [|congruence].
  specialize (H _ (oget_in _ scmp_order _ _ _ F)). cbn [fst] in H.
  destruct (find_type c n); [discriminate|reflexivity].
Qed.

Example C23_instance :
  names_disjoint shaken_sample /\
  (exists c', tree_shake shaken_sample = Some c' /\
     map fst (c_types c') = ["Dog"; "Filter"; "Node"; "Query"; "User"] /\
     map fst (c_unions c') = ["Pet"]) /\
  osorted scmp (c_types shaken_sample) /\ osorted scmp (c_unions shaken_sample).
Proof.
  split; [apply disjoint_check; reflexivity|split].
  - eexists. split; [vm_compute; reflexivity|]. split; reflexivity.
  - split; apply (osortedb_ok _ scmp_order); reflexivity.
Qed.

(** The subscription root is not followed: its type is removed although the
    schema still names it. *)
Theorem C23_subscription_root_refuted : exists c c' s,
  r_subscription (c_schema c) = Some s /\ find_type c s <> None /\
  tree_shake c = Some c' /\ r_subscription (c_schema c') = Some s /\ find_type c' s = None.
Proof.
  exists (graph (Some "Query") (Some "Sub")
            [("Query", obj [("a", fld (named "Int"))] []);
             ("Sub", obj [("b", fld (named "Int"))] [])] []).
  eexists. exists "Sub". split; [reflexivity|]. split; [discriminate|].
  split; [vm_compute; reflexivity|]. split; reflexivity.
Qed.
Print Assumptions C23_subscription_root_refuted.

(** A type that only implements a reachable interface is removed, although a
    field returning the interface may return it. *)
Theorem C23_interface_implementer_refuted : exists c c' i impl t,
  Reachable c i /\ find_type c impl = Some t /\ In i (t_implements t) /\
  tree_shake c = Some c' /\ find_type c' i <> None /\ find_type c' impl = None.
Proof.
  exists (graph (Some "Query") None
            [("Node", obj [("id", fld (named "Int"))] []);
             ("Query", obj [("node", fld (named "Node"))] []);
             ("User", obj [("id", fld (named "Int"))] ["Node"])] []).
  eexists. exists "Node", "User". eexists.
  split.
  { apply Reach_step with (n := "Query"); [apply Reach_query; reflexivity|].
    change "Node" with (type_name (f_type (fld (named "Node")))).
    eapply Ref_field with (fn := "node"); [reflexivity|left; reflexivity]. }
  split; [reflexivity|]. split; [left; reflexivity|].
  split; [vm_compute; reflexivity|]. split; [discriminate|reflexivity].
Qed.
Print Assumptions C23_interface_implementer_refuted.
