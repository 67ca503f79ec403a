(** C35: nested unions. *)
From Coq Require Import String Ascii ZArith NArith Bool List.
From Verif Require Import Base Ordered OrderedFacts JsonModel TypeModel ConfigModel MergeSpec GraphModel
  GraphSpec UnionProofs.
Import ListNotations.
Open Scope string_scope.
Open Scope list_scope.

(** Normalisation always ends, recursive unions included. *)
Theorem C35_normalisation_terminates : forall c, exists r, nested_unions c = Some r.
Proof. exact nested_unions_total. Qed.
Print Assumptions C35_normalisation_terminates.

(** The accepted result lists exactly the object types behind each union. *)
Theorem C35_members_are_the_leaves : forall c c', nested_unions c = Some (Ok c') ->
  forall n, match find_union c n, find_union c' n with
            | Some u, Some u' =>
                u_doc u' = u_doc u /\ ssorted scmp (u_types u') /\
                forall x, In x (u_types u') <-> LeafOf (c_unions c) (u_types u) x
            | None, None => True
            | _, _ => False
            end.
Proof. exact nested_unions_members. Qed.
Print Assumptions C35_members_are_the_leaves.

Theorem C35_no_union_inside_a_union : forall c c', nested_unions c = Some (Ok c') ->
  forall n u x, find_union c' n = Some u -> In x (u_types u) -> find_union c' x = None.
Proof. exact nested_unions_flat. Qed.
Print Assumptions C35_no_union_inside_a_union.

Theorem C35_rest_untouched : forall c c', nested_unions c = Some (Ok c') ->
  c_types c' = c_types c /\ c_enums c' = c_enums c /\ c_schema c' = c_schema c /\
  c_server c' = c_server c /\ c_upstream c' = c_upstream c /\ c_links c' = c_links c /\
  c_telemetry c' = c_telemetry c.
Proof. exact nested_unions_rest. Qed.
Print Assumptions C35_rest_untouched.

(** Every recursive union is rejected. *)
Theorem C35_recursive_rejected : forall c n, osorted scmp (c_unions c) ->
  Recursive (c_unions c) n -> exists e, nested_unions c = Some (Err e).
Proof. exact nested_unions_recursive. Qed.
Print Assumptions C35_recursive_rejected.

(** Exactly the configurations in which no union meets the same union twice are
    accepted.  This is stricter than rejecting recursion. *)
Theorem C35_accepted_iff_no_repeated_member : forall c, osorted scmp (c_unions c) ->
  ((exists c', nested_unions c = Some (Ok c')) <->
   (forall n u, find_union c n = Some u ->
      exists l, Expands (c_unions c) (u_types u) l /\ NoDup l)).
Proof. exact nested_unions_accepts. Qed.
Print Assumptions C35_accepted_iff_no_repeated_member.

Definition un (ms : list string) : gunion := {| u_types := ms; u_doc := None |}.
Definition with_unions (us : list (string * gunion)) : config :=
  {| c_server := empty_server; c_upstream := empty_upstream; c_schema := empty_schema;
     c_types := []; c_unions := us; c_enums := []; c_links := []; c_telemetry := empty_telemetry |}.

Example C35_instance :
  (exists c', nested_unions (with_unions [("Animal", un ["Fish"; "Pet"]); ("Pet", un ["Cat"; "Dog"])])
     = Some (Ok c') /\ map (fun kv => u_types (snd kv)) (c_unions c') = [["Cat"; "Dog"; "Fish"]; ["Cat"; "Dog"]]) /\
  Recursive [("A", un ["B"; "X"]); ("B", un ["A"])] "A".
Proof.
  split.
  - eexists. split; [vm_compute; reflexivity|reflexivity].
  - eexists. split; [reflexivity|]. eapply In_deep; [left; reflexivity|reflexivity|].
    eapply In_here; [left; reflexivity|reflexivity].
Qed.

(** Not only recursive unions are rejected: sharing a member union is enough. *)
Theorem C35_only_recursive_rejected_refuted : exists c e,
  osorted scmp (c_unions c) /\ nested_unions c = Some (Err e) /\
  forall n, ~ Recursive (c_unions c) n.
Proof.
  exists (with_unions [("All", un ["Left"; "Right"]); ("Base", un ["X"]);
                       ("Left", un ["Base"]); ("Right", un ["Base"])]), tt.
  split; [apply (osortedb_ok _ scmp_order); reflexivity|].
  split; [vm_compute; reflexivity|]. intros n R.
  assert (E : forall m u, oget scmp m (c_unions (with_unions
     [("All", un ["Left"; "Right"]); ("Base", un ["X"]); ("Left", un ["Base"]); ("Right", un ["Base"])]))
     = Some u -> exists l, Expands (c_unions (with_unions
     [("All", un ["Left"; "Right"]); ("Base", un ["X"]); ("Left", un ["Base"]); ("Right", un ["Base"])]))
     (u_types u) l).
  { assert (B : Expands [("All", un ["Left"; "Right"]); ("Base", un ["X"]); ("Left", un ["Base"]);
      ("Right", un ["Base"])] ["Base"] ["Base"]).
    { apply (Ex_union _ "Base" (un ["X"]) [] [] []); [reflexivity| |constructor].
      apply Ex_leaf; [reflexivity|constructor]. }
    intros m u G. apply (oget_in _ scmp_order) in G. cbn in G.
    destruct G as [G|[G|[G|[G|[]]]]]; injection G as <- <-; cbn.
    - exists (["Left"; "Base"] ++ ["Right"; "Base"]).
      apply (Ex_union _ "Left" (un ["Base"]) ["Right"] ["Base"] ["Right"; "Base"]); [reflexivity|exact B|].
      apply (Ex_union _ "Right" (un ["Base"]) [] ["Base"] []); [reflexivity|exact B|constructor].
    - exists []. apply Ex_leaf; [reflexivity|constructor].
    - exists ["Base"]. exact B.
    - exists ["Base"]. exact B. }
  destruct R as [u [G I]]. destruct (E n u G) as [l X].
  exact (recursive_no_expansion _ _ n u l G I X (Nat.lt_succ_diag_r _)).
Qed.
Print Assumptions C35_only_recursive_rejected_refuted.
