(** C43: the plan built for an operation. *)
From Coq Require Import String Ascii ZArith NArith Bool Arith Lia List.
From Verif Require Import Base JsonModel TypeModel DiscModel PlanModel BuilderModel BuilderSpec BuilderProofs Builder2Proofs.
Import ListNotations.
Open Scope string_scope.
Open Scope list_scope.
Open Scope nat_scope.

(** The plan of an operation is the expansion of its selection set (BuilderSpec.v),
    numbered without repetition. *)
Theorem C43_plan_is_the_expansion :
  forall (IR : Type) (ix : index IR) fuel d name root ty fs,
    build fuel ix d name = Some (Ok (root, ty, fs)) ->
    exists sel, get_operation d name = Ok {| o_ty := ty; o_sel := sel |} /\ starts_at ix ty root /\
      Expands ix (d_fragments d) None root [] (direct_names sel) sel (map unnumbered fs) /\
      NoDup (flat_map numbers fs).
Proof.
  intros IR ix fuel d name root ty fs H. unfold build in H.
  destruct (get_operation d name) as [[ty' sel]|] eqn:G; [|discriminate]. cbn in H.
  destruct (get_type ix ty') as [r|] eqn:T; [|discriminate].
  destruct (iter ix (d_fragments d) fuel None sel r 0) as [[l n]|] eqn:E; [|discriminate].
  injection H as <- <- <-. exists sel. split; [reflexivity|]. split; [destruct ty'; cbn in T; [injection T as <-; constructor | now constructor | discriminate T]|]. split.
  - exact (iter_expands ix _ _ _ _ _ _ _ _ E).
  - exact (between_NoDup _ _ _ (iter_numbers ix _ _ _ _ _ _ _ _ E)).
Qed.
Print Assumptions C43_plan_is_the_expansion.

Theorem C43_expansion_is_unique :
  forall (IR : Type) (ix : index IR) frags pf cond before all items fs fs',
    Expands ix frags pf cond before all items fs -> Expands ix frags pf cond before all items fs' -> fs = fs'.
Proof. intros IR ix frags pf cond before all items fs fs' H H'. exact (Expands_fun ix frags _ _ _ _ _ _ H fs' H'). Qed.
Print Assumptions C43_expansion_is_unique.

(** Everything planned was selected, with this name, output name and type
    condition, directly or through fragments. *)
Theorem C43_only_selected_fields :
  forall (IR : Type) (ix : index IR) frags cond items fs,
    Expands ix frags None cond [] (direct_names items) items fs ->
    forall f, In f fs -> exists ds,
      Selects frags cond items (b_cond f) (b_name f) ds (b_output f) /\ Plannable ix (b_cond f) (b_name f) ds.
Proof. intros IR ix frags cond items fs H. exact (planned_selected ix frags _ _ _ _ _ _ H). Qed.
Print Assumptions C43_only_selected_fields.

(** Every selected output name is planned, if every selection under that name is
    of a known field that is not always excluded. *)
Theorem C43_every_selected_name :
  forall (IR : Type) (ix : index IR) frags cond items fs output,
    Expands ix frags None cond [] (direct_names items) items fs ->
    (exists t name ds, Selects frags cond items t name ds output) ->
    (forall t name ds, Selects frags cond items t name ds output -> Plannable ix t name ds) ->
    exists f, In f fs /\ b_output f = output.
Proof.
  intros IR ix frags cond items fs output H S P.
  exact (selected_planned ix frags _ _ _ _ _ _ H output (fun x => x) (fun x => x) P S).
Qed.
Print Assumptions C43_every_selected_name.

(** Without fragments, one field per output name. *)
Theorem C43_one_field_per_name_partial :
  forall (IR : Type) (ix : index IR) frags cond items fs,
    (forall it, In it items -> match it with SField _ _ _ _ _ => True | _ => False end) ->
    Expands ix frags None cond [] (direct_names items) items fs ->
    NoDup (map b_output fs).
Proof. intros IR ix frags cond items fs D H. exact (proj1 (direct_unique ix frags _ _ _ _ _ _ H D)). Qed.
Print Assumptions C43_one_field_per_name_partial.

(** A document whose fragments do not spread themselves is always planned, and the
    plan does not depend on the bound. *)
Theorem C43_always_planned :
  forall (IR : Type) (ix : index IR) d name,
    Acyclic (d_fragments d) ->
    exists fuel r, forall fuel', fuel <= fuel' -> build fuel' ix d name = Some r.
Proof.
  intros IR ix d name A. unfold build.
  destruct (get_operation d name) as [[ty sel]|e]; [|exists 0, (Err e); auto]. cbn.
  destruct (get_type ix ty) as [root|]; [|exists 0, (Err (RootTypeNotDefined ty)); auto].
  destruct (enough ix _ A sel) as [fuel O].
  destruct (iter ix (d_fragments d) fuel None sel root 0) as [[fs n]|] eqn:E; [|destruct (O _ _ _ E)].
  exists fuel, (Ok (root, ty, fs)). intros fuel' L. now rewrite (iter_mono ix _ _ _ _ _ _ _ _ L E).
Qed.
Print Assumptions C43_always_planned.

(** Which operation of a document is planned. *)
Theorem C43_operation_by_name :
  forall d name o,
    get_operation d name = Ok o <->
    match name, d_operations d with
    | None, Single o' => o' = o
    | None, Multiple l => exists n, l = [(n, o)]
    | Some n, Single _ => False
    | Some n, Multiple l => aget n l = Some o
    end.
Proof.
  intros d name o. unfold get_operation. destruct name as [n|], (d_operations d) as [o'|l].
  - split; [discriminate|easy].
  - destruct (aget n l); split; congruence.
  - split; congruence.
  - destruct l as [|[n o'] [|]]; split; try discriminate; try (intros [? E]; congruence).
    + intros E. exists n. congruence.
Qed.
Print Assumptions C43_operation_by_name.

(** A schema: [Query.user : User], [Query.node : Node], [User implements Node]. *)
Definition out43 (t : typ) : query_field string := QField t None [].
Definition ix43 : index string :=
  {| ix_map := [("Query", (DObject [], [("user", QField (TNamed "User" false) (Some "http")
                                                  [("id", {| if_type := TNamed "ID" true; if_default := None |})]);
                                        ("node", out43 (TNamed "Node" false))]));
                ("User", (DObject ["Node"], [("id", out43 (TNamed "ID" true)); ("name", out43 (TNamed "String" false))]));
                ("Node", (DInterface, [("id", out43 (TNamed "ID" true))]))];
     ix_query := "Query"; ix_mutation := None |}.
Definition leaf (name : string) : selection := SField None name [] [] [].
Definition doc43 (sel : list selection) (frags : list (string * fragment)) : document :=
  {| d_operations := Single {| o_ty := OQuery; o_sel := sel |}; d_fragments := frags |}.

Definition outline {IR} : list (bfield IR) -> list (nat * string * string * list (nat * string * string)) :=
  map (fun f => (b_id f, b_name f, b_output f, map (fun g => (b_id g, b_output g, b_cond g)) (b_sel f))).

Definition frags43 : list (string * fragment) := [("F", ("User", [leaf "name"; leaf "id"; leaf "nothing"]))].
Definition set43 : list selection :=
  [SInline None [] [SField (Some "n") "node" [] [] [leaf "id"; SSpread "F" []]];
   SField None "user" [("id", QStr "1")] [] [SSpread "F" []; leaf "id"; leaf "__typename"];
   SSpread "nowhere" []].

Example C43_witness :
  Acyclic frags43 /\
  exists fs, build 5 ix43 (doc43 set43 frags43) None = Some (Ok ("Query", OQuery, fs)) /\
    outline fs = [(0, "node", "n", [(1, "id", "Node"); (2, "name", "User")]);
                  (4, "user", "user", [(5, "name", "User"); (7, "id", "User"); (8, "__typename", "User")])] /\
    (exists t name ds, Selects frags43 "Query" set43 t name ds "n") /\
    (forall t name ds, Selects frags43 "Query" set43 t name ds "n" -> Plannable ix43 t name ds).
Proof.
  split.
  { exists (fun _ => 0). intros name on sel f E H. cbn in E. destruct (String.eqb name "F"); [|discriminate].
    injection E as <- <-. exfalso.
    assert (forall l, (forall it, In it l -> exists n, it = leaf n) -> Spreads l f -> False) as N.
    { intros l HL HS. destruct HS as [l n ds I|l a n g ds s f I J|l c ds s f I J]; apply HL in I as [m I]; try discriminate.
      injection I as -> -> -> -> ->. inversion J; subst; easy. }
    apply (N _) in H; [easy|]. intros it. cbn. intuition subst; eauto. }
  eexists. split; [reflexivity|]. split; [reflexivity|]. split.
  - exists "Query", "node", []. eapply S_inline; [now left|]. change "n" with (answers_as (Some "n") "node").
    eapply S_direct. now left.
  - intros t name ds S.
    inversion S as [? ? ? ? ? ? ? J EQ|? ? ? ? ? ? ? ? ? ? J K|? ? ? ? ? ? ? ? ? J K]; subst; cbn in J.
    + destruct J as [J|[J|[J|[]]]]; try discriminate. inversion J; subst; discriminate.
    + destruct J as [J|[J|[J|[]]]]; try congruence. injection J as <- <-. discriminate.
    + destruct J as [J|[J|[J|[]]]]; try congruence. injection J as <- <- <-.
      inversion K as [? ? ? ? ? ? ? J EQ|? ? ? ? ? ? ? ? ? ? J K'|? ? ? ? ? ? ? ? ? J K']; subst; cbn in J;
        destruct J as [J|[]]; try discriminate; inversion J; subst.
      split; [reflexivity|]. intros [C _]. discriminate.
Qed.

(** A second selection under the same output name is dropped with all below it,
    instead of being merged into the first. *)
Theorem C43_merging_refuted :
  exists (ix : index string) sel1 sel2 fs,
    build 5 ix (doc43 [SField None "user" [] [] sel1; SField None "user" [] [] sel2] []) None
      = Some (Ok ("Query", OQuery, fs)) /\
    Selects [] "User" sel2 "User" "name" [] "name" /\ Plannable ix "User" "name" [] /\
    forall f g, In f fs -> In g (b_sel f) -> b_output g <> "name".
Proof.
  exists ix43, [leaf "id"], [leaf "name"]. eexists. split; [reflexivity|]. split; [|split; [split; [reflexivity|intros [C _]; discriminate]|]].
  - exact (S_direct [] "User" [leaf "name"] None "name" [] [] [] (or_introl eq_refl)).
  - intros f g [<-|[]] [<-|[]]. discriminate.
Qed.
Print Assumptions C43_merging_refuted.

(** An always-excluded selection hides a later one of the same output name. *)
Theorem C43_excluded_hides_refuted :
  exists (ix : index string),
    Plannable ix "Query" "user" [] /\
    build 5 ix (doc43 [SField None "user" [] [("skip", [("if", QBool true)])] [leaf "id"];
                       SField None "user" [] [] [leaf "id"]] []) None = Some (Ok ("Query", OQuery, [])).
Proof. exists ix43. split; [split; [reflexivity|intros [C _]; discriminate]|reflexivity]. Qed.
Print Assumptions C43_excluded_hides_refuted.

(** Two fragments of one type that select the same field give it twice. *)
Theorem C43_one_per_name_with_fragments_refuted :
  exists (ix : index string) items fs,
    build 5 ix (doc43 items [("F", ("Query", [SField None "user" [] [] [leaf "id"]]));
                             ("G", ("Query", [SField None "user" [] [] [leaf "name"]]))]) None
      = Some (Ok ("Query", OQuery, fs)) /\
    map b_output fs = ["user"; "user"] /\ map b_cond fs = ["Query"; "Query"].
Proof. exists ix43, [SSpread "F" []; SSpread "G" []]. eexists. repeat split. Qed.
Print Assumptions C43_one_per_name_with_fragments_refuted.

(** [@skip] on a fragment is ignored. *)
Theorem C43_fragment_skip_refuted :
  exists (ix : index string) fs,
    build 5 ix (doc43 [SInline None [("skip", [("if", QBool true)])] [SField None "user" [] [] []]] []) None
      = Some (Ok ("Query", OQuery, fs)) /\ map b_output fs = ["user"].
Proof. exists ix43. eexists. repeat split. Qed.
Print Assumptions C43_fragment_skip_refuted.

(** A fragment that spreads itself makes the builder recurse without end. *)
Theorem C43_cyclic_fragment_refuted :
  exists (ix : index string) d, forall fuel, build fuel ix d None = None.
Proof.
  exists ix43, (doc43 [SSpread "F" []] [("F", ("Query", [SSpread "F" []]))]).
  assert (forall fuel pf n, iter ix43 [("F", ("Query", [SSpread "F" []]))] fuel pf [SSpread "F" []] "Query" n = None) as H.
  { induction fuel as [|fuel IH]; intros pf n; [reflexivity|]. cbn. unfold iter_set. cbn. now rewrite IH. }
  intros fuel. unfold build. cbn. now rewrite H.
Qed.
Print Assumptions C43_cyclic_fragment_refuted.

(** Where a value of an object type may stand, by which the fields planned under a
    type condition are chosen for a value. *)
Theorem C43_where_a_type_stands :
  forall (IR : Type) (ix : index IR) t t', is_type_implements ix t t' = true <-> stands_as ix t t'.
Proof. intros. exact (is_type_implements_spec ix t t'). Qed.
Print Assumptions C43_where_a_type_stands.

Example C43_stands_witness :
  stands_as ix43 "User" "Node" /\ ~ stands_as ix43 "Node" "User".
Proof.
  split; [exact (as_interface ix43 "User" _ _ "Node" eq_refl (or_introl eq_refl))|].
  rewrite <- is_type_implements_spec. discriminate.
Qed.
