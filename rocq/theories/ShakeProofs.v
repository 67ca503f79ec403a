(** Proofs about unused types. *)
From Coq Require Import String Ascii ZArith NArith Arith Bool Lia List.
From Verif Require Import Base BaseFacts Ordered OrderedFacts JsonModel TypeModel ConfigModel
  MergeSpec GraphModel GraphSpec.
Import ListNotations.
Open Scope string_scope.
Open Scope list_scope.

Lemma type_targets_refers : forall c n t m,
  find_type c n = Some t -> In m (type_targets t) -> Refers c n m.
Proof.
  intros c n t m F I. unfold type_targets in I. apply in_app_or in I. destruct I as [I|I].
  - apply in_flat_map in I. destruct I as [[fn f] [If I]]. cbn [snd] in I.
    apply in_app_or in I. destruct I as [I|I].
    + apply in_map_iff in I. destruct I as [[an a] [E Ia]]. cbn [snd] in E. subst m.
      eapply Ref_arg; eauto.
    + destruct I as [I|[]]. subst m. eapply Ref_field; eauto.
  - eapply Ref_interface; eauto.
Qed.

Lemma pushed_refers : forall c n ts m, pushed c n = Some ts -> In m ts -> Refers c n m.
Proof.
  intros c n ts m P I. unfold pushed in P. destruct (find_union c n) as [u|] eqn:U.
  - inv P. eapply Ref_member; eauto.
  - destruct (find_type c n) as [t|] eqn:T; inv P. eapply type_targets_refers; eauto.
Qed.

Lemma refers_pushed : forall c n m, names_disjoint c -> Refers c n m ->
  exists ts, pushed c n = Some ts /\ In m ts.
Proof.
  intros c n m D R. unfold pushed.
  inversion R as [? u ? U I|? t fn f T I|? t fn f an a T I J|? t ? T I]; subst.
  - rewrite U. eauto.
  - destruct (find_union c n) eqn:U.
    { rewrite (D n) in T by congruence. discriminate. }
    rewrite T. eexists; split; eauto. unfold type_targets. apply in_or_app. left.
    apply in_flat_map. exists (fn, f). split; auto. cbn. apply in_or_app. right. left. auto.
  - destruct (find_union c n) eqn:U.
    { rewrite (D n) in T by congruence. discriminate. }
    rewrite T. eexists; split; eauto. unfold type_targets. apply in_or_app. left.
    apply in_flat_map. exists (fn, f). split; auto. cbn. apply in_or_app. left.
    apply in_map_iff. exists (an, a). auto.
  - destruct (find_union c n) eqn:U.
    { rewrite (D n) in T by congruence. discriminate. }
    rewrite T. eexists; split; eauto. unfold type_targets. apply in_or_app. right. auto.
Qed.

Lemma pushed_names : forall c n ts, pushed c n = Some ts -> In n (all_names c).
Proof.
  intros c n ts P. unfold pushed, find_union, find_type in P. unfold all_names.
  apply in_or_app. destruct (oget scmp n (c_unions c)) as [u|] eqn:U.
  - right. apply (oget_in _ scmp_order) in U. apply in_map_iff. exists (n, u). auto.
  - left. destruct (oget scmp n (c_types c)) as [t|] eqn:T; inv P.
    apply (oget_in _ scmp_order) in T. apply in_map_iff. exists (n, t). auto.
Qed.

Lemma names_pushed : forall c n, In n (all_names c) -> exists ts, pushed c n = Some ts.
Proof.
  intros c n I. unfold pushed, find_union, find_type.
  destruct (oget scmp n (c_unions c)) as [u|] eqn:U; eauto.
  destruct (oget scmp n (c_types c)) as [t|] eqn:T; eauto.
  apply (oget_none _ scmp_order) in U, T. apply in_app_or in I. tauto.
Qed.

(** Termination. *)
Definition left_over (c : config) (names set : list string) : nat :=
  list_sum (map (fun n => S (out_degree c n)) (filter (fun n => negb (smem n set)) names)).

Lemma left_over_mono : forall c names set n,
  left_over c names (n :: set) <= left_over c names set.
Proof.
  intros c names set n. unfold left_over.
  induction names as [|m t IH]; [cbn; lia|].
  cbn [filter]. replace (smem m (n :: set)) with (String.eqb m n || smem m set)%bool by reflexivity.
  destruct (String.eqb m n), (smem m set); cbn [negb orb map list_sum fold_right] in *;
    unfold list_sum in *; cbn [fold_right] in *; lia.
Qed.

Lemma left_over_drop : forall c names set n,
  In n names -> smem n set = false ->
  left_over c names (n :: set) + S (out_degree c n) <= left_over c names set.
Proof.
  intros c names set n I M.
  induction names as [|m t IH]; [destruct I|].
  pose proof (left_over_mono c t set n) as Mo.
  destruct (String.eqb m n) eqn:E.
  - apply String.eqb_eq in E. subst m.
    assert (A : left_over c (n :: t) (n :: set) = left_over c t (n :: set)).
    { unfold left_over. cbn [filter].
      replace (smem n (n :: set)) with (String.eqb n n || smem n set)%bool by reflexivity.
      rewrite String.eqb_refl. reflexivity. }
    assert (B : left_over c (n :: t) set = S (out_degree c n) + left_over c t set).
    { unfold left_over. cbn [filter]. rewrite M. reflexivity. }
    lia.
  - destruct I as [I|I]; [subst m; rewrite String.eqb_refl in E; discriminate|].
    specialize (IH I).
    assert (A : left_over c (m :: t) (n :: set) =
      (if smem m set then 0 else S (out_degree c m)) + left_over c t (n :: set)).
    { unfold left_over. cbn [filter].
      replace (smem m (n :: set)) with (String.eqb m n || smem m set)%bool by reflexivity.
      rewrite E. cbn [orb]. destruct (smem m set); reflexivity. }
    assert (B : left_over c (m :: t) set =
      (if smem m set then 0 else S (out_degree c m)) + left_over c t set).
    { unfold left_over. cbn [filter]. destruct (smem m set); reflexivity. }
    lia.
Qed.

Lemma used_loop_total : forall c fuel stack set,
  List.length stack + left_over c (all_names c) set < fuel ->
  exists r, used_loop fuel c stack set = Some r.
Proof.
  intros c. induction fuel as [|fuel IH]; intros stack set L; [lia|].
  cbn [used_loop]. destruct stack as [|n rest]; eauto.
  cbn [List.length] in L.
  destruct (smem n set) eqn:M; [apply IH; lia|].
  destruct (pushed c n) as [ts|] eqn:P; [|apply IH; lia].
  apply IH. rewrite app_length, rev_length.
  pose proof (left_over_drop c (all_names c) set n (pushed_names _ _ _ P) M) as D.
  assert (out_degree c n = List.length ts) by (unfold out_degree; rewrite P; auto). lia.
Qed.

Lemma used_names_total : forall c, exists r, used_names c = Some r.
Proof.
  intros c. apply used_loop_total. unfold used_fuel.
  assert (A : left_over c (all_names c) [] = list_sum (map (fun n => S (out_degree c n)) (all_names c))).
  { assert (G : forall l : list string, filter (fun n => negb (smem n [])) l = l).
    { induction l as [|x t IH]; cbn; [reflexivity|]. cbn in IH. rewrite IH. reflexivity. }
    unfold left_over. rewrite G. reflexivity. }
  lia.
Qed.

(** What the loop computes. *)
Lemma used_loop_sound : forall c (R : string -> Prop),
  (forall n ts m, R n -> pushed c n = Some ts -> In m ts -> R m) ->
  forall fuel stack set r,
  used_loop fuel c stack set = Some r ->
  (forall n, In n stack -> R n) ->
  (forall n, In n set -> R n /\ pushed c n <> None) ->
  forall n, In n r -> R n /\ pushed c n <> None.
Proof.
  intros c R Cl. induction fuel as [|fuel IH]; intros stack set r E Hs Hset; [discriminate|].
  cbn [used_loop] in E. destruct stack as [|n rest]; [inv E; auto|].
  destruct (smem n set) eqn:M.
  { eapply IH; eauto. intros; apply Hs; right; auto. }
  destruct (pushed c n) as [ts|] eqn:P.
  - eapply IH; eauto.
    + intros m I. apply in_app_or in I. destruct I as [I|I].
      * apply in_rev in I. eapply Cl; eauto. apply Hs. left; auto.
      * apply Hs. right; auto.
    + intros m [I|I]; auto. subst. split; [apply Hs; left; auto|congruence].
  - eapply IH; eauto. intros; apply Hs; right; auto.
Qed.

Lemma used_loop_complete : forall c fuel stack set r,
  used_loop fuel c stack set = Some r ->
  (forall n ts m, In n set -> pushed c n = Some ts -> In m ts ->
     In m set \/ In m stack \/ pushed c m = None) ->
  (forall n, In n set -> In n r) /\
  (forall n, In n stack -> pushed c n <> None -> In n r) /\
  (forall n ts m, In n r -> pushed c n = Some ts -> In m ts -> In m r \/ pushed c m = None).
Proof.
  intros c. induction fuel as [|fuel IH]; intros stack set r E Inv; [discriminate|].
  cbn [used_loop] in E. destruct stack as [|n rest].
  { inv E. split; [auto|split]; [intros ? []|].
    intros n ts m I P J. destruct (Inv _ _ _ I P J) as [A|[[]|A]]; auto. }
  destruct (smem n set) eqn:M.
  - apply smem_In in M. destruct (IH _ _ _ E) as [A [B C]].
    { intros n' ts m I P J. destruct (Inv _ _ _ I P J) as [Q|[[Q|Q]|Q]]; auto. subst; auto. }
    split; [auto|split; auto]. intros m [Q|Q] K; auto. subst; auto.
  - destruct (pushed c n) as [ts|] eqn:P.
    + destruct (IH _ _ _ E) as [A [B C]].
      { intros n' ts' m [I|I] P' J.
        - subst n'. rewrite P in P'. inv P'. right. left. apply in_or_app. left.
          apply in_rev in J. auto.
        - destruct (Inv _ _ _ I P' J) as [Q|[[Q|Q]|Q]]; auto.
          + left. right. auto.
          + left. left. auto.
          + right. left. apply in_or_app. auto. }
      split; [intros; apply A; right; auto|split; auto].
      intros m [Q|Q] K; [subst; apply A; left; auto|apply B; auto; apply in_or_app; auto].
    + destruct (IH _ _ _ E) as [A [B C]].
      { intros n' ts m I P' J. destruct (Inv _ _ _ I P' J) as [Q|[[Q|Q]|Q]]; auto. subst; auto. }
      split; [auto|split; auto]. intros m [Q|Q] K; auto. subst; congruence.
Qed.

Lemma used_names_spec : forall c r, names_disjoint c -> used_names c = Some r ->
  forall n, In n r <-> Reachable c n /\ In n (all_names c).
Proof.
  intros c r D E n. split.
  - intros I. unfold used_names in E.
    destruct (used_loop_sound c (Reachable c)) with (fuel := used_fuel c) (stack := root_stack c)
      (set := @nil string) (r := r) (n := n) as [A B]; auto.
    + intros a ts m Ra P J. eapply Reach_step; eauto. eapply pushed_refers; eauto.
    + intros m J. unfold root_stack in J. apply in_app_or in J. destruct J as [J|J].
      * destruct (r_mutation (c_schema c)) eqn:Q; [|destruct J]. destruct J as [J|[]]. subst.
        apply Reach_mutation. auto.
      * destruct (r_query (c_schema c)) eqn:Q; [|destruct J]. destruct J as [J|[]]. subst.
        apply Reach_query. auto.
    + intros ? [].
    + split; auto. destruct (pushed c n) eqn:P; [|congruence]. eapply pushed_names; eauto.
  - intros [Rn In_]. unfold used_names in E.
    destruct (used_loop_complete c _ _ _ _ E) as [_ [B C]]; [intros ? ? ? []|].
    assert (G : forall x, Reachable c x -> In x r \/ pushed c x = None).
    { intros x Rx. induction Rx as [q Q|m Q|a b Ra IH Rf].
      - destruct (pushed c q) eqn:P; auto. left. apply B; [|congruence].
        unfold root_stack. rewrite Q. apply in_or_app. right. left. auto.
      - destruct (pushed c m) eqn:P; auto. left. apply B; [|congruence].
        unfold root_stack. rewrite Q. apply in_or_app. left. left. auto.
      - destruct (refers_pushed c a b D Rf) as [ts [P J]].
        destruct IH as [IH|IH]; [eauto|congruence]. }
    destruct (G n Rn) as [Q|Q]; auto.
    destruct (names_pushed c n In_) as [ts P]. congruence.
Qed.

(** Removal. *)
Lemma oget_odels : forall V names (m : list (string * V)) n,
  oget scmp n (fold_left (fun m n => odel scmp n m) names m) =
  if smem n names then None else oget scmp n m.
Proof.
  intros V. induction names as [|x t IH]; intros m n; cbn [fold_left]; [reflexivity|].
  rewrite IH. replace (smem n (x :: t)) with (String.eqb n x || smem n t)%bool by reflexivity.
  destruct (smem n t); [rewrite orb_true_r; auto|]. rewrite orb_false_r.
  destruct (String.eqb n x) eqn:E.
  - apply String.eqb_eq in E. subst. apply oget_odel_same.
  - apply String.eqb_neq in E. apply (oget_odel_other _ scmp_order); auto.
Qed.

Lemma osorted_odels : forall V names (m : list (string * V)),
  osorted scmp m -> osorted scmp (fold_left (fun m n => odel scmp n m) names m).
Proof.
  intros V. induction names as [|x t IH]; intros m S; cbn; auto.
  apply IH, osorted_odel; auto.
Qed.

Lemma unused_mem : forall c used n,
  smem n (filter (fun n => negb (smem n used)) (all_names c)) =
  smem n (all_names c) && negb (smem n used).
Proof.
  intros c used n. destruct (smem n (filter _ _)) eqn:E; symmetry.
  - apply smem_In, filter_In in E. destruct E as [I N]. apply andb_true_iff. split; auto.
    apply smem_In. auto.
  - apply smem_false in E. destruct (smem n (all_names c)) eqn:A; auto. cbn.
    destruct (smem n used) eqn:B; auto. exfalso. apply E, filter_In. split.
    + apply smem_In. auto.
    + rewrite B. auto.
Qed.

Lemma found_named_type : forall c n t, find_type c n = Some t -> In n (all_names c).
Proof.
  intros c n t F. apply in_or_app. left. apply (oget_in _ scmp_order) in F.
  apply in_map_iff. exists (n, t). auto.
Qed.
Lemma found_named_union : forall c n u, find_union c n = Some u -> In n (all_names c).
Proof.
  intros c n t F. apply in_or_app. right. apply (oget_in _ scmp_order) in F.
  apply in_map_iff. exists (n, t). auto.
Qed.

Lemma shake_total : forall c, exists c', tree_shake c = Some c'.
Proof.
  intros c. unfold tree_shake, unused_types. destruct (used_names_total c) as [r E].
  rewrite E. eauto.
Qed.

Lemma shake_types : forall c c', names_disjoint c -> tree_shake c = Some c' ->
  forall n t, find_type c' n = Some t <-> find_type c n = Some t /\ Reachable c n.
Proof.
  intros c c' D E n t. unfold tree_shake, unused_types in E.
  destruct (used_names c) as [r|] eqn:U; inv E.
  unfold find_type at 1, remove_types; cbn [c_types].
  rewrite oget_odels, unused_mem. pose proof (used_names_spec c r D U n) as S.
  split.
  - intros F. destruct (smem n (all_names c) && negb (smem n r)) eqn:B; [discriminate|].
    split; auto. apply S. pose proof (found_named_type c n t F) as I. apply smem_In in I.
    rewrite I in B. cbn in B. apply negb_false_iff, smem_In in B. auto.
  - intros [F R]. pose proof (found_named_type c n t F) as I.
    assert (M : smem n r = true) by (apply smem_In, S; auto).
    rewrite M. cbn. rewrite andb_false_r. auto.
Qed.

Lemma shake_unions : forall c c', names_disjoint c -> tree_shake c = Some c' ->
  forall n u, find_union c' n = Some u <-> find_union c n = Some u /\ Reachable c n.
Proof.
  intros c c' D E n t. unfold tree_shake, unused_types in E.
  destruct (used_names c) as [r|] eqn:U; inv E.
  unfold find_union at 1, remove_types; cbn [c_unions].
  rewrite oget_odels, unused_mem. pose proof (used_names_spec c r D U n) as S.
  split.
  - intros F. destruct (smem n (all_names c) && negb (smem n r)) eqn:B; [discriminate|].
    split; auto. apply S. pose proof (found_named_union c n t F) as I. apply smem_In in I.
    rewrite I in B. cbn in B. apply negb_false_iff, smem_In in B. auto.
  - intros [F R]. pose proof (found_named_union c n t F) as I.
    assert (M : smem n r = true) by (apply smem_In, S; auto).
    rewrite M. cbn. rewrite andb_false_r. auto.
Qed.

Lemma shake_rest : forall c c', tree_shake c = Some c' ->
  c_server c' = c_server c /\ c_upstream c' = c_upstream c /\ c_schema c' = c_schema c /\
  c_enums c' = c_enums c /\ c_links c' = c_links c /\ c_telemetry c' = c_telemetry c.
Proof.
  intros c c' E. unfold tree_shake, unused_types in E.
  destruct (used_names c) as [r|]; inv E. cbn.
  split; [|split; [|split; [|split; [|split]]]]; reflexivity.
Qed.

Lemma shake_refers : forall c c', names_disjoint c -> tree_shake c = Some c' ->
  forall n m, Refers c' n m <-> Refers c n m /\ Reachable c n.
Proof.
  intros c c' D E n m. pose proof (shake_types c c' D E n) as T.
  pose proof (shake_unions c c' D E n) as U. split.
  - intros R. inversion R as [? u ? F I|? t fn f F I|? t fn f an a F I J|? t ? F I]; subst.
    + apply U in F. destruct F. split; auto. eapply Ref_member; eauto.
    + apply T in F. destruct F. split; auto. eapply Ref_field; eauto.
    + apply T in F. destruct F. split; auto. eapply Ref_arg; eauto.
    + apply T in F. destruct F. split; auto. eapply Ref_interface; eauto.
  - intros [R Rn]. inversion R as [? u ? F I|? t fn f F I|? t fn f an a F I J|? t ? F I]; subst.
    + eapply Ref_member; eauto. apply U. auto.
    + eapply Ref_field; eauto. apply T; auto.
    + eapply Ref_arg; eauto. apply T; auto.
    + eapply Ref_interface; eauto. apply T; auto.
Qed.

(** Nothing dangles that did not dangle before. *)
Lemma shake_closed : forall c c', names_disjoint c -> tree_shake c = Some c' ->
  forall n m, Refers c' n m ->
  (forall t, find_type c m = Some t -> find_type c' m = Some t) /\
  (forall u, find_union c m = Some u -> find_union c' m = Some u) /\
  find_enum c' m = find_enum c m.
Proof.
  intros c c' D E n m R. apply (shake_refers c c' D E) in R. destruct R as [R Rn].
  assert (Rm : Reachable c m) by (eapply Reach_step; eauto).
  split; [|split].
  - intros t F. apply (shake_types c c' D E). auto.
  - intros u F. apply (shake_unions c c' D E). auto.
  - unfold find_enum. destruct (shake_rest c c' E) as [_ [_ [_ [Q _]]]]. rewrite Q. auto.
Qed.

Lemma shake_reachable : forall c c', names_disjoint c -> tree_shake c = Some c' ->
  forall n, Reachable c n <-> Reachable c' n.
Proof.
  intros c c' D E n. destruct (shake_rest c c' E) as [_ [_ [Q _]]]. split.
  - intros R. induction R as [q H|m H|a b Ra IH Rf].
    + apply Reach_query. rewrite Q. auto.
    + apply Reach_mutation. rewrite Q. auto.
    + eapply Reach_step; eauto. apply (shake_refers c c' D E). auto.
  - intros R. induction R as [q H|m H|a b Ra IH Rf].
    + apply Reach_query. rewrite <- Q. auto.
    + apply Reach_mutation. rewrite <- Q. auto.
    + eapply Reach_step; eauto. apply (shake_refers c c' D E) in Rf. tauto.
Qed.

Lemma opt_ext : forall A (x y : option A), (forall v, x = Some v <-> y = Some v) -> x = y.
Proof.
  intros A [x|] [y|] H; auto.
  - symmetry. apply H. auto.
  - symmetry. apply H. auto.
  - apply H. auto.
Qed.

Lemma shake_idempotent : forall c c', names_disjoint c ->
  osorted scmp (c_types c) -> osorted scmp (c_unions c) ->
  tree_shake c = Some c' -> tree_shake c' = Some c'.
Proof.
  intros c c' D S1 S2 E.
  assert (D' : names_disjoint c').
  { intros n N. destruct (find_union c' n) as [u|] eqn:F; [|congruence].
    apply (shake_unions c c' D E) in F. destruct F as [F _].
    destruct (find_type c' n) as [t|] eqn:G; auto. apply (shake_types c c' D E) in G.
    destruct G as [G _]. rewrite (D n) in G; congruence. }
  destruct (shake_total c') as [c2 E2]. rewrite E2. f_equal.
  assert (S1' : osorted scmp (c_types c') /\ osorted scmp (c_unions c')).
  { unfold tree_shake in E. destruct (unused_types c); inv E. cbn. split; apply osorted_odels; auto. }
  assert (S2' : osorted scmp (c_types c2) /\ osorted scmp (c_unions c2)).
  { unfold tree_shake in E2. destruct (unused_types c'); inv E2. cbn.
    destruct S1'. split; apply osorted_odels; auto. }
  assert (A : c_types c2 = c_types c').
  { apply (osorted_ext _ scmp_order); try tauto. intros k.
    apply opt_ext. intros v. change (find_type c2 k = Some v <-> find_type c' k = Some v).
    rewrite (shake_types c' c2 D' E2). split; [tauto|]. intros F. split; auto.
    apply (shake_types c c' D E) in F. apply (shake_reachable c c' D E). tauto. }
  assert (B : c_unions c2 = c_unions c').
  { apply (osorted_ext _ scmp_order); try tauto. intros k.
    apply opt_ext. intros v. change (find_union c2 k = Some v <-> find_union c' k = Some v).
    rewrite (shake_unions c' c2 D' E2). split; [tauto|]. intros F. split; auto.
    apply (shake_unions c c' D E) in F. apply (shake_reachable c c' D E). tauto. }
  destruct (shake_rest c' c2 E2) as [R1 [R2 [R3 [R4 [R5 R6]]]]].
  destruct c2, c'; cbn in *; subst; reflexivity.
Qed.
