(** Proofs about renaming types. *)
From Coq Require Import String Ascii ZArith NArith Arith Bool Lia List.
From Verif Require Import Base BaseFacts Ordered OrderedFacts JsonModel TypeModel ConfigModel
  RenameModel RenameSpec.
Import ListNotations.
Open Scope string_scope.
Open Scope list_scope.

Lemma oget_move : forall V k v (m : list (string * V)) n, k <> v ->
  oget scmp n (move k v m) =
  match oget scmp k m with
  | Some x => if String.eqb n v then Some x else if String.eqb n k then None else oget scmp n m
  | None => oget scmp n m
  end.
Proof.
  intros V k v m n D. unfold move. destruct (oget scmp k m) as [x|] eqn:E; auto.
  destruct (String.eqb n v) eqn:A.
  - apply String.eqb_eq in A. subst. apply (oget_oins_same _ scmp_order).
  - apply String.eqb_neq in A. rewrite (oget_oins_other _ scmp_order) by auto.
    destruct (String.eqb n k) eqn:B.
    + apply String.eqb_eq in B. subst. apply oget_odel_same.
    + apply String.eqb_neq in B. apply (oget_odel_other _ scmp_order). auto.
Qed.

Definition moves {V} (names : list (string * string)) (m : list (string * V)) : list (string * V) :=
  fold_left (fun m kv => move (fst kv) (snd kv) m) names m.

Lemma new_name_other : forall names n, ~ In n (map fst names) -> new_name names n = n.
Proof.
  intros names n H. unfold new_name. destruct (aget n names) eqn:E; auto.
  apply aget_In in E. exfalso. apply H. apply in_map_iff. exists (n, s). auto.
Qed.

Lemma new_name_cons : forall k v names n,
  new_name ((k, v) :: names) n = if String.eqb n k then v else new_name names n.
Proof. intros. unfold new_name. cbn [aget]. destruct (String.eqb n k); reflexivity. Qed.

Lemma moves_spec : forall V names (m : list (string * V)),
  NoDup (map fst names) -> NoDup (map snd names) ->
  (forall v, In v (map snd names) -> oget scmp v m = None) ->
  (forall v, In v (map snd names) -> ~ In v (map fst names)) ->
  (forall n x, oget scmp n m = Some x -> oget scmp (new_name names n) (moves names m) = Some x) /\
  (forall n' x, oget scmp n' (moves names m) = Some x ->
     exists n, n' = new_name names n /\ oget scmp n m = Some x).
Proof.
  intros V. induction names as [|[k v] names IH]; intros m N1 N2 F A.
  { split; [auto|]. intros n' x E. exists n'. auto. }
  cbn [map fst snd] in *. inversion N1 as [|? ? N1a N1b]; subst. inversion N2 as [|? ? N2a N2b]; subst.
  assert (Kv : k <> v).
  { intros Q. apply (A v); [left; auto|left; auto]. }
  assert (Av : ~ In v (map fst names)).
  { intros I. apply (A v); [left; auto|right; auto]. }
  assert (Fv : oget scmp v m = None) by (apply F; left; auto).
  cbn [moves fold_left fst snd]. change (fold_left _ names (move k v m)) with (moves names (move k v m)).
  destruct (IH (move k v m)) as [P Q]; auto.
  { intros w I. rewrite oget_move by auto.
    assert (w <> v) by (intros ->; auto).
    assert (w <> k). { intros ->. apply (A k); [right; auto|left; auto]. }
    destruct (oget scmp k m); [|apply F; right; auto].
    replace (String.eqb w v) with false by (symmetry; apply String.eqb_neq; auto).
    replace (String.eqb w k) with false by (symmetry; apply String.eqb_neq; auto).
    apply F. right. auto. }
  { intros w I J. apply (A w); [right; auto|right; auto]. }
  split.
  - intros n x E. rewrite new_name_cons. destruct (String.eqb n k) eqn:B.
    + apply String.eqb_eq in B. subst n. pose proof (P v x) as Pv. rewrite (new_name_other names v Av) in Pv. apply Pv.
      rewrite oget_move by auto. rewrite E, String.eqb_refl. reflexivity.
    + apply P. rewrite oget_move by auto. rewrite B.
      assert (n <> v) by (intros ->; congruence).
      replace (String.eqb n v) with false by (symmetry; apply String.eqb_neq; auto).
      destruct (oget scmp k m); auto.
  - intros n' x E. destruct (Q n' x E) as [n [-> G]]. rewrite oget_move in G by auto.
    destruct (oget scmp k m) as [y|] eqn:Ek.
    + destruct (String.eqb n v) eqn:B.
      * apply String.eqb_eq in B. subst n. inv G. exists k. rewrite new_name_cons, String.eqb_refl.
        split; [apply new_name_other; auto|auto].
      * destruct (String.eqb n k) eqn:B2; [discriminate|]. exists n. rewrite new_name_cons, B2. auto.
    + exists n. rewrite new_name_cons. destruct (String.eqb n k) eqn:B2; auto.
      apply String.eqb_eq in B2. subst. congruence.
Qed.

Lemma has_move : forall V k v (m : list (string * V)) n, k <> v -> n <> v -> n <> k ->
  has n (move k v m) = has n m.
Proof.
  intros V k v m n D A B. unfold has. rewrite oget_move by auto.
  replace (String.eqb n v) with false by (symmetry; apply String.eqb_neq; auto).
  replace (String.eqb n k) with false by (symmetry; apply String.eqb_neq; auto).
  destruct (oget scmp k m); auto.
Qed.

Lemma has_false_move : forall V k v (m : list (string * V)), has k m = false -> move k v m = m.
Proof. intros V k v m. unfold has, move. destruct (oget scmp k m); [discriminate|auto]. Qed.

Definition known (s : rename_state) (n : string) : bool :=
  has n (rs_types s) || has n (rs_enums s) || has n (rs_unions s).

Lemma rename_one_known : forall s k v n, k <> v -> n <> v -> n <> k ->
  known (rename_one s (k, v)) n = known s n.
Proof.
  intros s k v n D A B. unfold known, rename_one. cbn [fst snd].
  destruct (has k (rs_types s) || has k (rs_enums s) || has k (rs_unions s))%bool; cbn; auto.
  rewrite !has_move by auto. reflexivity.
Qed.

Lemma aset_fresh : forall A k (v : A) l, ~ In k (akeys l) -> aset k v l = l ++ [(k, v)].
Proof.
  intros A k v l. induction l as [|[k' v'] t IH]; cbn; intros H; auto.
  destruct (String.eqb k k') eqn:E.
  - apply String.eqb_eq in E. subst. exfalso. auto.
  - rewrite IH; auto.
Qed.

(** The first loop. *)
Lemma rename_fold : forall names s,
  NoDup (map fst names) -> NoDup (map snd names) ->
  (forall v, In v (map snd names) -> ~ In v (map fst names)) ->
  (forall k, In k (map fst names) -> ~ In k (akeys (rs_lookup s))) ->
  (forall q, rs_query s = Some q -> In q (map fst names) -> has q (rs_types s) = true) ->
  (forall q, rs_mutation s = Some q -> In q (map fst names) -> has q (rs_types s) = true) ->
  (forall q, rs_query s = Some q -> rs_mutation s = Some q -> ~ In q (map fst names)) ->
  let s' := fold_left rename_one names s in
  (rs_ok s' = true <-> rs_ok s = true /\ forall k, In k (map fst names) -> known s k = true) /\
  (rs_ok s' = true ->
     rs_types s' = moves names (rs_types s) /\ rs_enums s' = moves names (rs_enums s) /\
     rs_unions s' = moves names (rs_unions s) /\ rs_lookup s' = rs_lookup s ++ names /\
     rs_query s' = option_map (new_name names) (rs_query s) /\
     rs_mutation s' = option_map (new_name names) (rs_mutation s)).
Proof.
  induction names as [|[k v] names IH]; intros s N1 N2 A L Q1 Q2 Q3 s'.
  { subst s'. cbn. split; [split; [intros E; split; [auto|intros ? []]|intros [E _]; auto]|].
    intros _. rewrite app_nil_r. split; [auto|]. split; [auto|]. split; [auto|]. split; [auto|].
    split; [destruct (rs_query s); auto|destruct (rs_mutation s); auto]. }
  cbn [map fst snd] in *. inversion N1 as [|? ? N1a N1b]; subst. inversion N2 as [|? ? N2a N2b]; subst.
  assert (Kv : k <> v). { intros Q. apply (A v); [left; auto|left; auto]. }
  assert (Av : ~ In v (map fst names)). { intros I. apply (A v); [left; auto|right; auto]. }
  assert (Kn : forall n, In n (map fst names) -> n <> v /\ n <> k).
  { intros n I. split; [intros ->; auto|intros ->; auto]. }
  subst s'. cbn [fold_left].
  assert (Lk : ~ In k (akeys (rs_lookup s))) by (apply L; left; auto).
  destruct (known s k) eqn:K.
  2:{ (* unknown: the flag drops and never recovers *)
    assert (Ro : rs_ok (rename_one s (k, v)) = false).
    { unfold known in K. unfold rename_one. cbn [fst snd]. rewrite K. reflexivity. }
    assert (Stay : forall l t, rs_ok t = false -> rs_ok (fold_left rename_one l t) = false).
    { induction l as [|[a b] l IHl]; intros t Ht; cbn; auto. apply IHl. unfold rename_one. cbn.
      destruct (has a (rs_types t) || has a (rs_enums t) || has a (rs_unions t))%bool; cbn; auto. }
    split.
    - rewrite Stay by auto. split; [discriminate|]. intros [_ H]. rewrite H in K; [discriminate|left; auto].
    - rewrite Stay by auto. discriminate. }
  assert (E1 : rs_types (rename_one s (k, v)) = move k v (rs_types s) /\
    rs_enums (rename_one s (k, v)) = move k v (rs_enums s) /\
    rs_unions (rename_one s (k, v)) = move k v (rs_unions s) /\
    rs_lookup (rename_one s (k, v)) = rs_lookup s ++ [(k, v)] /\
    rs_ok (rename_one s (k, v)) = rs_ok s /\
    rs_query (rename_one s (k, v)) = option_map (new_name [(k, v)]) (rs_query s) /\
    rs_mutation (rename_one s (k, v)) = option_map (new_name [(k, v)]) (rs_mutation s)).
  { unfold known in K. unfold rename_one. cbn [fst snd]. rewrite K. cbn.
    split; [auto|]. split; [auto|]. split; [auto|]. split; [apply aset_fresh; auto|]. split; [auto|].
    assert (T : forall n, new_name [(k, v)] n = if String.eqb n k then v else n).
    { intros n. rewrite new_name_cons. reflexivity. }
    split.
    - destruct (has k (rs_types s)) eqn:H; destruct (rs_query s) as [q|] eqn:Eq; cbn; auto; rewrite T.
      + destruct (String.eqb q k); auto.
      + destruct (String.eqb q k) eqn:B; auto. apply String.eqb_eq in B. subst q.
        rewrite (Q1 k) in H; [discriminate|auto|left; auto].
    - destruct (has k (rs_types s)) eqn:H; destruct (rs_mutation s) as [m|] eqn:Em; cbn; auto.
      + rewrite T. destruct (rs_query s) as [q|] eqn:Eq.
        * destruct (String.eqb q k) eqn:B; destruct (String.eqb m k) eqn:B2; auto.
          apply String.eqb_eq in B, B2. subst. exfalso. apply (Q3 k); [auto|auto|left; auto].
        * destruct (String.eqb m k); auto.
      + destruct (rs_query s) as [q|]; auto. destruct (String.eqb q k); auto.
      + rewrite T. destruct (String.eqb m k) eqn:B; auto. apply String.eqb_eq in B. subst m.
        rewrite (Q2 k) in H; [discriminate|auto|left; auto]. }
  destruct E1 as [T1 [T2 [T3 [T4 [T5 [T6 T7]]]]]].
  assert (NN : forall n, new_name [(k, v)] n = if String.eqb n k then v else n).
  { intros n. rewrite new_name_cons. reflexivity. }
  assert (Comp : forall n, new_name names (new_name [(k, v)] n) = new_name ((k, v) :: names) n).
  { intros n. rewrite NN, new_name_cons. destruct (String.eqb n k); auto. apply new_name_other. auto. }
  destruct (IH (rename_one s (k, v))) as [P1 P2]; auto.
  - intros w I J. apply (A w); right; auto.
  - intros w I J. rewrite T4, akeys_app in J. apply in_app_or in J. destruct J as [J|J].
    + apply (L w); [right; auto|auto].
    + cbn in J. destruct J as [J|[]]. subst. auto.
  - intros q Hq I. rewrite T6 in Hq. destruct (rs_query s) as [q0|] eqn:E0; inv Hq.
    rewrite NN in *. destruct (String.eqb q0 k) eqn:B; [contradiction|].
    destruct (Kn q0 I). rewrite T1, has_move by auto. apply Q1; [auto|right; auto].
  - intros q Hq I. rewrite T7 in Hq. destruct (rs_mutation s) as [q0|] eqn:E0; inv Hq.
    rewrite NN in *. destruct (String.eqb q0 k) eqn:B; [contradiction|].
    destruct (Kn q0 I). rewrite T1, has_move by auto. apply Q2; [auto|right; auto].
  - intros q Hq Hm I. rewrite T6 in Hq. rewrite T7 in Hm.
    destruct (rs_query s) as [q0|] eqn:E0; cbn in Hq; [|discriminate].
    destruct (rs_mutation s) as [m0|] eqn:E2; cbn in Hm; [|discriminate].
    injection Hq as Hq. injection Hm as Hm. rewrite NN in Hq, Hm.
    destruct (String.eqb q0 k) eqn:B; [rewrite <- Hq in I; contradiction|].
    destruct (String.eqb m0 k) eqn:B2; [rewrite <- Hm in I; contradiction|].
    apply (Q3 q0); [auto|congruence|right; congruence].
  - split.
    + rewrite P1, T5. split; intros [O H]; split; auto.
      * intros n [I|I]; [subst; auto|]. destruct (Kn n I). rewrite <- (H n I).
        symmetry. apply rename_one_known; auto.
      * intros n I. destruct (Kn n I). rewrite rename_one_known by auto. apply H. right. auto.
    + intros O. destruct (P2 O) as [R1 [R2 [R3 [R4 [R5 R6]]]]].
      rewrite R1, R2, R3, R4, R5, R6, T1, T2, T3, T4, T6, T7. rewrite <- app_assoc.
      split; [auto|]. split; [auto|]. split; [auto|]. split; [auto|].
      split; [destruct (rs_query s); cbn; auto; rewrite Comp; auto
             |destruct (rs_mutation s); cbn; auto; rewrite Comp; auto].
Qed.

(** The second part. *)
Lemma rename_typ_ok : forall names t, rename_typ names t = renamed_typ names t.
Proof.
  intros names t. unfold rename_typ. induction t as [n nn|t IH nn]; cbn.
  - unfold new_name. destruct (aget n names); reflexivity.
  - rewrite <- IH. destruct (aget (type_name t) names); reflexivity.
Qed.

Lemma map_values_entries : forall V (R : V -> V -> Prop) f (m : list (string * V)),
  (forall x, R x (f x)) -> same_entries R m (map_values f m).
Proof.
  intros V R f m H. unfold same_entries. induction m as [|[k v] t IH]; [constructor|].
  constructor; [cbn; auto|exact IH].
Qed.

Lemma oget_map_values : forall V W (f : V -> W) (m : list (string * V)) n,
  oget scmp n (map_values f m) = option_map f (oget scmp n m).
Proof.
  intros V W f m n. induction m as [|[k v] t IH]; cbn; auto. destruct (scmp n k); auto.
Qed.

Lemma rename_field_ok : forall names f, renamed_field names f (rename_field names f).
Proof.
  intros names f. unfold renamed_field, rename_field. cbn. rewrite rename_typ_ok.
  split; [auto|]. split; [|repeat split].
  apply map_values_entries. intros a. unfold renamed_arg. cbn. rewrite rename_typ_ok. auto.
Qed.

Lemma renamed_set_ok : forall names s, renamed_set names s (sextend scmp [] (map (looked names) s)).
Proof.
  intros names s. split; [apply (ssorted_sextend _ scmp_order); constructor|].
  intros x. rewrite (sextend_in _ scmp_order), in_map_iff. cbn. split.
  - intros [[]|[n [E I]]]. exists n. auto.
  - intros [n [I E]]. right. exists n. auto.
Qed.

Lemma rename_gtype_ok : forall names t, renamed_gtype names t (rename_gtype names t).
Proof.
  intros names t. unfold renamed_gtype, rename_gtype. cbn.
  split; [apply map_values_entries, rename_field_ok|]. split; [apply renamed_set_ok|repeat split].
Qed.

Lemma in_sremoves : forall ks m x,
  In x (fold_left (fun acc n => sremove n acc) ks m) <-> In x m /\ ~ In x ks.
Proof.
  induction ks as [|k ks IH]; intros m x; cbn; [tauto|].
  rewrite IH. unfold sremove. rewrite filter_In, negb_true_iff, String.eqb_neq. intuition.
Qed.

Lemma rename_gunion_ok : forall names u,
  (forall v, In v (map snd names) -> ~ In v (map fst names)) ->
  renamed_gunion names u (rename_gunion names u).
Proof.
  intros names u A. split; [|reflexivity]. cbn [u_types rename_gunion].
  unfold rename_members_2. destruct (renamed_set_ok names (rename_members_1 names (u_types u))) as [S M].
  split; auto. intros x. rewrite M. unfold rename_members_1.
  assert (Fix : forall n, aget n names <> None -> new_name names (new_name names n) = new_name names n).
  { intros n H. unfold new_name at 2 3. destruct (aget n names) as [v|] eqn:E; [|congruence].
    apply new_name_other. apply A. apply aget_In in E. apply in_map_iff. exists (n, v). auto. }
  split.
  - intros [n [I ->]]. apply (sextend_in _ scmp_order) in I. destruct I as [I|I].
    + apply in_sremoves in I. exists n. tauto.
    + apply in_map_iff in I. destruct I as [n0 [<- I]]. apply filter_In in I. destruct I as [I B].
      exists n0. split; auto. apply Fix. destruct (aget n0 names); [discriminate|discriminate].
  - intros [n [I ->]]. destruct (aget n names) as [v|] eqn:E.
    + exists (new_name names n). split; [|symmetry; apply Fix; congruence].
      apply (sextend_in _ scmp_order). right. apply in_map_iff. exists n. split; auto.
      apply filter_In. rewrite E. auto.
    + exists n. split; auto. apply (sextend_in _ scmp_order). left. apply in_sremoves. split; auto.
      intros J. apply filter_In in J. rewrite E in J. destruct J. discriminate.
Qed.

Lemma definitions_ok : forall V names (R : V -> V -> Prop) f (m : list (string * V)),
  NoDup (map fst names) -> NoDup (map snd names) ->
  (forall v, In v (map snd names) -> oget scmp v m = None) ->
  (forall v, In v (map snd names) -> ~ In v (map fst names)) ->
  (forall x, R x (f x)) ->
  renamed_definitions names R (fun n => oget scmp n m) (fun n => oget scmp n (map_values f (moves names m))).
Proof.
  intros V names R f m N1 N2 F A H. destruct (moves_spec V names m N1 N2 F A) as [P Q]. split.
  - intros n x E. exists (f x). split; auto. rewrite oget_map_values, (P n x E). reflexivity.
  - intros n' x' E. rewrite oget_map_values in E.
    destruct (oget scmp n' (moves names m)) as [x|] eqn:G; inv E.
    destruct (Q n' x G) as [n [-> E]]. exists n, x. auto.
Qed.

Lemma has_defined : forall c n,
  (has n (c_types c) || has n (c_enums c) || has n (c_unions c))%bool = true <-> defined c n.
Proof.
  intros c n. unfold has, defined, find_type, find_enum, find_union.
  destruct (oget scmp n (c_types c)), (oget scmp n (c_enums c)), (oget scmp n (c_unions c)); cbn;
    intuition congruence.
Qed.

Lemma rename_main : forall names c, fresh_names names c -> proper_roots c ->
  ((exists c', rename_types names c = Ok c') <-> forall k, In k (map fst names) -> defined c k) /\
  (forall c', rename_types names c = Ok c' -> consistently_renamed names c c').
Proof.
  intros names c [N1 N2 F A] [R1 R2 R3].
  unfold rename_types.
  set (s0 := {| rs_types := c_types c; rs_enums := c_enums c; rs_unions := c_unions c;
       rs_query := r_query (c_schema c); rs_mutation := r_mutation (c_schema c);
       rs_lookup := []; rs_ok := true |}).
  destruct (rename_fold names s0) as [P1 P2]; auto.
  - intros q E _. specialize (R1 q E). unfold has. cbn. unfold find_type in R1.
    destruct (oget scmp q (c_types c)); congruence.
  - intros q E _. specialize (R2 q E). unfold has. cbn. unfold find_type in R2.
    destruct (oget scmp q (c_types c)); congruence.
  - intros q E E2. exfalso. apply (R3 q E E2).
  - set (s := fold_left rename_one names s0) in *. split.
    + split.
      * intros [c' E] k I. destruct (rs_ok s) eqn:O; [|discriminate].
        apply has_defined. apply (proj2 (proj1 P1 eq_refl)). auto.
      * intros H. assert (O : rs_ok s = true).
        { apply P1. split; auto. intros k I. apply has_defined. auto. }
        rewrite O. eauto.
    + intros c' E. destruct (rs_ok s) eqn:O; inv E.
      destruct (P2 eq_refl) as [T1 [T2 [T3 [T4 [T5 T6]]]]]. cbn in T1, T2, T3, T4, T5, T6.
      assert (F1 : forall v, In v (map snd names) -> oget scmp v (c_types c) = None).
      { intros v I. specialize (F v I). unfold defined, find_type in F.
        destruct (oget scmp v (c_types c)); auto. exfalso. apply F. left. congruence. }
      assert (F2 : forall v, In v (map snd names) -> oget scmp v (c_enums c) = None).
      { intros v I. specialize (F v I). unfold defined, find_enum in F.
        destruct (oget scmp v (c_enums c)); auto. exfalso. apply F. right. left. congruence. }
      assert (F3 : forall v, In v (map snd names) -> oget scmp v (c_unions c) = None).
      { intros v I. specialize (F v I). unfold defined, find_union in F.
        destruct (oget scmp v (c_unions c)); auto. exfalso. apply F. right. right. congruence. }
      split; cbn; auto.
      * rewrite T1, T4. apply (definitions_ok _ names _ (rename_gtype names)); auto.
        apply rename_gtype_ok.
      * rewrite T3, T4. apply (definitions_ok _ names _ (rename_gunion names)); auto.
        intros u. apply rename_gunion_ok. auto.
      * rewrite T2. pose proof (definitions_ok _ names eq (fun x => x) (c_enums c) N1 N2 F2 A
          (fun x => eq_refl)) as D.
        unfold renamed_definitions, find_enum in *. cbn.
        replace (map_values (fun x : genum => x) (moves names (c_enums c))) with (moves names (c_enums c)) in D; auto.
        unfold map_values. rewrite <- (map_id (moves names (c_enums c))) at 1.
        apply map_ext. intros [a b]. reflexivity.
Qed.
