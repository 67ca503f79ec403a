From Coq Require Import String Bool List.
From Verif Require Import Base BaseFacts JsonModel JsonProofs DiscModel DiscSpec.
Import ListNotations.
Open Scope string_scope.
Open Scope list_scope.

Lemma map_fst_akeys : forall {A} (m : list (string * A)), map fst m = akeys m.
Proof. reflexivity. Qed.

Lemma aset_updated : forall k x m, updated k x m (aset k x m).
Proof.
  intros k x m. split; [apply aget_aset_same|]. split; [intros; apply aget_aset_other; auto|].
  split; rewrite !map_fst_akeys; intros.
  - apply akeys_aset_in. auto.
  - apply akeys_aset_notin. auto.
Qed.

Lemma keys_get_eq : forall (m m' : list (string * value)),
  NoDup (map fst m) -> map fst m' = map fst m -> (forall k, In k (map fst m) -> aget k m' = aget k m) -> m' = m.
Proof.
  induction m as [|[k v] m IH]; intros [|[k' v'] m'] N E G; cbn in *; try discriminate; auto.
  inv E. inv N. pose proof (G k (or_introl eq_refl)) as Gk. rewrite String.eqb_refl in Gk. inv Gk.
  f_equal. apply IH; auto. intros j I. specialize (G j (or_intror I)).
  destruct (String.eqb_spec j k); auto. subst. contradiction.
Qed.

Lemma self_typed_spec : forall m, self_typed m <-> get_type_name (VObj m) <> None.
Proof.
  unfold self_typed, get_type_name. cbn [get_key]. intros m.
  change TYPENAME_FIELD with "__typename".
  destruct (aget "__typename" m) as [[]|]; cbn; split; intros H; try congruence;
    try (destruct H; discriminate); eauto.
Qed.

Definition go_resolve (d : discriminator) :=
  fix go (l : list value) (acc : list value) : result value string :=
     match l with
     | [] => Ok (VList (rev acc))
     | x :: t =>
         match resolve_type d x with
         | Ok y => go t (y :: acc)
         | Err e => Err e
         end
     end.

Lemma go_resolve_spec : forall d l acc,
  go_resolve d l acc = rmap (fun ys => VList (rev acc ++ ys)) (mapM (resolve_type d) l).
Proof.
  induction l as [|x l IH]; intros acc; cbn.
  - rewrite app_nil_r. auto.
  - destruct (resolve_type d x); cbn; auto. rewrite IH.
    destruct (mapM (resolve_type d) l); cbn; auto. rewrite <- app_assoc. auto.
Qed.

Lemma resolve_list : forall d l, resolve_type d (VList l) = rmap VList (mapM (resolve_type d) l).
Proof. intros. change (resolve_type d (VList l)) with (go_resolve d l []). rewrite go_resolve_spec. auto. Qed.

Lemma resolve_obj : forall d m, ~ self_typed m ->
  resolve_type d (VObj m) = match d with
          | Keyed types => keyed_resolve_and_set types (VObj m)
          | TypeField field types => field_resolve_and_set field types (VObj m)
          end.
Proof.
  intros d m H. cbn [resolve_type].
  destruct (get_type_name (VObj m)) eqn:E; auto.
  exfalso. apply H. apply self_typed_spec. congruence.
Qed.

Lemma self_typed_dec : forall m, self_typed m \/ ~ self_typed m.
Proof.
  intros m. destruct (get_type_name (VObj m)) eqn:E.
  - left. apply self_typed_spec. congruence.
  - right. rewrite self_typed_spec. congruence.
Qed.

Lemma resolve_sound : forall d v w, resolve_type d v = Ok w -> discriminated d v w.
Proof.
  intros d v. induction v using value_ind'; intros w R; try discriminate.
  - cbn in R. inv R. constructor.
  - rewrite resolve_list in R. destruct (mapM (resolve_type d) l) as [ys|] eqn:M; inv R.
    constructor. apply mapM_Ok in M. revert ys M. induction H; intros ys M; inv M; constructor; auto.
  - destruct (self_typed_dec m) as [S|S].
    + apply self_typed_spec in S as S'. cbn [resolve_type] in R.
      destruct (get_type_name (VObj m)); [|congruence]. inv R. constructor; auto.
    + rewrite resolve_obj in R; auto. apply D_obj; auto. destruct d.
      * unfold keyed_resolve_and_set in R. destruct m as [|[t x] [|? ?]]; try discriminate.
        cbn [keyed_resolve] in R. destruct (smem t types) eqn:I; [|discriminate].
        apply smem_In in I. cbn [rbind] in R. destruct x; inv R; constructor; auto.
        apply aset_updated.
      * unfold field_resolve_and_set in R. cbn [field_resolve] in R.
        destruct (aget typename_field m) as [[]|] eqn:G; try discriminate.
        destruct (smem s types) eqn:I; [|discriminate]. apply smem_In in I. cbn in R. inv R.
        econstructor; eauto. apply aset_updated.
Qed.

Lemma updated_fun : forall k x m m1 m2, NoDup (map fst m) ->
  updated k x m m1 -> updated k x m m2 -> m1 = m2.
Proof.
  intros k x m m1 m2 N (A1 & B1 & C1 & D1) (A2 & B2 & C2 & D2).
  assert (K : map fst m1 = map fst m2 /\ NoDup (map fst m2)).
  { destruct (in_dec string_dec k (map fst m)).
    - rewrite C1, C2; auto.
    - rewrite D1, D2; auto. split; auto.
      clear - N n. induction (map fst m); cbn; [repeat constructor; auto|]. inv N.
      constructor; [|apply IHl; auto; intros I; apply n; cbn; auto].
      rewrite in_app_iff. intros [I|[I|[]]]; auto. subst. apply n. cbn. auto. }
  destruct K as [K1 K2]. apply keys_get_eq; auto.
  intros j _. destruct (string_dec j k); [subst; congruence|]. rewrite B1, B2; auto.
Qed.

Lemma discriminated_fun : forall d v w1 w2, wf_obj v ->
  discriminated d v w1 -> discriminated d v w2 -> w1 = w2.
Proof.
  intros d v. induction v using value_ind'; intros w1 w2 WF D1 D2; inv D1; inv D2; auto.
  - f_equal. inv WF; [|discriminate].
    revert l' l'0 H1 H2 H3. induction H; intros l1 l2 F1 F2 W; inv F1; inv F2; auto.
    inv W. f_equal; eauto.
  - contradiction.
  - contradiction.
  - inv WF; [|discriminate].
    match goal with A : object_typed _ _ w1, B : object_typed _ _ w2,
                    N : NoDup (map fst m), I : forall _ _, In _ _ -> NoDup _ |- _ =>
      destruct A as [f ts m0 t m1 G I1 U1 | ts t m0 m1 I1 U1 | ts t I1]; inv B; auto
    end.
    + assert (t0 = t) by congruence. subst. f_equal. eapply updated_fun; eauto.
    + f_equal. eapply (updated_fun _ _ m0); eauto.
      match goal with I : forall _ _, In _ _ -> NoDup _ |- _ => eapply I; cbn; eauto end.
Qed.

Lemma resolve_complete : forall d v w, wf_obj v -> discriminated d v w -> resolve_type d v = Ok w.
Proof.
  intros d v. induction v using value_ind'; intros w WF D; inv D; auto.
  - rewrite resolve_list. inv WF; [|discriminate].
    assert (M : mapM (resolve_type d) l = Ok l').
    { revert l' H1 H2. induction H; intros l' F W; inv F; cbn; auto. inv W.
      rewrite (H y); auto. rewrite (IHForall l'0); auto. }
    rewrite M. auto.
  - cbn [resolve_type]. apply self_typed_spec in H1. destruct (get_type_name (VObj m)); congruence.
  - rewrite resolve_obj; auto. inv WF; [|discriminate].
    match goal with A : object_typed _ _ w, N : NoDup (map fst m), J : forall _ _, In _ _ -> NoDup _ |- _ =>
      rename N into ND; rename J into NI;
      destruct A as [f ts m t m' G I U | ts t m m' I U | ts t I] end.
    + unfold field_resolve_and_set. cbn [field_resolve]. rewrite G.
      rewrite (proj2 (smem_In _ _) I). cbn. f_equal. f_equal.
      apply updated_fun with (k := "__typename") (x := VStr t) (m := m); auto. apply aset_updated.
    + unfold keyed_resolve_and_set. cbn [keyed_resolve]. rewrite (proj2 (smem_In _ _) I). cbn. f_equal. f_equal.
      apply updated_fun with (k := "__typename") (x := VStr t) (m := m); auto.
      * eapply NI. cbn. eauto.
      * apply aset_updated.
    + unfold keyed_resolve_and_set. cbn [keyed_resolve]. rewrite (proj2 (smem_In _ _) I). auto.
Qed.

Lemma resolve_spec : forall d v w, wf_obj v -> (resolve_type d v = Ok w <-> discriminated d v w).
Proof. intros. split; auto using resolve_sound, resolve_complete. Qed.

Lemma resolve_declared : forall d v w,
  untyped v -> resolve_type d v = Ok w -> typed_in (declared d) w.
Proof.
  intros d v w U R. apply resolve_sound in R. revert w R U.
  induction v using value_ind'; intros w D U; inv D.
  - constructor.
  - constructor. inv U. revert l' H1 H2. induction H; intros l' F W; inv F; constructor; inv W; eauto.
  - inv U. contradiction.
  - match goal with A : object_typed _ _ w |- _ => destruct A as [f ts m t m' G I (A & _) | ts t m m' I (A & _) | ts t I] end;
      cbn; try constructor; econstructor; eauto.
Qed.

Lemma resolve_undeclared : exists d v w,
  resolve_type d v = Ok w /\ ~ typed_in (declared d) w.
Proof.
  exists (TypeField "kind" ["Cat"; "Dog"]),
    (VObj [("__typename", VStr "Admin"); ("kind", VStr "Cat")]),
    (VObj [("__typename", VStr "Admin"); ("kind", VStr "Cat")]).
  split; [reflexivity|]. intros T. inv T. cbn in H0. inv H0. cbn in H1.
  destruct H1 as [H1|[H1|[]]]; discriminate.
Qed.

Lemma resolve_idem : forall d v w, wf_obj v -> resolve_type d v = Ok w -> resolve_type d w = Ok w.
Proof.
  intros d v w WF R. apply resolve_sound in R. clear WF. revert w R.
  assert (K : forall m t, aget "__typename" m = Some (VStr t) -> resolve_type d (VObj m) = Ok (VObj m)).
  { intros m t A. cbn [resolve_type].
    assert (S : self_typed m) by (exists t; auto).
    apply self_typed_spec in S. destruct (get_type_name (VObj m)); congruence. }
  induction v using value_ind'; intros w D; inv D; auto.
  - rewrite resolve_list. replace (mapM (resolve_type d) l') with (Ok l' : result _ string); auto.
    revert l' H1. induction H; intros l' F; inv F; cbn; auto. rewrite (H y); auto.
    rewrite <- IHForall; auto.
  - match goal with A : self_typed _ |- _ => destruct A as [t A] end. eauto.
  - match goal with A : object_typed _ _ w |- _ => destruct A as [f ts m t m' G I (A & _) | ts t m m' I (A & _) | ts t I] end;
      eauto.
Qed.

Lemma new_discriminator_spec : forall ts f,
  match f with
  | Some "" => exists e, new_discriminator ts f = Err e
  | Some n => new_discriminator ts f = Ok (TypeField n ts)
  | None => new_discriminator ts f = Ok (Keyed ts)
  end.
Proof. intros ts [[|c s]|]; cbn; eauto. Qed.
