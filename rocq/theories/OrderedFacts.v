(** Facts about the ordered containers. *)
From Coq Require Import String Ascii ZArith NArith Arith Bool Lia List.
From Verif Require Import Base BaseFacts Ordered.
Import ListNotations.
Open Scope list_scope.

(** A comparison function that is a strict total order. *)
Record total_order {A} (c : A -> A -> comparison) : Prop := {
  to_eq : forall x y, c x y = Eq <-> x = y;
  to_anti : forall x y, c y x = CompOpp (c x y);
  to_trans : forall x y z, c x y = Lt -> c y z = Lt -> c x z = Lt
}.

Lemma to_refl : forall {A} (c : A -> A -> comparison) x, total_order c -> c x x = Eq.
Proof. intros A c x H. apply (to_eq _ H). reflexivity. Qed.

Lemma to_gt : forall {A} (c : A -> A -> comparison) x y,
  total_order c -> c x y = Gt -> c y x = Lt.
Proof. intros A c x y H E. rewrite (to_anti _ H x y), E. reflexivity. Qed.

Lemma ascii_compare_order : total_order Ascii.compare.
Proof.
  unfold Ascii.compare. split.
  - intros x y. rewrite N.compare_eq_iff. split; [|intros; subst; reflexivity].
    intros E. rewrite <- (ascii_N_embedding x), <- (ascii_N_embedding y), E. reflexivity.
  - intros x y. apply N.compare_antisym.
  - intros x y z A B. rewrite N.compare_lt_iff in *. lia.
Qed.

Lemma scmp_order : total_order scmp.
Proof.
  split.
  - intros x y. split.
    + revert y; induction x as [|a x IH]; intros [|b y]; cbn; try discriminate; auto.
      destruct (Ascii.compare a b) eqn:E; try discriminate.
      apply (to_eq _ ascii_compare_order) in E. subst. intros H. f_equal. auto.
    + intros ->. induction y as [|b y IH]; cbn; auto.
      rewrite (to_refl _ b ascii_compare_order). exact IH.
  - induction x as [|a x IH]; intros [|b y]; cbn; auto.
    rewrite (to_anti _ ascii_compare_order a b).
    destruct (Ascii.compare a b); cbn; auto.
  - induction x as [|a x IH]; intros [|b y] [|c z]; cbn; try discriminate; auto.
    destruct (Ascii.compare a b) eqn:E1; try discriminate;
    destruct (Ascii.compare b c) eqn:E2; try discriminate; intros A B.
    + apply (to_eq _ ascii_compare_order) in E1. subst. rewrite E2. eauto.
    + apply (to_eq _ ascii_compare_order) in E1. subst. rewrite E2. auto.
    + apply (to_eq _ ascii_compare_order) in E2. subst. rewrite E1. auto.
    + rewrite (to_trans _ ascii_compare_order _ _ _ E1 E2). auto.
Qed.

Lemma cmp_opt_order : forall {A} (c : A -> A -> comparison), total_order c -> total_order (cmp_opt c).
Proof.
  intros A c H. split.
  - intros [x|] [y|]; cbn; split; intros E; try discriminate; auto.
    + f_equal. apply (to_eq _ H). exact E.
    + inv E. apply (to_refl _ _ H).
  - intros [x|] [y|]; cbn; auto. apply (to_anti _ H).
  - intros [x|] [y|] [z|]; cbn; try discriminate; auto. apply (to_trans _ H).
Qed.

Lemma cmp_pair_order : forall {A B} (c : A -> A -> comparison) (d : B -> B -> comparison),
  total_order c -> total_order d -> total_order (cmp_pair c d).
Proof.
  intros A B c d H G. unfold cmp_pair. split.
  - intros [x1 x2] [y1 y2]; cbn. split.
    + destruct (c x1 y1) eqn:E; try discriminate. intros F.
      apply (to_eq _ H) in E. apply (to_eq _ G) in F. congruence.
    + intros E. inv E. rewrite (to_refl _ y1 H). apply (to_refl _ _ G).
  - intros [x1 x2] [y1 y2]; cbn. rewrite (to_anti _ H x1 y1).
    destruct (c x1 y1); cbn; auto. apply (to_anti _ G).
  - intros [x1 x2] [y1 y2] [z1 z2]; cbn.
    destruct (c x1 y1) eqn:E1; try discriminate;
    destruct (c y1 z1) eqn:E2; try discriminate; intros P Q.
    + apply (to_eq _ H) in E1. subst. rewrite E2. eapply (to_trans _ G); eauto.
    + apply (to_eq _ H) in E1. subst. rewrite E2. auto.
    + apply (to_eq _ H) in E2. subst. rewrite E1. auto.
    + rewrite (to_trans _ H _ _ _ E1 E2). auto.
Qed.

Lemma cmp_list_order : forall {A} (c : A -> A -> comparison), total_order c -> total_order (cmp_list c).
Proof.
  intros A c H. split.
  - intros x y. split.
    + revert y; induction x as [|a x IH]; intros [|b y]; cbn; try discriminate; auto.
      destruct (c a b) eqn:E; try discriminate.
      apply (to_eq _ H) in E. subst. intros G. f_equal. auto.
    + intros ->. induction y as [|b y IH]; cbn; auto.
      rewrite (to_refl _ b H). exact IH.
  - induction x as [|a x IH]; intros [|b y]; cbn; auto.
    rewrite (to_anti _ H a b). destruct (c a b); cbn; auto.
  - induction x as [|a x IH]; intros [|b y] [|d z]; cbn; try discriminate; auto.
    destruct (c a b) eqn:E1; try discriminate;
    destruct (c b d) eqn:E2; try discriminate; intros P Q.
    + apply (to_eq _ H) in E1. subst. rewrite E2. eauto.
    + apply (to_eq _ H) in E1. subst. rewrite E2. auto.
    + apply (to_eq _ H) in E2. subst. rewrite E1. auto.
    + rewrite (to_trans _ H _ _ _ E1 E2). auto.
Qed.

Section MapFacts.
  Context {K V : Type}.
  Variable cmp : K -> K -> comparison.
  Variable H : total_order cmp.

  Lemma oget_oins_same : forall k v (m : list (K * V)), oget cmp k (oins cmp k v m) = Some v.
  Proof.
    induction m as [|[k' v'] t IH]; cbn.
    - rewrite (to_refl _ k H). reflexivity.
    - destruct (cmp k k') eqn:E; cbn.
      + rewrite E. reflexivity.
      + rewrite (to_refl _ k H). reflexivity.
      + rewrite E. exact IH.
  Qed.

  Lemma oget_oins_other : forall k k' v (m : list (K * V)),
    k <> k' -> oget cmp k (oins cmp k' v m) = oget cmp k m.
  Proof.
    intros k k' v m N. induction m as [|[k2 v2] t IH]; cbn.
    - destruct (cmp k k') eqn:E; auto. apply (to_eq _ H) in E. contradiction.
    - destruct (cmp k' k2) eqn:E; cbn.
      + apply (to_eq _ H) in E. subst.
        destruct (cmp k k2) eqn:E2; auto. apply (to_eq _ H) in E2. contradiction.
      + destruct (cmp k k') eqn:E2; auto. apply (to_eq _ H) in E2. contradiction.
      + destruct (cmp k k2) eqn:E2; auto.
  Qed.

  Lemma oget_odel_same : forall k (m : list (K * V)), oget cmp k (odel cmp k m) = None.
  Proof.
    induction m as [|[k' v'] t IH]; cbn; auto.
    destruct (cmp k k') eqn:E; cbn; auto; rewrite E; auto.
  Qed.

  Lemma oget_odel_other : forall k k' (m : list (K * V)),
    k <> k' -> oget cmp k (odel cmp k' m) = oget cmp k m.
  Proof.
    intros k k' m N. induction m as [|[k2 v2] t IH]; cbn; auto.
    destruct (cmp k' k2) eqn:E; cbn; destruct (cmp k k2) eqn:E2; auto.
    apply (to_eq _ H) in E. apply (to_eq _ H) in E2. congruence.
  Qed.

  Lemma oget_in : forall k v (m : list (K * V)), oget cmp k m = Some v -> In (k, v) m.
  Proof.
    induction m as [|[k' v'] t IH]; cbn; try discriminate.
    destruct (cmp k k') eqn:E; auto.
    intros A. inv A. apply (to_eq _ H) in E. subst. auto.
  Qed.

  Lemma oget_none : forall k (m : list (K * V)),
    oget cmp k m = None <-> ~ In k (map fst m).
  Proof.
    induction m as [|[k' v'] t IH]; cbn; [tauto|].
    destruct (cmp k k') eqn:E.
    - apply (to_eq _ H) in E. subst. split; [discriminate|]. intros N. exfalso; auto.
    - rewrite IH. split; [|tauto]. intros N [A|A]; auto. subst.
      rewrite (to_refl _ k H) in E. discriminate.
    - rewrite IH. split; [|tauto]. intros N [A|A]; auto. subst.
      rewrite (to_refl _ k H) in E. discriminate.
  Qed.

  Lemma in_oget : forall k v (m : list (K * V)),
    osorted cmp m -> In (k, v) m -> oget cmp k m = Some v.
  Proof.
    intros k v m S. induction S as [|k' v' t L S IH]; cbn; [tauto|].
    intros [A|A].
    - inv A. rewrite (to_refl _ k H). reflexivity.
    - rewrite (to_anti _ H k' k), (L _ _ A). cbn. auto.
  Qed.

  Lemma oins_in : forall k v k' v' (m : list (K * V)),
    In (k', v') (oins cmp k v m) -> (k' = k /\ v' = v) \/ In (k', v') m.
  Proof.
    induction m as [|[k2 v2] t IH]; cbn.
    - intros [A|[]]. inv A. auto.
    - destruct (cmp k k2) eqn:E; cbn; intros [A|A]; try (inv A); auto.
      + apply (to_eq _ H) in E. subst. auto.
      + apply IH in A. tauto.
  Qed.

  Lemma osorted_oins : forall k v (m : list (K * V)),
    osorted cmp m -> osorted cmp (oins cmp k v m).
  Proof.
    intros k v m S. induction S as [|k' v' t L S IH]; cbn.
    - constructor; [intros ? ? []|constructor].
    - destruct (cmp k k') eqn:E.
      + constructor; auto.
      + constructor; [|constructor; auto].
        intros k2 v2 [A|A]; [inv A; auto|]. eapply (to_trans _ H); eauto.
      + constructor; auto. intros k2 v2 A. apply oins_in in A.
        destruct A as [[-> ->]|A]; [apply (to_gt _ _ _ H E)|eauto].
  Qed.

  Lemma odel_in : forall k k' v' (m : list (K * V)), In (k', v') (odel cmp k m) -> In (k', v') m.
  Proof.
    induction m as [|[k2 v2] t IH]; cbn; auto.
    destruct (cmp k k2); cbn; intuition.
  Qed.

  Lemma osorted_odel : forall k (m : list (K * V)), osorted cmp m -> osorted cmp (odel cmp k m).
  Proof.
    intros k m S. induction S as [|k' v' t L S IH]; cbn; [constructor|].
    destruct (cmp k k'); auto; constructor; auto;
      intros k2 v2 A; apply odel_in in A; eauto.
  Qed.

  Lemma osorted_omap_of : forall (l : list (K * V)), osorted cmp (omap_of cmp l).
  Proof.
    intros l. unfold omap_of.
    assert (G : forall acc, osorted cmp acc ->
      osorted cmp (fold_left (fun acc kv => oins cmp (fst kv) (snd kv) acc) l acc)).
    { induction l as [|[k v] t IH]; cbn; auto. intros acc S. apply IH, osorted_oins, S. }
    apply G. constructor.
  Qed.

  Lemma osorted_nodup : forall (m : list (K * V)), osorted cmp m -> NoDup (map fst m).
  Proof.
    intros m S. induction S as [|k v t L S IH]; cbn; constructor; auto.
    intros A. apply in_map_iff in A. destruct A as [[k' v'] [E I]]. cbn in E. subst.
    specialize (L _ _ I). rewrite (to_refl _ k H) in L. discriminate.
  Qed.

  (** Two ordered maps with the same lookups are the same map. *)
  Lemma osorted_ext : forall (m m' : list (K * V)),
    osorted cmp m -> osorted cmp m' ->
    (forall k, oget cmp k m = oget cmp k m') -> m = m'.
  Proof.
    intros m m' S. revert m'.
    induction S as [|k v t L S IH]; intros m' S' E.
    - destruct m' as [|[k' v'] t']; auto.
      specialize (E k'). cbn in E. rewrite (to_refl _ k' H) in E. discriminate.
    - destruct S' as [|k' v' t' L' S'].
      + specialize (E k). cbn in E. rewrite (to_refl _ k H) in E. discriminate.
      + assert (C : cmp k k' = Eq).
        { destruct (cmp k k') eqn:C; auto.
          - exfalso. assert (X := E k). cbn in X. rewrite (to_refl _ k H), C in X.
            symmetry in X. apply oget_in in X. apply L' in X.
            rewrite (to_anti _ H k k'), C in X. discriminate.
          - exfalso. assert (X := E k'). cbn in X. rewrite (to_refl _ k' H) in X.
            rewrite (to_anti _ H k k'), C in X. cbn in X.
            apply oget_in in X. apply L in X. rewrite C in X. discriminate. }
        apply (to_eq _ H) in C. subst k'.
        assert (X := E k). cbn in X. rewrite (to_refl _ k H) in X. inv X.
        f_equal. apply IH; auto. intros k2.
        specialize (E k2). cbn in E. destruct (cmp k2 k) eqn:C; auto.
        apply (to_eq _ H) in C. subst.
        destruct (oget cmp k t) eqn:X1.
        { apply oget_in in X1. apply L in X1. rewrite (to_refl _ k H) in X1. discriminate. }
        destruct (oget cmp k t') eqn:X2; auto.
        apply oget_in in X2. apply L' in X2. rewrite (to_refl _ k H) in X2. discriminate.
  Qed.
End MapFacts.

Section SetFacts.
  Context {K : Type}.
  Variable cmp : K -> K -> comparison.
  Variable H : total_order cmp.

  Lemma sins_in : forall k x (m : list K), In x (sins cmp k m) <-> x = k \/ In x m.
  Proof.
    induction m as [|k2 t IH]; cbn.
    - intuition.
    - destruct (cmp k k2) eqn:E; cbn.
      + apply (to_eq _ H) in E. subst. intuition.
      + intuition.
      + rewrite IH. intuition.
  Qed.

  Lemma ssorted_sins : forall k (m : list K), ssorted cmp m -> ssorted cmp (sins cmp k m).
  Proof.
    intros k m S. induction S as [|k' t L S IH]; cbn.
    - constructor; [intros ? []|constructor].
    - destruct (cmp k k') eqn:E.
      + constructor; auto.
      + constructor; [|constructor; auto].
        intros k2 [A|A]; [subst; auto|]. eapply (to_trans _ H); eauto.
      + constructor; auto. intros k2 A. apply sins_in in A.
        destruct A as [->|A]; [apply (to_gt _ _ _ H E)|eauto].
  Qed.

  Lemma sextend_in : forall b (a : list K) x, In x (sextend cmp a b) <-> In x a \/ In x b.
  Proof.
    unfold sextend. induction b as [|k t IH]; intros a x; cbn; [tauto|].
    rewrite IH, sins_in. intuition.
  Qed.

  Lemma ssorted_sextend : forall b (a : list K), ssorted cmp a -> ssorted cmp (sextend cmp a b).
  Proof.
    unfold sextend. induction b as [|k t IH]; intros a S; cbn; auto.
    apply IH, ssorted_sins, S.
  Qed.

  Lemma ssorted_ext : forall (m m' : list K),
    ssorted cmp m -> ssorted cmp m' -> (forall k, In k m <-> In k m') -> m = m'.
  Proof.
    intros m m' S. revert m'.
    induction S as [|k t L S IH]; intros m' S' E.
    - destruct m' as [|k' t']; auto. destruct (proj2 (E k')). cbn; auto.
    - destruct S' as [|k' t' L' S'].
      + destruct (proj1 (E k)). cbn; auto.
      + assert (k = k').
        { destruct (proj1 (E k) (or_introl eq_refl)) as [A|A]; auto.
          destruct (proj2 (E k') (or_introl eq_refl)) as [B|B]; auto.
          apply L' in A. apply L in B. rewrite (to_anti _ H k k'), B in A. discriminate. }
        subst k'. f_equal. apply IH; auto. intros x. split; intros I.
        * destruct (proj1 (E x) (or_intror I)) as [A|A]; auto. subst.
          apply L in I. rewrite (to_refl _ x H) in I. discriminate.
        * destruct (proj2 (E x) (or_intror I)) as [A|A]; auto. subst.
          apply L' in I. rewrite (to_refl _ x H) in I. discriminate.
  Qed.
End SetFacts.

(* ---------- computing the invariants ---------- *)

Fixpoint osortedb {K V} (cmp : K -> K -> comparison) (m : list (K * V)) : bool :=
  match m with
  | [] => true
  | (k, _) :: t =>
      match t with
      | [] => true
      | (k', _) :: _ => match cmp k k' with Lt => osortedb cmp t | _ => false end
      end
  end.

Fixpoint ssortedb {K} (cmp : K -> K -> comparison) (m : list K) : bool :=
  match m with
  | [] => true
  | k :: t =>
      match t with
      | [] => true
      | k' :: _ => match cmp k k' with Lt => ssortedb cmp t | _ => false end
      end
  end.

Lemma osortedb_ok : forall {K V} (cmp : K -> K -> comparison), total_order cmp ->
  forall m : list (K * V), osortedb cmp m = true -> osorted cmp m.
Proof.
  intros K V cmp H. induction m as [|[k v] t IH]; intros E; [constructor|].
  cbn in E. destruct t as [|[k' v'] t']; [constructor; [intros ? ? []|constructor]|].
  destruct (cmp k k') eqn:C; try discriminate. specialize (IH E).
  constructor; auto. intros k2 v2 [A|A]; [inv A; auto|].
  inversion IH; subst. match goal with X : forall _ _, _ -> _ |- _ => apply X in A end.
  eapply (to_trans _ H); eauto.
Qed.

Lemma ssortedb_ok : forall {K} (cmp : K -> K -> comparison), total_order cmp ->
  forall m : list K, ssortedb cmp m = true -> ssorted cmp m.
Proof.
  intros K cmp H. induction m as [|k t IH]; intros E; [constructor|].
  cbn in E. destruct t as [|k' t']; [constructor; [intros ? []|constructor]|].
  destruct (cmp k k') eqn:C; try discriminate. specialize (IH E).
  constructor; auto. intros k2 [A|A]; [subst; auto|].
  inversion IH; subst. match goal with X : forall _, _ -> _ |- _ => apply X in A end.
  eapply (to_trans _ H); eauto.
Qed.
