(** Proofs about the resolver cache (C34). *)
From Coq Require Import ZArith NArith Bool Arith Lia List.
From Verif Require Import BaseFacts TtlModel TtlSpec.
Import ListNotations.
Open Scope Z_scope.

Lemma NoDup_app_one {A} (l : list A) x : NoDup l -> ~ In x l -> NoDup (l ++ [x]).
Proof.
  intros H N. induction H as [|y l Hy _ IH]; cbn; [repeat constructor; auto|].
  constructor.
  - rewrite in_app_iff. intros [I|[->|[]]]; auto. apply N. now left.
  - apply IH. intros I. apply N. now right.
Qed.

Section Facts.
  Context {V : Type}.
  Implicit Types (m : ttl_map V) (c : mem_cache V) (l past rest : list (use V)) (v : V).

  Lemma find_app k m m' :
    t_find k (m ++ m') = match t_find k m with Some e => Some e | None => t_find k m' end.
  Proof. induction m as [|[k' e] m IH]; cbn; auto. destruct (k =? k'); auto. Qed.

  Lemma find_remove_same k m : t_find k (t_remove k m) = None.
  Proof.
    unfold t_remove. induction m as [|[k' e] m IH]; cbn; auto.
    destruct (k =? k') eqn:E; cbn; auto. now rewrite E.
  Qed.

  Lemma find_remove_other k k' m : k <> k' -> t_find k (t_remove k' m) = t_find k m.
  Proof.
    intros N. unfold t_remove. induction m as [|[j e] m IH]; cbn; auto.
    destruct (Z.eqb_spec k' j) as [->|]; cbn.
    - destruct (Z.eqb_spec k j); [congruence|auto].
    - destruct (k =? j); auto.
  Qed.

  Lemma find_In k m e : t_find k m = Some e -> In k (map fst m).
  Proof.
    induction m as [|[k' e'] m IH]; cbn; [discriminate|].
    destruct (Z.eqb_spec k k') as [->|]; auto.
  Qed.

  Lemma find_None k m : ~ In k (map fst m) -> t_find k m = None.
  Proof. intros H. destruct (t_find k m) eqn:E; auto. apply find_In in E. contradiction. Qed.

  Lemma remove_keys k m : ~ In k (map fst (t_remove k m)) /\
    (forall j, In j (map fst (t_remove k m)) -> In j (map fst m)) /\
    (NoDup (map fst m) -> NoDup (map fst (t_remove k m))).
  Proof.
    unfold t_remove. induction m as [|[j e] m (A & B & C)]; cbn.
    - repeat split; auto.
    - destruct (Z.eqb_spec k j) as [->|N]; cbn.
      + repeat split; auto. intros D. inversion D; auto.
      + repeat split; auto.
        * intros [->|H]; auto.
        * intros i [<-|H]; auto.
        * intros D. inversion D; subst. constructor; auto.
  Qed.

  Lemma insert_nodup cap now k v ttl m : NoDup (map fst m) -> NoDup (map fst (t_insert cap now k v ttl m)).
  Proof.
    intros D. destruct (remove_keys k m) as (A & B & C). unfold t_insert.
    assert (G : NoDup (map fst (t_remove k m ++ [(k, (v, now + ttl))]))).
    { rewrite map_app. cbn. apply NoDup_app_one; auto. }
    destruct (_ <? _)%nat; auto. destruct (t_remove k m ++ _) as [|x t]; cbn in *; auto. now inversion G.
  Qed.

  Lemma tl_find k m e : NoDup (map fst m) -> t_find k (tl m) = Some e -> t_find k m = Some e.
  Proof.
    destruct m as [|[j x] m]; cbn; auto. intros D H. inversion D; subst.
    destruct (Z.eqb_spec k j) as [->|]; auto. apply find_In in H. contradiction.
  Qed.

  Lemma insert_find cap now k v ttl m j e :
    NoDup (map fst m) ->
    t_find j (t_insert cap now k v ttl m) = Some e ->
    (j = k /\ e = (v, now + ttl)) \/ (j <> k /\ t_find j m = Some e).
  Proof.
    intros D H. destruct (remove_keys k m) as (A & B & C).
    assert (H' : t_find j (t_remove k m ++ [(k, (v, now + ttl))]) = Some e).
    { unfold t_insert in H. destruct (_ <? _)%nat; auto. apply tl_find; auto.
      rewrite map_app. cbn. apply NoDup_app_one; auto. }
    rewrite find_app in H'. destruct (Z.eq_dec j k) as [->|N].
    - left. split; auto. rewrite find_remove_same in H'. cbn in H'. rewrite Z.eqb_refl in H'. congruence.
    - right. split; auto. rewrite find_remove_other in H' by auto. cbn in H'.
      destruct (Z.eqb_spec j k); [congruence|]. destruct (t_find j m); congruence.
  Qed.

  Lemma insert_room cap now k v ttl m ks :
    NoDup (map fst m) -> (forall j, In j (map fst m) -> In j ks) -> In k ks -> (length ks <= cap)%nat ->
    t_insert cap now k v ttl m = t_remove k m ++ [(k, (v, now + ttl))].
  Proof.
    intros D I K L. destruct (remove_keys k m) as (A & B & C). unfold t_insert.
    destruct (Nat.ltb_spec cap (length (t_remove k m ++ [(k, (v, now + ttl))]))) as [H|]; auto.
    exfalso. assert (G : (length (map fst (t_remove k m ++ [(k, (v, (now + ttl)%Z))])) <= length ks)%nat).
    { apply NoDup_incl_length.
      - rewrite map_app. cbn. apply NoDup_app_one; auto.
      - intros j. rewrite map_app. intros [J|[<-|[]]]%in_app_or; auto. }
    rewrite map_length in G. lia.
  Qed.

  Lemma uses_app cap l1 l2 : forall c,
    uses cap (l1 ++ l2) c =
    let '(r1, c1) := uses cap l1 c in let '(r2, c2) := uses cap l2 c1 in (r1 ++ r2, c2).
  Proof.
    induction l1 as [|[now k v ttl|now k] l1 IH]; intros c; cbn.
    - destruct (uses cap l2 c). reflexivity.
    - apply IH.
    - destruct (mc_get now k c) as [r c1]. rewrite IH. destruct (uses cap l1 c1) as [r1 c2].
      destruct (uses cap l2 c2). reflexivity.
  Qed.

  Definition after cap l : ttl_map V := mc_data (snd (uses cap l mc_new)).

  Lemma after_nil cap : after cap [] = [].
  Proof. reflexivity. Qed.

  Lemma after_set cap l now k v ttl : after cap (l ++ [USet now k v ttl]) = t_insert cap now k v ttl (after cap l).
  Proof. unfold after. rewrite uses_app. destruct (uses cap l mc_new) as [r c]. reflexivity. Qed.

  Lemma after_get cap l now k : after cap (l ++ [UGet now k]) = after cap l.
  Proof.
    unfold after. rewrite uses_app. destruct (uses cap l mc_new) as [r c]. cbn. unfold mc_get.
    destruct (t_get now k (mc_data c)); reflexivity.
  Qed.

  Lemma after_nodup cap l : NoDup (map fst (after cap l)).
  Proof.
    induction l as [|[now k v ttl|now k] l IH] using rev_ind.
    - constructor.
    - rewrite after_set. now apply insert_nodup.
    - now rewrite after_get.
  Qed.

  Lemma after_stored cap l k v t : t_find k (after cap l) = Some (v, t) -> Stored k l v t.
  Proof.
    revert v t. induction l as [|[now j w ttl|now j] l IH] using rev_ind; intros v t H.
    - discriminate.
    - rewrite after_set in H. apply insert_find in H as [[-> E]|[N H]]; [| |apply after_nodup].
      + inv E. constructor.
      + constructor 2; auto. intros n x y [=]. congruence.
    - rewrite after_get in H. constructor 2; auto. discriminate.
  Qed.

  Lemma written_app l u : written (l ++ [u]) = written l ++ written [u].
  Proof. unfold written. now rewrite flat_map_app. Qed.

  Lemma after_keys cap l k : In k (map fst (after cap l)) -> In k (written l).
  Proof.
    induction l as [|[now j w ttl|now j] l IH] using rev_ind; intros H.
    - destruct H.
    - rewrite written_app, in_app_iff. rewrite after_set in H.
      destruct (t_find k (t_insert cap now j w ttl (after cap l))) as [e|] eqn:E.
      + apply insert_find in E as [[-> _]|[_ E]]; [right; cbn; auto| |apply after_nodup].
        left. apply IH. eapply find_In; eauto.
      + exfalso. clear IH. revert H E. generalize (t_insert cap now j w ttl (after cap l)).
        intros m. induction m as [|[i x] m IH]; cbn; auto. intros [->|H]; [now rewrite Z.eqb_refl|].
        destruct (k =? i); [discriminate|]. auto.
    - rewrite after_get in H. rewrite written_app, in_app_iff. auto.
  Qed.

  Lemma stored_after cap ks l k v t :
    (forall j, In j (written l) -> In j ks) -> (length ks <= cap)%nat ->
    Stored k l v t -> t_find k (after cap l) = Some (v, t).
  Proof.
    intros I L H. induction H as [past now v ttl|past u v t N H IH].
    - rewrite after_set.
      rewrite (insert_room cap now k v ttl _ ks); auto using after_nodup.
      + rewrite find_app, find_remove_same. cbn. now rewrite Z.eqb_refl.
      + intros j J. apply I. rewrite written_app, in_app_iff. left. eapply after_keys; eauto.
      + apply I. rewrite written_app, in_app_iff. right. now left.
    - assert (I' : forall j, In j (written past) -> In j ks).
      { intros j J. apply I. rewrite written_app, in_app_iff. auto. }
      destruct u as [now j w ttl|now j].
      + rewrite after_set. rewrite (insert_room cap now j w ttl _ ks); auto using after_nodup.
        * assert (k <> j) by (intros ->; now apply (N now w ttl)).
          rewrite find_app, find_remove_other by auto. now rewrite IH.
        * intros i J. apply I'. eapply after_keys; eauto.
        * apply I. rewrite written_app, in_app_iff. right. now left.
      + rewrite after_get. auto.
  Qed.

  Lemma uses_position cap past now k rest :
    exists r1 r2, fst (uses cap (past ++ UGet now k :: rest) mc_new) = r1 ++ t_get now k (after cap past) :: r2 /\
      length r1 = length (filter is_get past).
  Proof.
    rewrite uses_app. unfold after.
    assert (Len : forall l c, length (fst (uses cap l c)) = length (filter is_get l)).
    { induction l as [|[n j v ttl|n j] l IH]; intros c; cbn; auto.
      destruct (mc_get n j c) as [r c1]. specialize (IH c1). destruct (uses cap l c1). cbn in *. auto. }
    specialize (Len past mc_new). destruct (uses cap past mc_new) as [r1 c1]. cbn in *.
    exists r1. destruct (mc_get now k c1) as [r c2] eqn:G. destruct (uses cap rest c2) as [r2 c3].
    exists r2. split; auto. f_equal. f_equal. unfold mc_get in G.
    destruct (t_get now k (mc_data c1)); now inv G.
  Qed.

  Lemma lookup_sound cap past now k v rest :
    exists r1 a r2, fst (uses cap (past ++ UGet now k :: rest) mc_new) = r1 ++ a :: r2 /\
      length r1 = length (filter is_get past) /\
      (a = Some v -> exists t, Stored k past v t /\ now <= t).
  Proof.
    destruct (uses_position cap past now k rest) as (r1 & r2 & A & B).
    exists r1, (t_get now k (after cap past)), r2. repeat split; auto.
    unfold t_get. destruct (t_find k (after cap past)) as [[w t]|] eqn:E; [|discriminate].
    destruct (Z.ltb_spec t now); [discriminate|]. intros [= ->]. exists t. split; auto.
    eapply after_stored; eauto.
  Qed.

  Lemma lookup_exact cap ks past now k v rest :
    (forall j, In j (written past) -> In j ks) -> (length ks <= cap)%nat ->
    exists r1 a r2, fst (uses cap (past ++ UGet now k :: rest) mc_new) = r1 ++ a :: r2 /\
      length r1 = length (filter is_get past) /\
      (a = Some v <-> exists t, Stored k past v t /\ now <= t).
  Proof.
    intros I L. destruct (uses_position cap past now k rest) as (r1 & r2 & A & B).
    exists r1, (t_get now k (after cap past)), r2. split; [auto|]. split; [auto|]. unfold t_get. split.
    - destruct (t_find k (after cap past)) as [[w t]|] eqn:E; [|discriminate].
      destruct (Z.ltb_spec t now); [discriminate|]. intros [= ->]. exists t. split; auto.
      eapply after_stored; eauto.
    - intros (t & S0 & T). rewrite (stored_after cap ks past k v t I L S0).
      destruct (Z.ltb_spec t now); [lia|auto].
  Qed.

  (** The counters behind the hit rate. *)
  Lemma counters cap l : forall c,
    let '(rs, c') := uses cap l c in
    mc_hits c' = (mc_hits c + N.of_nat (length (filter (fun r => match r with Some _ => true | None => false end) rs)))%N /\
    mc_miss c' = (mc_miss c + N.of_nat (length (filter (fun r => match r with Some _ => false | None => true end) rs)))%N.
  Proof.
    induction l as [|[now k v ttl|now k] l IH]; intros c; cbn.
    - split; lia.
    - exact (IH (mc_set cap now k v ttl c)).
    - unfold mc_get. destruct (t_get now k (mc_data c)) as [v|];
        match goal with |- context [uses cap l ?c1] => specialize (IH c1); destruct (uses cap l c1) as [rs c'] end;
        cbn in *; lia.
  Qed.
End Facts.
