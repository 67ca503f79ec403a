(** Lemmas about the vocabulary of [Base]. *)
From Coq Require Import String Ascii ZArith NArith Bool Lia List.
From Coq Require Import DecimalString DecimalZ DecimalPos.
From Verif Require Import Base.
Import ListNotations.
Open Scope list_scope.

Ltac inv H := inversion H; subst; clear H.

Lemma smem_In k l : smem k l = true <-> In k l.
Proof.
  induction l as [|h t IH]; simpl; [split; [discriminate|tauto]|].
  destruct (String.eqb_spec k h); subst.
  - split; auto.
  - rewrite IH. split; [auto|intros [H|H]; congruence].
Qed.

Lemma smem_false k l : smem k l = false <-> ~ In k l.
Proof. rewrite <- smem_In. destruct (smem k l); split; congruence. Qed.

Section AssocFacts.
  Context {A : Type}.
  Implicit Types (m : list (string * A)) (k : string) (v : A).

  Lemma aget_In k m v : aget k m = Some v -> In (k, v) m.
  Proof.
    induction m as [|[k' v'] t IH]; simpl; [discriminate|].
    destruct (String.eqb_spec k k'); subst; intros H; [injection H as ->; auto|auto].
  Qed.

  Lemma aget_None k m : aget k m = None <-> ~ In k (akeys m).
  Proof.
    induction m as [|[k' v'] t IH]; simpl; [tauto|].
    destruct (String.eqb_spec k k'); subst.
    - split; [discriminate|tauto].
    - rewrite IH. split; [intros H [E|E]; congruence|tauto].
  Qed.

  Lemma aget_Some_key k m v : aget k m = Some v -> In k (akeys m).
  Proof. intros H. apply aget_In in H. apply (in_map fst) in H. exact H. Qed.

  Lemma In_akeys_aget k m : In k (akeys m) -> exists v, aget k m = Some v.
  Proof.
    intros H. destruct (aget k m) eqn:E; [eauto|]. apply aget_None in E. tauto.
  Qed.

  Lemma NoDup_aget k m v : NoDup (akeys m) -> In (k, v) m -> aget k m = Some v.
  Proof.
    induction m as [|[k' v'] t IH]; simpl; [tauto|].
    intros HN HI. inversion HN; subst.
    destruct (String.eqb_spec k k'); subst.
    - destruct HI as [HI|HI]; [congruence|].
      apply (in_map fst) in HI. simpl in HI. contradiction.
    - destruct HI as [HI|HI]; [congruence|auto].
  Qed.

  Lemma aget_aset_same k v m : aget k (aset k v m) = Some v.
  Proof.
    induction m as [|[k' v'] t IH]; simpl.
    - now rewrite String.eqb_refl.
    - destruct (String.eqb_spec k k') as [E|E]; simpl.
      + subst. now rewrite String.eqb_refl.
      + destruct (String.eqb_spec k k'); [congruence|exact IH].
  Qed.

  Lemma aget_aset_other k k' v m : k' <> k -> aget k' (aset k v m) = aget k' m.
  Proof.
    intros HN. induction m as [|[j w] t IH]; simpl.
    - destruct (String.eqb_spec k' k); [congruence|reflexivity].
    - destruct (String.eqb_spec k j) as [E|E]; simpl.
      + subst. destruct (String.eqb_spec k' j); [congruence|reflexivity].
      + destruct (String.eqb_spec k' j); [reflexivity|exact IH].
  Qed.

  Lemma aget_aset k k' v m :
    aget k' (aset k v m) = if String.eqb k' k then Some v else aget k' m.
  Proof.
    destruct (String.eqb_spec k' k); subst; [apply aget_aset_same|now apply aget_aset_other].
  Qed.

  Lemma akeys_aset_in k v m : In k (akeys m) -> akeys (aset k v m) = akeys m.
  Proof.
    induction m as [|[k' v'] t IH]; simpl; [tauto|].
    intros H. destruct (String.eqb_spec k k'); simpl; [reflexivity|].
    f_equal. apply IH. destruct H; congruence.
  Qed.

  Lemma akeys_aset_notin k v m : ~ In k (akeys m) -> akeys (aset k v m) = akeys m ++ [k].
  Proof.
    induction m as [|[k' v'] t IH]; simpl; [reflexivity|].
    intros H. destruct (String.eqb_spec k k'); subst; simpl; [tauto|].
    f_equal. apply IH. tauto.
  Qed.

  Lemma aset_notin k v m : ~ In k (akeys m) -> aset k v m = m ++ [(k, v)].
  Proof.
    induction m as [|[k' v'] t IH]; simpl; [reflexivity|].
    intros H. destruct (String.eqb_spec k k'); subst; [tauto|].
    f_equal. apply IH. tauto.
  Qed.

  Lemma In_akeys_aset k k' v m : In k' (akeys (aset k v m)) <-> k' = k \/ In k' (akeys m).
  Proof.
    destruct (in_dec string_dec k (akeys m)) as [H|H].
    - rewrite akeys_aset_in by assumption. split; [auto|intros [->|?]; auto].
    - rewrite akeys_aset_notin by assumption. rewrite in_app_iff. simpl.
      split; [intros [?|[?|[]]]; auto|intros [->|?]; auto].
  Qed.

  Lemma NoDup_aset k v m : NoDup (akeys m) -> NoDup (akeys (aset k v m)).
  Proof.
    intros HN. destruct (in_dec string_dec k (akeys m)) as [H|H].
    - now rewrite akeys_aset_in.
    - rewrite akeys_aset_notin by assumption.
      apply NoDup_Add with (a := k) (l := akeys m).
      + rewrite <- (List.app_nil_r (akeys m)) at 1. apply Add_app.
      + split; assumption.
  Qed.

  Lemma aget_adel k k' m : aget k' (adel k m) = if String.eqb k' k then None else aget k' m.
  Proof.
    induction m as [|[j w] t IH]; simpl.
    - now destruct (String.eqb k' k).
    - destruct (String.eqb_spec k j) as [E|E].
      + subst. rewrite IH. destruct (String.eqb_spec k' j); reflexivity.
      + simpl. rewrite IH. destruct (String.eqb_spec k' j); [|reflexivity].
        subst. destruct (String.eqb_spec j k); congruence.
  Qed.

  Lemma akeys_app m m' : akeys (m ++ m') = akeys m ++ akeys m'.
  Proof. apply map_app. Qed.

  Lemma aget_app k m m' :
    aget k (m ++ m') = match aget k m with Some v => Some v | None => aget k m' end.
  Proof.
    induction m as [|[j w] t IH]; simpl; [reflexivity|].
    destruct (String.eqb k j); auto.
  Qed.
End AssocFacts.

Lemma aget_map {A B} (f : A -> B) k (m : list (string * A)) :
  aget k (map (fun p => (fst p, f (snd p))) m) = option_map f (aget k m).
Proof.
  induction m as [|[j w] t IH]; simpl; [reflexivity|].
  destruct (String.eqb k j); auto.
Qed.

Lemma mapM_Ok {A B E} (f : A -> result B E) l l' :
  mapM f l = Ok l' <-> Forall2 (fun a b => f a = Ok b) l l'.
Proof.
  revert l'. induction l as [|a t IH]; simpl; intros l'.
  - split; [intros [= <-]; constructor|inversion 1; reflexivity].
  - destruct (f a) eqn:Ea.
    + destruct (mapM f t) eqn:Et.
      * split.
        -- intros [= <-]. constructor; [assumption|]. now apply IH.
        -- inversion 1; subst. assert (Ok a1 = @Ok _ E l'0) as [= ->].
           { now apply IH. }
           congruence.
      * split; [discriminate|]. inversion 1; subst.
        assert (@Err (list B) E e = Ok l'0) by now apply IH. discriminate.
    + split; [discriminate|]. inversion 1; subst. congruence.
Qed.

Lemma mapM_Err {A B E} (f : A -> result B E) l e :
  mapM f l = Err e <->
  exists pre a post bs, l = pre ++ a :: post /\ f a = Err e /\ mapM f pre = Ok bs.
Proof.
  induction l as [|a t IH]; simpl.
  - split; [discriminate|]. intros (pre & a & post & bs & H & _).
    destruct pre; discriminate.
  - destruct (f a) eqn:Ea.
    + destruct (mapM f t) eqn:Et.
      * split; [discriminate|]. intros (pre & x & post & bs & H & Hx & Hp).
        destruct pre as [|y pre]; simpl in *; injection H as -> ->.
        -- congruence.
        -- rewrite Ea in Hp. destruct (mapM f pre) eqn:Ep; [|discriminate].
           assert (@Ok (list B) E a1 = Err e); [|discriminate].
           apply IH. eauto 8.
      * split.
        -- intros [= ->]. destruct IH as [IH _]. destruct IH as (pre & x & post & bs & H & Hx & Hp); [reflexivity|].
           exists (a :: pre), x, post, (a0 :: bs). subst. simpl. rewrite Ea, Hp. auto.
        -- intros (pre & x & post & bs & H & Hx & Hp).
           destruct pre as [|y pre]; simpl in *; injection H as -> ->.
           ++ congruence.
           ++ rewrite Ea in Hp. destruct (mapM f pre) eqn:Ep; [|discriminate].
              f_equal. assert (@Err (list B) E e0 = Err e); [|congruence].
              apply IH. eauto 8.
    + split.
      * intros [= ->]. exists [], a, t, []. auto.
      * intros (pre & x & post & bs & H & Hx & Hp).
        destruct pre as [|y pre]; simpl in *; injection H as -> ->; [congruence|].
        rewrite Ea in Hp. discriminate.
Qed.

Lemma collect_map {A B E} (f : A -> result B E) l : collect (map f l) = mapM f l.
Proof.
  induction l as [|a t IH]; simpl; [reflexivity|].
  destruct (f a); [|reflexivity]. now rewrite IH.
Qed.

Lemma Z_to_string_inj a b : Z_to_string a = Z_to_string b -> a = b.
Proof.
  unfold Z_to_string. intros H.
  apply (f_equal NilZero.int_of_string) in H.
  assert (N : forall z, NilZero.int_of_string (NilZero.string_of_int (Z.to_int z)) = Some (Z.to_int z)).
  { intros z. apply NilZero.isi.
    - destruct z; simpl; try discriminate. 
      intros [= E]. pose proof (DecimalPos.Unsigned.to_uint_nonnil p). congruence.
    - destruct z; simpl; try discriminate.
      intros [= E]. pose proof (DecimalPos.Unsigned.to_uint_nonnil p). congruence. }
  rewrite !N in H. injection H as H.
  apply (f_equal Z.of_int) in H. now rewrite !DecimalZ.of_to in H.
Qed.
