From Coq Require Import String Ascii ZArith NArith Bool Lia List.
From Verif Require Import Base BaseFacts JsonModel JsonProofs SchemaModel SchemaSpec.
Import ListNotations.
Open Scope string_scope.
Open Scope list_scope.

Section SchemaInd.
  Variable P : schema -> Prop.
  Hypothesis Hobj : forall fs, Forall (fun kv => P (snd kv)) fs -> P (SObj fs).
  Hypothesis Harr : forall s, P s -> P (SArr s).
  Hypothesis Hopt : forall s, P s -> P (SOpt s).
  Hypothesis Henum : forall vs, P (SEnum vs).
  Hypothesis Hstr : P SStr.
  Hypothesis Hnum : P SNum.
  Hypothesis Hbool : P SBool.
  Hypothesis Hempty : P SEmpty.
  Hypothesis Hany : P SAny.
  Fixpoint schema_ind' (s : schema) : P s :=
    match s with
    | SObj fs =>
        Hobj fs ((fix go (m : list (string * schema)) : Forall (fun kv => P (snd kv)) m :=
                   match m with
                   | [] => Forall_nil _
                   | x :: t => Forall_cons x (schema_ind' (snd x)) (go t)
                   end) fs)
    | SArr s => Harr s (schema_ind' s)
    | SOpt s => Hopt s (schema_ind' s)
    | SEnum vs => Henum vs
    | SStr => Hstr
    | SNum => Hnum
    | SBool => Hbool
    | SEmpty => Hempty
    | SAny => Hany
    end.
End SchemaInd.

Lemma list_eqb_eq a : forall b, list_eqb a b = true <-> a = b.
Proof.
  induction a as [|x a IH]; intros [|y b]; simpl; split; try discriminate; try reflexivity.
  - intros H. apply andb_prop in H as [H1 H2]. apply String.eqb_eq in H1. apply IH in H2. congruence.
  - intros [= -> ->]. rewrite String.eqb_refl. now apply IH.
Qed.

(** unfolding of the nested loops *)
Lemma validate_obj fields m :
  validate (SObj fields) (VObj m) = true <->
  forall k s, In (k, s) fields ->
    match aget k m with
    | Some fv => validate s fv = true
    | None => is_required s = false
    end.
Proof.
  cbn [validate]. induction fields as [|[k s] t IH].
  - split; [intros _ k s []|reflexivity].
  - rewrite andb_true_iff, IH. split.
    + intros [H1 H2] k' s' [E|Hin].
      * injection E as <- <-. destruct (is_required s); destruct (aget k m); congruence.
      * now apply H2.
    + intros H. split.
      * specialize (H k s (or_introl eq_refl)).
        destruct (is_required s) eqn:Er; destruct (aget k m); congruence.
      * intros k' s' Hin. apply H. now right.
Qed.

Lemma is_a_obj actual expected :
  is_a (SObj actual) (SObj expected) = true <->
  forall k e, In (k, e) expected -> exists a, aget k actual = Some a /\ is_a a e = true.
Proof.
  cbn [is_a]. induction expected as [|[k e] t IH].
  - split; [intros _ k e []|reflexivity].
  - rewrite andb_true_iff, IH. split.
    + intros [H1 H2] k' e' [E|Hin].
      * injection E as <- <-. destruct (aget k actual) as [a|]; [eauto|discriminate].
      * now apply H2.
    + intros H. split.
      * destruct (H k e (or_introl eq_refl)) as (a & Ha & Hi). now rewrite Ha.
      * intros k' e' Hin. apply H. now right.
Qed.

Lemma conforms_obj_inv fs v :
  conforms (SObj fs) v -> exists m, v = VObj m /\
    forall k s, In (k, s) fs ->
       (exists v, aget k m = Some v /\ conforms s v) \/
       (aget k m = None /\ exists s', s = SOpt s').
Proof. inversion 1; subst. eauto. Qed.

Lemma conforms_arr_inv s v :
  conforms (SArr s) v -> exists l, v = VList l /\ Forall (conforms s) l.
Proof. inversion 1; subst. eauto. Qed.

(** validation decides conformance when no enum is involved *)
Lemma validate_conforms s : enum_free s -> forall v, validate s v = true <-> conforms s v.
Proof.
  induction s using schema_ind'; intros EF v; inv EF.
  - destruct v; try (split; [discriminate|inversion 1]).
    rewrite validate_obj. rewrite Forall_forall in H, H1. split.
    + intros HV. constructor. intros k s Hin. specialize (HV k s Hin).
      destruct (aget k m) as [fv|].
      * left. exists fv. split; [reflexivity|]. apply (H _ Hin); [apply (H1 _ Hin)|exact HV].
      * right. split; [reflexivity|]. destruct s; try discriminate. eauto.
    + intros HC. apply conforms_obj_inv in HC as (m' & E & HF). injection E as <-.
      intros k s Hin. destruct (HF k s Hin) as [(fv & -> & Hf)|(-> & s' & ->)].
      * apply (H _ Hin); [apply (H1 _ Hin)|exact Hf].
      * reflexivity.
  - destruct v; try (split; [discriminate|inversion 1]).
    cbn [validate]. rewrite forallb_forall. split.
    + intros HV. constructor. rewrite Forall_forall. intros x Hx. apply IHs; auto.
    + intros HC. apply conforms_arr_inv in HC as (l' & E & HF). injection E as <-.
      rewrite Forall_forall in HF. intros x Hx. apply IHs; auto.
  - cbn [validate]. destruct v; try (rewrite IHs by assumption; split; [now constructor|inversion 1; assumption]).
    split; [intros _; constructor|reflexivity].
  - destruct v; split; try discriminate; try (inversion 1; fail); try reflexivity. constructor.
  - destruct v; split; try discriminate; try (inversion 1; fail); try reflexivity. constructor.
  - destruct v; split; try discriminate; try (inversion 1; fail); try reflexivity. constructor.
  - destruct v; simpl; split; try discriminate; try (inversion 1; fail); try reflexivity; try constructor;
      destruct m; intros HH; try discriminate; try constructor; inversion HH; reflexivity.
  - split; [constructor|reflexivity].
Qed.

(** the checker is sound for conformance *)
Lemma is_a_optional_target a e :
  is_a a e = true -> is_optional a = true -> e <> SAny -> is_optional e = true.
Proof. destruct a; try discriminate. destruct e; simpl; congruence. Qed.

Lemma is_a_sound super : forall sub v,
    no_any_field super -> is_a sub super = true -> conforms sub v -> conforms super v.
Proof.
  induction super using schema_ind'; intros sub v NA HA HC.
  - destruct sub; try discriminate. inv NA. rewrite is_a_obj in HA. apply conforms_obj_inv in HC as (m & -> & HF).
    rewrite Forall_forall in H, H1. constructor. intros k e Hin.
    destruct (HA k e Hin) as (a & Ha & Hi).
    destruct (H1 _ Hin) as [Hany Hna]. simpl in Hany, Hna.
    destruct (HF k a) as [(fv & Hfv & Hf)|(Hfv & s' & ->)].
    + now apply aget_In.
    + left. exists fv. split; [exact Hfv|]. eapply (H _ Hin); eassumption.
    + right. split; [exact Hfv|].
      assert (Ho : is_optional e = true) by (eapply is_a_optional_target; eauto).
      destruct e; try discriminate. eauto.
  - destruct sub; try discriminate. inv NA. apply conforms_arr_inv in HC as (l & -> & HF). constructor.
    rewrite Forall_forall in *. intros x Hx. eapply IHsuper; eauto.
  - inv NA. cbn [is_a] in HA. destruct sub.
    all: try (apply conf_opt; eapply IHsuper; eauto; fail).
    inv HC; [constructor|]. apply conf_opt. eapply IHsuper; eauto.
  - destruct sub; try discriminate. cbn [is_a] in HA. apply list_eqb_eq in HA. now subst.
  - destruct sub; try discriminate. exact HC.
  - destruct sub; try discriminate. exact HC.
  - destruct sub; try discriminate. exact HC.
  - destruct sub; try discriminate. exact HC.
  - constructor.
Qed.

Lemma is_a_refl s : wf_schema s -> is_a s s = true.
Proof.
  induction s using schema_ind'; intros W; inv W; try reflexivity.
  - apply is_a_obj. intros k e Hin. exists e. split; [now apply NoDup_aget|].
    rewrite Forall_forall in H, H2. apply (H _ Hin), (H2 _ Hin).
  - cbn [is_a]. auto.
  - cbn [is_a]. auto.
  - cbn [is_a]. now apply list_eqb_eq.
Qed.

Lemma is_a_from_any c : is_a SAny c = true -> forall a, is_a a c = true.
Proof.
  induction c using schema_ind'; intros H'; try discriminate.
  - cbn [is_a] in *. intros a. destruct a; apply IHc; exact H'.
  - reflexivity.
Qed.

Lemma is_a_trans c : forall a b,
    is_a a b = true -> is_a b c = true -> is_a a c = true.
Proof.
  induction c using schema_ind'; intros a b Hab Hbc.
  - destruct b; try discriminate. destruct a; try discriminate.
    rewrite is_a_obj in *. rewrite Forall_forall in H. intros k e Hin.
    destruct (Hbc k e Hin) as (b' & Hb' & Hb'e).
    apply aget_In in Hb'. destruct (Hab k b' Hb') as (a' & Ha' & Ha'b).
    exists a'. split; [exact Ha'|]. eapply (H _ Hin); eassumption.
  - destruct b; try discriminate. destruct a; try discriminate. cbn [is_a] in *. eauto.
  - cbn [is_a] in Hbc. destruct b.
    all: try (assert (Hac : is_a a c = true) by (eapply IHc; eassumption);
              cbn [is_a]; destruct a; try exact Hac; try discriminate; fail).
    + cbn [is_a] in Hab |- *. destruct a; eapply IHc; eassumption.
    + (* b = Any *) apply is_a_from_any. cbn [is_a]. exact Hbc.
  - destruct b; try discriminate. destruct a; try discriminate. cbn [is_a] in *.
    apply list_eqb_eq in Hab, Hbc. apply list_eqb_eq. congruence.
  - destruct b; try discriminate. exact Hab.
  - destruct b; try discriminate. exact Hab.
  - destruct b; try discriminate. exact Hab.
  - destruct b; try discriminate. exact Hab.
  - reflexivity.
Qed.

Lemma any_field_counterexample :
  exists sub super v,
    is_a sub super = true /\ conforms sub v /\ validate sub v = true /\
    ~ conforms super v /\ validate super v = false.
Proof.
  exists (SObj [("a", SOpt SStr)]), (SObj [("a", SAny)]), (VObj []).
  repeat split.
  - constructor. intros k s [E|[]]. injection E as <- <-. right. split; [reflexivity|eauto].
  - intros H. apply conforms_obj_inv in H as (m & E & HF). injection E as <-.
    destruct (HF "a" SAny (or_introl eq_refl)) as [(v & Hv & _)|(_ & s' & Hs)]; discriminate.
Qed.

Lemma enum_counterexample :
  exists vs v, validate (SEnum vs) v = true /\ ~ conforms (SEnum vs) v.
Proof.
  exists ["A"; "B"], (VStr "C"). split; [reflexivity|].
  inversion 1; subst. match goal with H : In _ _ |- _ => destruct H as [H|[H|[]]]; discriminate H end.
Qed.
