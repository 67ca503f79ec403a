(** Proofs about skipping and executing plans (C01, C04). *)
From Coq Require Import String Ascii ZArith NArith Bool Arith Lia List Permutation.
From Verif Require Import Base BaseFacts JsonModel JsonSpec JsonProofs TypeModel DiscModel PlanModel PlanSpec.
Import ListNotations.
Open Scope string_scope.
Open Scope list_scope.

Section Facts.
  Context {IR : Type}.
  Notation field := (pfield IR).

  Section Ind.
    Variable P : field -> Prop.
    Hypothesis step : forall f, Forall P (p_selection f) -> P f.
    Fixpoint pfield_ind' (f : field) : P f :=
      step f (match f return Forall P (p_selection f) with
              | PField _ _ _ _ _ _ _ _ _ _ sel =>
                  (fix go (l : list field) : Forall P l :=
                     match l with
                     | [] => Forall_nil _
                     | c :: t => Forall_cons _ (pfield_ind' c) (go t)
                     end) sel
              end).
  End Ind.

  (** ** Directives *)

  Lemma eval_condition_true v vars :
    eval_condition v vars false = true <-> exists n, v = Some n /\ aget n vars = Some (VBool true).
  Proof.
    unfold eval_condition. destruct v as [n|].
    - destruct (aget n vars) as [x|] eqn:A.
      + destruct x; simpl; split; intros H; try discriminate;
          try (destruct H as (n' & Q & R); inv Q; rewrite A in R; discriminate).
        * subst. exists n. auto.
        * destruct H as (n' & Q & R). inv Q. rewrite A in R. now inv R.
      + split; [discriminate|]. intros (n' & Q & R). inv Q. congruence.
    - split; [discriminate|]. intros (n' & Q & _). discriminate.
  Qed.

  Lemma eval_condition_false v vars :
    eval_condition v vars true = false <-> exists n, v = Some n /\ aget n vars = Some (VBool false).
  Proof.
    unfold eval_condition. destruct v as [n|].
    - destruct (aget n vars) as [x|] eqn:A.
      + destruct x; simpl; split; intros H; try discriminate;
          try (destruct H as (n' & Q & R); inv Q; rewrite A in R; discriminate).
        * subst. exists n. auto.
        * destruct H as (n' & Q & R). inv Q. rewrite A in R. now inv R.
      + split; [discriminate|]. intros (n' & Q & R). inv Q. congruence.
    - split; [discriminate|]. intros (n' & Q & _). discriminate.
  Qed.

  Lemma cond_true c vars :
    (c = CTrue \/ eval_condition (cond_variable c) vars false = true) <-> CondIs vars c true.
  Proof.
    rewrite eval_condition_true. destruct c as [| |v]; simpl; split; intros H; auto.
    - destruct H as [H|(n & H & _)]; discriminate.
    - discriminate.
    - destruct H as [H|(n & Q & H)]; [discriminate|]. now inv Q.
    - right. eauto.
  Qed.

  Lemma cond_false c vars :
    (c = CFalse \/ eval_condition (cond_variable c) vars true = false) <-> CondIs vars c false.
  Proof.
    rewrite eval_condition_false. destruct c as [| |v]; simpl; split; intros H; auto.
    - destruct H as [H|(n & H & _)]; discriminate.
    - discriminate.
    - destruct H as [H|(n & Q & H)]; [discriminate|]. now inv Q.
    - right. eauto.
  Qed.

  Lemma answered_exact vars s i :
    answered vars s i = true <->
    Requested vars s i \/
    ((exists a, s = CVar a) /\
     ((CondIs vars s true /\ (exists b, i = CVar b) /\ CondIs vars i false) \/
      (~ CondIs vars s true /\ i = CFalse))).
  Proof.
    unfold Requested. rewrite <- cond_true, <- cond_false. unfold answered.
    assert (X : s <> CVar (match s with CVar a => a | _ => "" end) ->
                eval_condition (cond_variable s) vars false = false)
      by (destruct s; simpl; congruence).
    assert (Y : i <> CVar (match i with CVar a => a | _ => "" end) ->
                eval_condition (cond_variable i) vars true = true)
      by (destruct i; simpl; congruence).
    revert X Y.
    generalize (eval_condition (cond_variable s) vars false) as x.
    generalize (eval_condition (cond_variable i) vars true) as y.
    intros y x X Y.
    assert (V : forall v, (exists b, CVar v = CVar b) <-> True) by (intros; split; eauto).
    assert (VT : (exists b, CTrue = CVar b) <-> False) by (split; [intros (b & Q); discriminate|tauto]).
    assert (VF : (exists b, CFalse = CVar b) <-> False) by (split; [intros (b & Q); discriminate|tauto]).
    destruct s as [| |a], i as [| |b]; rewrite ?V, ?VT, ?VF; clear V VT VF;
      try (rewrite X by discriminate); try (rewrite Y by discriminate); clear X Y;
      try (destruct x); try (destruct y); cbn; intuition congruence.
  Qed.

  Lemma answered_simple vars s i :
    (forall a, s = CVar a -> i = CTrue) ->
    (answered vars s i = true <-> Requested vars s i).
  Proof.
    intros H. rewrite answered_exact. split; [|auto].
    intros [R|((a & ->) & [(_ & (b & ->) & _)|(_ & ->)])]; auto;
      specialize (H _ eq_refl); discriminate.
  Qed.

  (** ** The Skip transform *)

  Lemma skip_inside_eq vars (f : field) :
    header (skip_inside vars f) = header f /\
    p_selection (skip_inside vars f) = skip_fields vars (p_selection f).
  Proof.
    destruct f as [i n o ir t c s inc e sc sel]. split; [reflexivity|]. simpl.
    induction sel as [|g rest IH]; [reflexivity|]. simpl. destruct (field_skip vars g); [exact IH|].
    now rewrite <- IH.
  Qed.

  Lemma field_skip_wanted vars (f : field) :
    (p_skip f = None \/ p_include f = None) ->
    (field_skip vars f = false <-> Wanted vars f).
  Proof.
    intros One. unfold field_skip, Wanted. rewrite eqb_false_iff. split.
    - intros H. split; intros v Q R.
      + assert (A : eval_condition (p_skip f) vars false = true) by (apply eval_condition_true; eauto).
        destruct One as [One|One]; [congruence|]. apply H. rewrite A, One. reflexivity.
      + assert (A : eval_condition (p_include f) vars true = false) by (apply eval_condition_false; eauto).
        destruct One as [One|One]; [|congruence]. apply H. rewrite A, One. reflexivity.
    - intros [A B] Q. destruct One as [One|One]; rewrite One in Q; simpl in Q.
      + symmetry in Q. apply eval_condition_false in Q as (n & R & S'). now apply (B n).
      + apply eval_condition_true in Q as (n & R & S'). now apply (A n).
  Qed.

  Lemma skip_fields_pruned vars : forall l : list field,
    Forall OneDirective l -> Pruned vars l (skip_fields vars l).
  Proof.
    assert (K : forall f : field, OneDirective f ->
                          Pruned vars (p_selection f) (skip_fields vars (p_selection f))).
    { induction f as [f IH] using pfield_ind'. intros O. destruct O as [f _ O].
      induction (p_selection f) as [|c t IHt]; simpl; [constructor|].
      inversion IH as [|? ? P Q]; subst. inversion O as [|? ? X Y]; subst.
      destruct (field_skip vars c) eqn:F.
      - apply pr_drop; [|auto]. intros W.
        inversion X as [? X1 X2]; subst. apply field_skip_wanted in W; auto. congruence.
      - destruct (skip_inside_eq vars c) as [Hh Hs]. apply pr_keep; auto.
        + inversion X as [? X1 X2]; subst. now apply field_skip_wanted.
        + rewrite Hs. auto. }
    induction l as [|c t IH]; intros O; simpl; [constructor|].
    inversion O as [|? ? X Y]; subst.
    destruct (field_skip vars c) eqn:F.
    - apply pr_drop; [|auto]. intros W.
      inversion X as [? X1 X2]; subst. apply field_skip_wanted in W; auto. congruence.
    - destruct (skip_inside_eq vars c) as [Hh Hs]. apply pr_keep; auto.
      + inversion X as [? X1 X2]; subst. now apply field_skip_wanted.
      + rewrite Hs. auto.
  Qed.

  Lemma field_skip_header vars (f g : field) : header f = header g -> field_skip vars f = field_skip vars g.
  Proof. unfold header, field_skip. intros H. inversion H. reflexivity. Qed.

  (** Everything in a skipped plan is kept. *)
  Lemma skip_fields_kept vars : forall (l : list field) f g,
    In f (skip_fields vars l) -> Within g f -> field_skip vars g = false.
  Proof.
    assert (K : forall f g : field, field_skip vars f = false -> Within g (skip_inside vars f) ->
                            field_skip vars g = false).
    { induction f as [f IH] using pfield_ind'. intros g Hf W.
      destruct (skip_inside_eq vars f) as [Hh Hs].
      inversion W as [Q|f0 c C W' Q]; subst.
      - now rewrite (field_skip_header vars _ _ Hh).
      - rewrite Hs in C. clear W Hs Hh Hf.
        induction (p_selection f) as [|d t IHt]; simpl in C; [contradiction|].
        inversion IH as [|? ? P Q]; subst.
        destruct (field_skip vars d) eqn:F; [auto|].
        destruct C as [C|C]; [subst|auto]. now apply (P g). }
    induction l as [|d t IH]; intros f g C W; simpl in C; [contradiction|].
    destruct (field_skip vars d) eqn:F; [eauto|].
    destruct C as [C|C]; [subst|eauto]. now apply (K d).
  Qed.

  Lemma skip_ids vars : forall (l : list field) i, In i (plan_ids (skip_fields vars l)) -> In i (plan_ids l).
  Proof.
    assert (Eq : forall (f : field), field_ids f = p_id f :: plan_ids (p_selection f)).
    { intros [i n o ir t c s inc e sc sel]. reflexivity. }
    assert (K : forall (f : field) i, In i (field_ids (skip_inside vars f)) -> In i (field_ids f)).
    { induction f as [f IH] using pfield_ind'. intros i. rewrite !Eq.
      destruct (skip_inside_eq vars f) as [Hh Hs]. inversion Hh. rewrite Hs. simpl.
      intros [H'|H']; [left; auto|right]. clear -IH H'.
      induction (p_selection f) as [|d t IHt]; simpl in *; [auto|].
      inversion IH as [|? ? P Q]; subst. apply in_app_iff.
      destruct (field_skip vars d); [auto|]. simpl in H'. apply in_app_iff in H' as [H'|H']; auto. }
    induction l as [|d t IH]; intros i H; simpl in *; [auto|]. apply in_app_iff.
    destruct (field_skip vars d); [auto|]. simpl in H. apply in_app_iff in H as [H|H]; auto.
  Qed.

  Lemma field_ids_eq (f : field) : field_ids f = p_id f :: plan_ids (p_selection f).
  Proof.
    destruct f as [i n o ir t c s inc e sc sel]. reflexivity.
  Qed.

  Lemma skip_ids_nodup vars : forall (l : list field),
    NoDup (plan_ids l) -> NoDup (plan_ids (skip_fields vars l)).
  Proof.
    assert (AppL : forall (a b : list nat), NoDup (a ++ b) -> NoDup a /\ NoDup b /\ (forall x, In x a -> ~ In x b)).
    { induction a as [|x a IH]; simpl; intros b H; [split; [constructor|split; [auto|intros ? []]]|].
      inversion H as [|? ? N ND]; subst. apply IH in ND as (A & B & C). split; [|split; [exact B|]].
      - constructor; auto. intros I. apply N. apply in_app_iff. auto.
      - intros y [->|I] J; [apply N; apply in_app_iff; auto|]. now apply (C y). }
    assert (AppR : forall (a b : list nat), NoDup a -> NoDup b -> (forall x, In x a -> ~ In x b) -> NoDup (a ++ b)).
    { induction a as [|x a IH]; simpl; intros b A B C; [auto|].
      inversion A as [|? ? N ND]; subst. constructor.
      - rewrite in_app_iff. intros [I|I]; [auto|]. apply (C x); auto.
      - apply IH; auto. }
    assert (K : forall (f : field), NoDup (field_ids f) -> NoDup (field_ids (skip_inside vars f))).
    { induction f as [f IH] using pfield_ind'. rewrite !field_ids_eq.
      destruct (skip_inside_eq vars f) as [Hh Hs]. rewrite Hs. intros ND.
      assert (Hid : p_id (skip_inside vars f) = p_id f) by now inversion Hh.
      rewrite Hid. apply NoDup_cons_iff in ND as [N ND'].
      constructor; [intros I; apply N; apply (skip_ids vars _ _ I)|].
      clear -IH ND' AppL AppR.
      induction (p_selection f) as [|d t IHt]; simpl in *; [constructor|].
      inversion IH as [|? ? P Q]; subst. apply AppL in ND' as (A & B & C).
      destruct (field_skip vars d) eqn:F; [auto|]. simpl. apply AppR; auto.
      intros x I J. apply (C x).
      - assert (J' : In x (plan_ids (skip_fields vars [d]))) by (simpl; rewrite F; simpl; rewrite app_nil_r; auto).
        apply skip_ids in J'. simpl in J'. now rewrite app_nil_r in J'.
      - eapply skip_ids; eauto. }
    induction l as [|d t IH]; intros ND; simpl in *; [constructor|].
    apply AppL in ND as (A & B & C).
    destruct (field_skip vars d) eqn:F; [auto|]. simpl. apply AppR; auto.
    intros x I J. apply (C x).
    - assert (J' : In x (plan_ids (skip_fields vars [d]))) by (simpl; rewrite F; simpl; rewrite app_nil_r; auto).
      apply skip_ids in J'. simpl in J'. now rewrite app_nil_r in J'.
    - eapply skip_ids; eauto.
  Qed.

  (** ** Execution *)
  Section Run.
    Context {E : Type}.
    Variable implements : string -> string -> bool.
    Variable resolve : field -> option value -> result value E.
    Variable missing : E.

    Notation exec := (exec implements resolve missing).
    Notation execute_ir := (execute_ir implements resolve missing).
    Notation Runs := (Runs implements resolve missing).
    Notation RunsAll := (RunsAll implements resolve missing).
    Notation event := (event (E := E)).

    Definition exec_list (l : list field) (ctx : option value) : list event :=
      flat_map (fun f => exec f ctx) l.

    Lemma exec_eq f ctx :
      exec f ctx =
      match p_ir f with
      | Some _ =>
          map (Called (p_id f)) (evaluated (fst (execute_ir f ctx)))
            ++ match snd (execute_ir f ctx) with Ok v => exec_list (p_selection f) (Some v) | Err _ => [] end
            ++ [Wrote (p_id f) (snd (execute_ir f ctx))]
      | None =>
          match plain_value (E := E) f ctx with
          | Ok v => exec_list (p_selection f) (Some v)
          | Err _ => []
          end
      end.
    Proof.
      destruct f as [i n o ir t c s inc e sc sel]. unfold exec_list.
      assert (G : forall v l,
        (fix go (l : list field) : list event :=
           match l with [] => [] | g :: rest => exec g (Some v) ++ go rest end) l
        = flat_map (fun f => exec f (Some v)) l).
      { intros v l. induction l as [|g r IH]; simpl; [reflexivity|]. now rewrite IH. }
      cbn [PlanModel.exec p_ir p_id p_selection].
      destruct ir as [x|].
      - destruct (execute_ir (PField i n o (Some x) t c s inc e sc sel) ctx) as [calls [v|er]];
          cbn [fst snd]; [now rewrite G|reflexivity].
      - destruct (plain_value _ ctx); [apply G|reflexivity].
    Qed.

    Lemma map_ref_total (g : value -> value) v :
      exists w, snd (map_ref (E := E) (fun (_ : unit) v => (tt, Ok (g v))) tt v) = Ok w.
    Proof.
      induction v as [| | | | |l IH|m IH] using value_ind'; try (eexists; reflexivity).
      simpl.
      match goal with |- context [?go tt l] =>
        assert (K : exists l', go tt l = (tt, Ok l')) end.
      { induction IH as [|x t X T IHt]; [eexists; reflexivity|]. destruct X as (w & X). destruct IHt as (l' & IHt).
        destruct (map_ref (E := E) (fun (_ : unit) v => (tt, Ok (g v))) tt x) as [[] rx] eqn:M.
        simpl in X. subst rx. rewrite IHt. eexists; reflexivity. }
      destruct K as (l' & K). rewrite K. eexists; reflexivity.
    Qed.

    Lemma plain_value_ok (f : field) ctx : exists v, plain_value (E := E) f ctx = Ok v.
    Proof.
      destruct ctx as [v|]; simpl; [|eexists; reflexivity].
      apply (map_ref_total (key_or_null (p_output f)) v).
    Qed.

    Lemma interleaved_perm {A} (a b c : list A) : Interleaved a b c -> Permutation c (a ++ b).
    Proof.
      induction 1; simpl; [constructor|now constructor|].
      transitivity (x :: t1 ++ t2); [now constructor|]. apply Permutation_middle.
    Qed.

    Scheme Runs_mut := Induction for PlanSpec.Runs Sort Prop
      with RunsAll_mut := Induction for PlanSpec.RunsAll Sort Prop.

    Lemma runs_perm : forall f ctx t, Runs f ctx t -> Permutation t (exec f ctx).
    Proof.
      apply (Runs_mut IR E implements resolve missing
               (fun f ctx t _ => Permutation t (exec f ctx))
               (fun l ctx t _ => Permutation t (exec_list l ctx))).
      - intros f ctx v calls tr NI R P RA IH. rewrite exec_eq, R.
        destruct (p_ir f); [|congruence]. apply Permutation_app; [exact P|].
        apply Permutation_app; [exact IH|]. constructor. constructor.
      - intros f ctx e calls NI R P. rewrite exec_eq, R.
        destruct (p_ir f); [|congruence]. apply Permutation_app; [exact P|]. simpl. constructor. constructor.
      - intros f ctx v tr NI R RA IH. rewrite exec_eq, NI, R. exact IH.
      - intros. constructor.
      - intros f l ctx t1 t2 t R1 IH1 R2 IH2 I. apply interleaved_perm in I. rewrite I. simpl.
        apply Permutation_app; assumption.
    Qed.

    Lemma runs_all_perm : forall l ctx t, RunsAll l ctx t -> Permutation t (exec_list l ctx).
    Proof.
      intros l ctx t H. induction H as [|f l ctx t1 t2 t R1 R2 IH I]; [constructor|].
      apply interleaved_perm in I. rewrite I. simpl.
      apply Permutation_app; [now apply runs_perm|assumption].
    Qed.

    Lemma interleaved_app {A} (a b : list A) : Interleaved a b (a ++ b).
    Proof.
      induction a as [|x a IH]; simpl; [|now constructor].
      induction b as [|y b IH]; [constructor|]. now constructor.
    Qed.

    (** The sequential execution is one of the schedules. *)
    Lemma exec_runs : forall f ctx, Runs f ctx (exec f ctx).
    Proof.
      induction f as [f IH] using pfield_ind'. intros ctx. rewrite exec_eq.
      assert (K : forall l v, Forall (fun f => forall ctx, Runs f ctx (exec f ctx)) l ->
                              RunsAll l (Some v) (exec_list l (Some v))).
      { intros l v F. induction F as [|c t X T IHt]; [constructor|]. simpl.
        eapply runs_cons; [apply X|exact IHt|]. apply interleaved_app. }
      destruct (p_ir f) as [x|] eqn:Q.
      - destruct (snd (execute_ir f ctx)) as [v|e] eqn:R.
        + apply runs_ok; auto; congruence.
        + apply runs_err; auto; congruence.
      - destruct (plain_value_ok f ctx) as (v & R). rewrite R. eapply runs_plain; eauto.
    Qed.

    Lemma exec_list_runs : forall l ctx, RunsAll l ctx (exec_list l ctx).
    Proof.
      induction l as [|c t IH]; intros ctx; [constructor|]. simpl.
      eapply runs_cons; [apply exec_runs|apply IH|]. apply interleaved_app.
    Qed.

    (** *** Stores *)

    Definition writes (evs : list event) : list (nat * result value E) :=
      flat_map (fun ev => match ev with Called _ _ => [] | Wrote i r => [(i, r)] end) evs.

    Lemma writes_app a b : writes (a ++ b) = writes a ++ writes b.
    Proof. unfold writes. now rewrite flat_map_app. Qed.

    Lemma writes_perm a b : Permutation a b -> Permutation (writes a) (writes b).
    Proof.
      induction 1 as [|x l l' P IH|x y l|a b c P1 IH1 P2 IH2]; simpl.
      - constructor.
      - destruct x; simpl; [exact IH|]. now constructor.
      - destruct x, y; simpl; try apply Permutation_refl. constructor.
      - etransitivity; eauto.
    Qed.

    Lemma store_of_app a b : forall st, fold_left apply_event (a ++ b) st = fold_left (apply_event (E := E)) b (fold_left apply_event a st).
    Proof. intros. apply fold_left_app. Qed.

    Lemma fold_store_other evs : forall st i, ~ In i (map fst (writes evs)) ->
      fold_left (apply_event (E := E)) evs st i = st i.
    Proof.
      induction evs as [|ev t IH]; intros st i N; [reflexivity|]. destruct ev as [j p|j r]; simpl in *.
      - now apply IH.
      - rewrite IH by tauto. unfold store_set. destruct (Nat.eqb_spec j i); [subst; tauto|reflexivity].
    Qed.

    Lemma fold_store_in evs : forall st i r, NoDup (map fst (writes evs)) -> In (i, r) (writes evs) ->
      fold_left (apply_event (E := E)) evs st i = Some r.
    Proof.
      induction evs as [|ev t IH]; intros st i r ND I; [contradiction|]. destruct ev as [j p|j q]; simpl in *.
      - now apply IH.
      - inversion ND as [|? ? N ND']; subst. destruct I as [Q|I].
        + inversion Q; subst. rewrite fold_store_other by assumption. unfold store_set. now rewrite Nat.eqb_refl.
        + now apply IH.
    Qed.

    Lemma store_of_none evs i : ~ In i (map fst (writes evs)) -> store_of (E := E) evs i = None.
    Proof. intros H. unfold store_of. now rewrite fold_store_other. Qed.

    Lemma store_of_in evs i r :
      NoDup (map fst (writes evs)) -> In (i, r) (writes evs) -> store_of (E := E) evs i = Some r.
    Proof. intros. unfold store_of. now apply fold_store_in. Qed.

    Lemma store_of_perm a b i :
      Permutation a b -> NoDup (map fst (writes b)) -> store_of (E := E) a i = store_of b i.
    Proof.
      intros P ND. apply writes_perm in P.
      assert (Pf : Permutation (map fst (writes a)) (map fst (writes b))) by now apply Permutation_map.
      assert (NDa : NoDup (map fst (writes a))) by (eapply Permutation_NoDup; [symmetry; exact Pf|exact ND]).
      destruct (in_dec Nat.eq_dec i (map fst (writes b))) as [I|I].
      - apply in_map_iff in I as ((j & r) & Q & I). simpl in Q. subst j.
        rewrite (store_of_in b i r ND I). apply store_of_in; auto.
        eapply Permutation_in; [symmetry; exact P|exact I].
      - rewrite (store_of_none b i I). apply store_of_none. intros J. apply I.
        eapply Permutation_in; [exact Pf|exact J].
    Qed.

    (** The identifiers written by a field are among its own. *)
    Lemma sub_app {A} (a b c d : list A) : (exists x, Permutation (a ++ x) c) -> (exists y, Permutation (b ++ y) d) ->
      exists z, Permutation ((a ++ b) ++ z) (c ++ d).
    Proof.
      intros (x & X) (y & Y). exists (x ++ y). rewrite <- X, <- Y.
      rewrite <- !app_assoc. apply Permutation_app_head. rewrite !app_assoc. apply Permutation_app_tail.
      apply Permutation_app_comm.
    Qed.

    Lemma writes_called i l : writes (map (Called i) l) = [].
    Proof. induction l; simpl; auto. Qed.

    Lemma exec_writes : forall f ctx, exists x,
      Permutation (map fst (writes (exec f ctx)) ++ x) (field_ids f).
    Proof.
      induction f as [f IH] using pfield_ind'. intros ctx. rewrite exec_eq, field_ids_eq.
      assert (K : forall l v, Forall (fun f => forall ctx, exists x,
                   Permutation (map fst (writes (exec f ctx)) ++ x) (field_ids f)) l ->
                   exists x, Permutation (map fst (writes (exec_list l v)) ++ x) (plan_ids l)).
      { intros l v F. induction F as [|c t X T IHt]; [exists []; constructor|]. simpl.
        rewrite writes_app, map_app. apply sub_app; auto. }
      destruct (p_ir f) as [x|] eqn:Q.
      - rewrite !writes_app, writes_called. simpl.
        destruct (snd (execute_ir f ctx)) as [v|e] eqn:R.
        + destruct (K (p_selection f) (Some v) IH) as (z & Z). exists z.
          rewrite map_app. simpl. rewrite <- app_assoc. simpl. symmetry. rewrite <- Z. apply Permutation_middle.
        + exists (plan_ids (p_selection f)). reflexivity.
      - destruct (plain_value_ok f ctx) as (v & R). rewrite R.
        destruct (K (p_selection f) (Some v) IH) as (z & Z). exists (p_id f :: z).
        rewrite <- Permutation_middle. now constructor.
    Qed.

    Lemma exec_list_writes l ctx : exists x,
      Permutation (map fst (writes (exec_list l ctx)) ++ x) (plan_ids l).
    Proof.
      induction l as [|c t IH]; [exists []; constructor|]. simpl. rewrite writes_app, map_app.
      apply sub_app; [apply exec_writes|exact IH].
    Qed.

    Lemma exec_list_nodup l ctx : NoDup (plan_ids l) -> NoDup (map fst (writes (exec_list l ctx))).
    Proof.
      intros ND. destruct (exec_list_writes l ctx) as (x & X).
      assert (ND' : NoDup (map fst (writes (exec_list l ctx)) ++ x))
        by (eapply Permutation_NoDup; [symmetry; exact X|exact ND]).
      clear -ND'. induction (map fst (writes (exec_list l ctx))) as [|a l0 IH]; [constructor|].
      simpl in ND'. inversion ND' as [|? ? N D]; subst. constructor; auto.
      intros I. apply N. apply in_app_iff. auto.
    Qed.

    Lemma exec_all_list l : exec_all implements resolve missing l = exec_list l None.
    Proof. reflexivity. Qed.

    Lemma schedule_independent l t i :
      NoDup (plan_ids l) -> RunsAll l None t ->
      store_of t i = store_of (exec_all implements resolve missing l) i.
    Proof.
      intros ND R. rewrite exec_all_list. apply store_of_perm; [now apply runs_all_perm|].
      now apply exec_list_nodup.
    Qed.

    Lemma schedules_agree l t1 t2 i :
      NoDup (plan_ids l) -> RunsAll l None t1 -> RunsAll l None t2 -> store_of t1 i = store_of t2 i.
    Proof.
      intros ND R1 R2. rewrite (schedule_independent l t1), (schedule_independent l t2); auto.
    Qed.

    Lemma schedules_same_events l ctx t1 t2 :
      RunsAll l ctx t1 -> RunsAll l ctx t2 -> Permutation t1 t2.
    Proof.
      intros R1 R2. rewrite (runs_all_perm _ _ _ R1), (runs_all_perm _ _ _ R2). reflexivity.
    Qed.

    (** *** Which fields are touched *)

    Lemma exec_event_field : forall f ctx ev, In ev (exec f ctx) ->
      exists g, Within g f /\ p_ir g <> None /\ event_id ev = p_id g.
    Proof.
      induction f as [f IH] using pfield_ind'. intros ctx ev. rewrite exec_eq.
      assert (K : forall v, In ev (exec_list (p_selection f) v) ->
                            exists g, Within g f /\ p_ir g <> None /\ event_id ev = p_id g).
      { intros v I. unfold exec_list in I. apply in_flat_map in I as (c & C & I).
        rewrite Forall_forall in IH. destruct (IH c C _ _ I) as (g & W & G).
        exists g. split; [eapply within_below; eauto|exact G]. }
      destruct (p_ir f) as [x|] eqn:Q.
      - rewrite !in_app_iff. intros [I|[I|I]].
        + apply in_map_iff in I as (v & <- & _). exists f. split; [constructor|]. split; [congruence|reflexivity].
        + destruct (snd (execute_ir f ctx)); [eauto|contradiction].
        + destruct I as [<-|[]]. exists f. split; [constructor|]. split; [congruence|reflexivity].
      - destruct (plain_value f ctx); [eauto|contradiction].
    Qed.

    Lemma exec_all_event_field l ev : In ev (exec_all implements resolve missing l) ->
      exists f g, In f l /\ Within g f /\ p_ir g <> None /\ event_id ev = p_id g.
    Proof.
      intros I. apply in_flat_map in I as (f & F & I). apply exec_event_field in I as (g & G). eauto.
    Qed.

    Lemma exec_all_root_called l f : In f l -> p_ir f <> None ->
      In (Called (p_id f) None) (exec_all implements resolve missing l).
    Proof.
      intros I Q. apply in_flat_map. exists f. split; auto. rewrite exec_eq.
      destruct (p_ir f); [|congruence]. apply in_app_iff. left. simpl. auto.
    Qed.

    Lemma skip_fields_root vars (l : list field) f : In f l -> field_skip vars f = false ->
      exists f', In f' (skip_fields vars l) /\ header f' = header f.
    Proof.
      induction l as [|d t IH]; intros I F; [contradiction|]. destruct I as [->|I]; simpl.
      - rewrite F. exists (skip_inside vars f). split; [left; reflexivity|apply skip_inside_eq].
      - destruct (IH I F) as (f' & I' & H). exists f'. split; auto.
        destruct (field_skip vars d); [auto|right; auto].
    Qed.
  End Run.
End Facts.
