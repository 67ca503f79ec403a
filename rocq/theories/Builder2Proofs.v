(** More proofs for the plan builder (C43): termination, selected fields. *)
From Coq Require Import String Ascii ZArith NArith Bool Arith Lia List.
From Verif Require Import Base BaseFacts JsonModel TypeModel DiscModel PlanModel BuilderModel BuilderSpec BuilderProofs.
Import ListNotations.
Open Scope string_scope.
Open Scope list_scope.
Open Scope nat_scope.

Section SelectionInd.
  Variable P : selection -> Prop.
  Hypothesis HF : forall alias name given ds sel, Forall P sel -> P (SField alias name given ds sel).
  Hypothesis HS : forall f ds, P (SSpread f ds).
  Hypothesis HI : forall c ds sel, Forall P sel -> P (SInline c ds sel).
  Fixpoint selection_ind' (s : selection) : P s :=
    let all := fix all (l : list selection) : Forall P l :=
      match l with [] => Forall_nil _ | x :: t => Forall_cons _ (selection_ind' x) (all t) end in
    match s with
    | SField alias name given ds sel => HF alias name given ds sel (all sel)
    | SSpread f ds => HS f ds
    | SInline c ds sel => HI c ds sel (all sel)
    end.
End SelectionInd.

Section Proofs.
  Context {IR : Type}.
  Notation field := (bfield IR).
  Variable ix : index IR.
  Variable frags : list (string * fragment).

  (** *** Fuel *)

  Lemma iter_items_mono rec rec' pf cond :
    (forall pf items cond n r, rec pf items cond n = Some r -> rec' pf items cond n = Some r) ->
    forall items fields ffields visited n r,
      iter_items ix frags rec pf cond items fields ffields visited n = Some r ->
      iter_items ix frags rec' pf cond items fields ffields visited n = Some r.
  Proof.
    intros M. induction items as [|it rest IH]; intros fields ffields visited n r H; [exact H|].
    destruct it as [alias name given ds sel|name ds|c ds sel]; cbn in *.
    - destruct (smem _ _); [auto|]. destruct (is_const_skip _ _); [auto|].
      destruct (get_field ix cond name) as [def|].
      + match type of H with context [rec None sel ?tn (S n)] => destruct (rec None sel tn (S n)) as [[? ?]|] eqn:E end;
          [|discriminate]. apply M in E. rewrite E. auto.
      + destruct (String.eqb _ _); auto.
    - destruct (aget name frags) as [[on sel]|]; [|auto].
      destruct (rec (Some on) sel on n) as [[? ?]|] eqn:E; [|discriminate]. apply M in E. rewrite E. auto.
    - match type of H with context [rec (Some ?on) sel ?on n] => destruct (rec (Some on) sel on n) as [[? ?]|] eqn:E end;
        [|discriminate]. apply M in E. rewrite E. auto.
  Qed.

  Lemma iter_mono1 fuel : forall pf items cond n r,
    iter ix frags fuel pf items cond n = Some r -> iter ix frags (S fuel) pf items cond n = Some r.
  Proof.
    induction fuel as [|fuel IH]; intros pf items cond n r H; [discriminate|].
    change (iter_set ix frags (iter ix frags (S fuel)) pf cond items n = Some r).
    cbn in H. unfold iter_set in *.
    destruct (iter_items ix frags (iter ix frags fuel) _ _ _ _ _ _ _) as [[[[fields ffields] visited] n1]|] eqn:E; [|discriminate].
    apply (iter_items_mono _ (iter ix frags (S fuel))) in E; [|exact IH]. rewrite E. exact H.
  Qed.

  Lemma iter_mono fuel fuel' pf items cond n r : fuel <= fuel' ->
    iter ix frags fuel pf items cond n = Some r -> iter ix frags fuel' pf items cond n = Some r.
  Proof. induction 1; [auto|]. intros H1. apply iter_mono1. auto. Qed.

  Definition ok (fuel : nat) (items : list selection) : Prop :=
    forall pf cond n, iter ix frags fuel pf items cond n <> None.

  Lemma ok_mono fuel fuel' items : fuel <= fuel' -> ok fuel items -> ok fuel' items.
  Proof.
    intros L O pf cond n. destruct (iter ix frags fuel pf items cond n) as [r|] eqn:E; [|now apply O in E].
    apply (iter_mono _ _ _ _ _ _ _ L) in E. now rewrite E.
  Qed.

  Definition item_ok (fuel : nat) (it : selection) : Prop :=
    match it with
    | SField _ _ _ _ sel => ok fuel sel
    | SInline _ _ sel => ok fuel sel
    | SSpread f _ => forall on sel, aget f frags = Some (on, sel) -> ok fuel sel
    end.

  Lemma items_ok fuel pf cond : forall items, Forall (item_ok fuel) items ->
    forall fields ffields visited n,
      iter_items ix frags (iter ix frags fuel) pf cond items fields ffields visited n <> None.
  Proof.
    induction 1 as [|it rest H _ IH]; intros fields ffields visited n; [discriminate|].
    destruct it as [alias name given ds sel|name ds|c ds sel]; cbn in *.
    - destruct (smem _ _); [auto|]. destruct (is_const_skip _ _); [auto|].
      destruct (get_field ix cond name) as [def|].
      + match goal with |- context [iter ix frags fuel None sel ?tn (S n)] =>
          destruct (iter ix frags fuel None sel tn (S n)) as [[? ?]|] eqn:E end; [auto|]. now apply H in E.
      + destruct (String.eqb _ _); auto.
    - destruct (aget name frags) as [[on sel]|] eqn:F; [|auto].
      destruct (iter ix frags fuel (Some on) sel on n) as [[? ?]|] eqn:E; [auto|]. now apply (H on sel eq_refl) in E.
    - match goal with |- context [iter ix frags fuel (Some ?on) sel ?on n] =>
        destruct (iter ix frags fuel (Some on) sel on n) as [[? ?]|] eqn:E end; [auto|]. now apply H in E.
  Qed.

  Lemma set_ok fuel items : Forall (item_ok fuel) items -> ok (S fuel) items.
  Proof.
    intros H pf cond n. cbn. unfold iter_set.
    destruct (iter_items ix frags (iter ix frags fuel) _ _ _ _ _ _ _) as [[[[? ?] ?] ?]|] eqn:E; [discriminate|].
    now apply items_ok in E.
  Qed.

  Lemma item_ok_mono fuel fuel' it : fuel <= fuel' -> item_ok fuel it -> item_ok fuel' it.
  Proof. intros L. destruct it; cbn; eauto using ok_mono. Qed.

  Lemma gather items : Forall (fun it => exists fuel, item_ok fuel it) items ->
    exists fuel, Forall (item_ok fuel) items.
  Proof.
    induction 1 as [|it rest [a Ha] _ [b Hb]]; [exists 0; constructor|].
    exists (a + b). constructor.
    - eapply item_ok_mono; [|exact Ha]. lia.
    - eapply Forall_impl; [|exact Hb]. intros x. apply item_ok_mono. lia.
  Qed.

  Lemma spreads_cons x l f : Spreads (x :: l) f -> Spreads [x] f \/ Spreads l f.
  Proof.
    intros Hf. inversion Hf as [? ? ? J|? ? ? ? ? ? ? J K|? ? ? ? ? J K]; subst; destruct J as [J|J].
    - subst. left. eapply Sp_here. now left.
    - right. eapply Sp_here. eauto.
    - subst. left. eapply Sp_field; [now left|auto].
    - right. eapply Sp_field; eauto.
    - subst. left. eapply Sp_inline; [now left|auto].
    - right. eapply Sp_inline; eauto.
  Qed.

  Lemma enough : Acyclic frags -> forall items, exists fuel, ok fuel items.
  Proof.
    intros [rank R].
    assert (forall k items, (forall f, Spreads items f -> rank f < k) -> exists fuel, ok fuel items) as H.
    { induction k as [k IHk] using lt_wf_ind.
      assert (forall it, (forall f, Spreads [it] f -> rank f < k) -> exists fuel, item_ok fuel it) as HI.
      { induction it as [alias name given ds sel IH|f ds|c ds sel IH] using selection_ind'; intros B.
        - assert (Forall (fun it => exists fuel, item_ok fuel it) sel) as G.
          { rewrite Forall_forall in *. intros x Hx. apply IH; [auto|].
            intros f Hf. apply B. eapply Sp_field; [now left|].
            inversion Hf as [? ? ? J|? ? ? ? ? ? ? J K|? ? ? ? ? J K]; subst; destruct J as [J|[]]; subst;
              [eapply Sp_here|eapply Sp_field|eapply Sp_inline]; eauto. }
          apply gather in G as [fuel G]. exists (S fuel). cbn. now apply set_ok.
        - destruct (aget f frags) as [[on sel]|] eqn:F.
          + assert (rank f < k) as L by (apply B; eapply Sp_here; now left).
            destruct (IHk (rank f) L sel) as [fuel Hf].
            { intros g G. eapply R; eauto. }
            exists fuel. cbn. intros on' sel' E. rewrite F in E. injection E as <- <-. exact Hf.
          + exists 0. cbn. intros ? ? E. congruence.
        - assert (Forall (fun it => exists fuel, item_ok fuel it) sel) as G.
          { rewrite Forall_forall in *. intros x Hx. apply IH; [auto|].
            intros f Hf. apply B. eapply Sp_inline; [now left|].
            inversion Hf as [? ? ? J|? ? ? ? ? ? ? J K|? ? ? ? ? J K]; subst; destruct J as [J|[]]; subst;
              [eapply Sp_here|eapply Sp_field|eapply Sp_inline]; eauto. }
          apply gather in G as [fuel G]. exists (S fuel). cbn. now apply set_ok. }
      intros items B.
      assert (Forall (fun it => exists fuel, item_ok fuel it) items) as G.
      { rewrite Forall_forall. intros x Hx. apply HI. intros f Hf. apply B.
        inversion Hf as [? ? ? J|? ? ? ? ? ? ? J K|? ? ? ? ? J K]; subst; destruct J as [J|[]]; subst;
          [eapply Sp_here|eapply Sp_field|eapply Sp_inline]; eauto. }
      apply gather in G as [fuel G]. exists (S fuel). now apply set_ok. }
    intros items.
    (* a bound on the ranks of the fragments spread in the items *)
    assert (exists k, forall f, Spreads items f -> rank f < k) as [k K]; [|eauto].
    assert (forall it, exists k, forall f, Spreads [it] f -> rank f < k) as HB.
    { assert (forall l, Forall (fun it => exists k, forall f, Spreads [it] f -> rank f < k) l ->
                        exists k, forall f, Spreads l f -> rank f < k) as HL.
      { induction 1 as [|x l [a Ha] _ [b Hb]].
        - exists 0. intros f Hf. inversion Hf; subst; easy.
        - exists (a + b). intros f Hf.
          assert (Spreads [x] f \/ Spreads l f) as [J|J].
          { now apply spreads_cons. }
          + apply Ha in J. lia.
          + apply Hb in J. lia. }
      induction it as [alias name given ds sel IH|f ds|c ds sel IH] using selection_ind'.
      - apply HL in IH as [k K]. exists k. intros f Hf. apply K.
        inversion Hf as [? ? ? J|? ? ? ? ? ? ? J L|? ? ? ? ? J L]; subst; destruct J as [J|[]]; try discriminate.
        now injection J as <- <- <- <- <-.
      - exists (S (rank f)). intros g Hg.
        inversion Hg as [? ? ? J|? ? ? ? ? ? ? J L|? ? ? ? ? J L]; subst; destruct J as [J|[]]; try discriminate.
        injection J as <- <-. lia.
      - apply HL in IH as [k K]. exists k. intros f Hf. apply K.
        inversion Hf as [? ? ? J|? ? ? ? ? ? ? J L|? ? ? ? ? J L]; subst; destruct J as [J|[]]; try discriminate.
        now injection J as <- <- <-. }
    clear H. induction items as [|x l [b Hb]].
    - exists 0. intros f Hf. inversion Hf; subst; easy.
    - destruct (HB x) as [a Ha]. exists (a + b). intros f Hf.
      assert (Spreads [x] f \/ Spreads l f) as [J|J].
      { now apply spreads_cons. }
      + apply Ha in J. lia.
      + apply Hb in J. lia.
  Qed.

  (** *** What is selected *)

  Lemma Expands_fun pf cond before all items fs :
    Expands ix frags pf cond before all items fs ->
    forall fs', Expands ix frags pf cond before all items fs' -> fs = fs'.
  Proof.
    induction 1 as [pf cond before all
      |pf cond before all alias name given ds sel rest fs Hin H1 IH1
      |pf cond before all alias name given ds sel rest fs Hin C H1 IH1
      |pf cond before all alias name given ds sel rest fs Hin C U H1 IH1
      |pf cond before all alias given ds sel rest fs Hin C U H1 IH1
      |pf cond before all alias name given ds sel rest fs t r args children Hin C U H1 IH1 H2 IH2
      |pf cond before all name ds rest fs on sel gs F H1 IH1 H2 IH2
      |pf cond before all name ds rest fs F H1 IH1
      |pf cond before all c ds sel rest fs gs H1 IH1 H2 IH2]; intros fs' X.
    - inversion X; subst; auto.
    - inversion X; subst; try contradiction; auto.
    - inversion X; subst; try contradiction; try congruence; auto.
    - inversion X; subst; try contradiction; try congruence; auto;
        [destruct U; congruence|]. destruct U.
      match goal with K : Known _ _ _ _ _ _ |- _ => inversion K; congruence end.
    - inversion X; subst; try contradiction; try congruence; auto;
        [match goal with K : Unknown _ _ _ |- _ => destruct K; congruence end| f_equal; auto|].
      match goal with K : Known _ _ _ _ _ _ |- _ => inversion K; congruence end.
    - inversion X; subst; try contradiction; try congruence; auto.
      + match goal with K : Unknown _ _ _ |- _ => destruct K end. inversion U; congruence.
      + inversion U; congruence.
      + match goal with K : Known _ _ _ ?t' ?r' ?args' |- _ =>
          assert (t' = t /\ r' = r /\ args' = args) as [-> [-> ->]] by
            (inversion U; subst; inversion K; subst; intuition congruence) end.
        f_equal; [f_equal; eauto|]; eauto.
    - inversion X as [| | | | | |? ? ? ? ? ? ? ? on' sel' gs' F' X1 X2| |]; subst; [|congruence].
      rewrite F in F'. injection F' as <- <-. f_equal; [f_equal; auto|auto].
    - inversion X as [| | | | | |? ? ? ? ? ? ? ? on' sel' gs' F' X1 X2| |]; subst; [congruence|]. auto.
    - inversion X; subst. cbn in *. f_equal; [f_equal; auto|auto].
  Qed.

  Lemma selects_cons cond it rest t name ds o :
    Selects frags cond (it :: rest) t name ds o -> Selects frags cond [it] t name ds o \/ Selects frags cond rest t name ds o.
  Proof.
    intros H. inversion H as [? ? ? ? ? ? ? J|? ? ? ? ? ? ? ? ? ? J|? ? ? ? ? ? ? ? ? J]; subst;
      destruct J as [J|J].
    - subst. left. eapply S_direct. now left.
    - right. eapply S_direct. eauto.
    - subst. left. eapply S_spread; [now left|eauto..].
    - right. eapply S_spread; eauto.
    - subst. left. eapply S_inline; [now left|auto].
    - right. eapply S_inline; eauto.
  Qed.

  Lemma selects_rest cond it rest t name ds o :
    Selects frags cond rest t name ds o -> Selects frags cond (it :: rest) t name ds o.
  Proof.
    intros H. inversion H as [? ? ? ? ? ? ? J|? ? ? ? ? ? ? ? ? ? J|? ? ? ? ? ? ? ? ? J]; subst.
    - eapply S_direct. right. eauto.
    - eapply S_spread; [right|..]; eauto.
    - eapply S_inline; [right|]; eauto.
  Qed.

  Lemma direct_selects cond items o : In o (direct_names items) ->
    exists name ds, Selects frags cond items cond name ds o.
  Proof.
    intros H. apply in_flat_map in H as [it [I J]]. destruct it; [|easy..]. destruct J as [<-|[]].
    exists name, directives. eapply S_direct; eauto.
  Qed.

  Lemma filter_keeps (gs : list field) o all : (exists f, In f gs /\ b_output f = o) -> ~ In o all ->
    exists f, In f (filter (fun g => negb (smem (b_output g) all)) gs) /\ b_output f = o.
  Proof.
    intros [f [I <-]] N. exists f. split; [|auto]. apply filter_In. split; [auto|].
    apply smem_false in N. now rewrite N.
  Qed.

  Lemma in_left {A} (P : A -> Prop) l l' : (exists f, In f l /\ P f) -> exists f, In f (l ++ l') /\ P f.
  Proof. intros [f [I J]]. exists f. split; [apply in_or_app|]; auto. Qed.
  Lemma in_right {A} (P : A -> Prop) l l' : (exists f, In f l' /\ P f) -> exists f, In f (l ++ l') /\ P f.
  Proof. intros [f [I J]]. exists f. split; [apply in_or_app|]; auto. Qed.

  Lemma in_tl {A} (P : A -> Prop) x l : (exists f, In f l /\ P f) -> exists f, In f (x :: l) /\ P f.
  Proof. intros [f [I J]]. exists f. split; [now right|auto]. Qed.

  Lemma selected_planned pf cond before all items fs :
    Expands ix frags pf cond before all items fs ->
    forall o, ~ In o before -> (In o all -> In o (direct_names items)) ->
      (forall t name ds, Selects frags cond items t name ds o -> Plannable ix t name ds) ->
      (exists t name ds, Selects frags cond items t name ds o) ->
      exists f, In f fs /\ b_output f = o.
  Proof.
    induction 1 as [pf cond before all
      |pf cond before all alias name given ds sel rest fs Hin H1 IH1
      |pf cond before all alias name given ds sel rest fs Hin C H1 IH1
      |pf cond before all alias name given ds sel rest fs Hin C U H1 IH1
      |pf cond before all alias given ds sel rest fs Hin C U H1 IH1
      |pf cond before all alias name given ds sel rest fs t r args children Hin C U H1 IH1 H2 IH2
      |pf cond before all name ds rest fs on sel gs F H1 IH1 H2 IH2
      |pf cond before all name ds rest fs F H1 IH1
      |pf cond before all c ds sel rest fs gs H1 IH1 H2 IH2]; intros o NB AL PL [t0 [name0 [ds0 SL]]].
    - inversion SL; subst; easy.
    - assert (o <> answers_as alias name) as NE by congruence.
      apply IH1; auto.
      + intros A. apply AL in A. cbn in A. destruct A; [congruence|auto].
      + intros. apply (PL t name1 ds1). now apply selects_rest.
      + apply selects_cons in SL as [SL|SL]; [|eauto].
        inversion SL as [? ? ? ? ? ? ? J|? ? ? ? ? ? ? ? ? ? J|? ? ? ? ? ? ? ? ? J]; subst; destruct J as [J|[]]; congruence.
    - assert (o <> answers_as alias name) as NE.
      { intros ->. destruct (PL cond name ds) as [P _]; [eapply S_direct; now left|]. congruence. }
      apply IH1; auto.
      + cbn. intuition congruence.
      + intros A. apply AL in A. cbn in A. destruct A; [congruence|auto].
      + intros. apply (PL t name1 ds1). now apply selects_rest.
      + apply selects_cons in SL as [SL|SL]; [|eauto].
        inversion SL as [? ? ? ? ? ? ? J|? ? ? ? ? ? ? ? ? ? J|? ? ? ? ? ? ? ? ? J]; subst; destruct J as [J|[]]; congruence.
    - assert (o <> answers_as alias name) as NE.
      { intros ->. destruct (PL cond name ds) as [_ P]; [eapply S_direct; now left|]. contradiction. }
      apply IH1; auto.
      + cbn. intuition congruence.
      + intros A. apply AL in A. cbn in A. destruct A; [congruence|auto].
      + intros. apply (PL t name1 ds1). now apply selects_rest.
      + apply selects_cons in SL as [SL|SL]; [|eauto].
        inversion SL as [? ? ? ? ? ? ? J|? ? ? ? ? ? ? ? ? ? J|? ? ? ? ? ? ? ? ? J]; subst; destruct J as [J|[]]; congruence.
    - destruct (String.eqb_spec o (answers_as alias "__typename")) as [->|NE].
      { eexists. split; [now left|reflexivity]. }
      apply in_tl, IH1; auto.
      + cbn. intuition congruence.
      + intros A. apply AL in A. cbn in A. destruct A; [congruence|auto].
      + intros. apply (PL t name ds1). now apply selects_rest.
      + apply selects_cons in SL as [SL|SL]; [|eauto].
        inversion SL as [? ? ? ? ? ? ? J|? ? ? ? ? ? ? ? ? ? J|? ? ? ? ? ? ? ? ? J]; subst; destruct J as [J|[]]; congruence.
    - destruct (String.eqb_spec o (answers_as alias name)) as [->|NE].
      { eexists. split; [now left|reflexivity]. }
      apply in_tl, IH2; auto.
      + cbn. intuition congruence.
      + intros A. apply AL in A. cbn in A. destruct A; [congruence|auto].
      + intros. apply (PL t1 name1 ds1). now apply selects_rest.
      + apply selects_cons in SL as [SL|SL]; [|eauto].
        inversion SL as [? ? ? ? ? ? ? J|? ? ? ? ? ? ? ? ? ? J|? ? ? ? ? ? ? ? ? J]; subst; destruct J as [J|[]]; congruence.
    - cbn in AL.
      assert (forall t name ds, Selects frags cond rest t name ds o -> Plannable ix t name ds) as PR.
      { intros. apply (PL t name1 ds1). now apply selects_rest. }
      destruct (smem o all) eqn:A.
      { apply smem_In in A. apply in_right, IH2; auto.
        apply AL, (direct_selects cond) in A as [n1 [d1 A]]. eauto. }
      apply smem_false in A. apply selects_cons in SL as [SL|SL]; [|apply in_right, IH2; eauto].
      apply in_left. apply filter_keeps; [|auto].
      inversion SL as [? ? ? ? ? ? ? J|? ? ? ? on' sel' ? ? ? ? J F' S'|? ? ? ? ? ? ? ? ? J]; subst; destruct J as [J|[]]; try congruence.
      injection J as <- <-. rewrite F in F'. injection F' as <- <-.
      apply IH1; [easy|auto| |eauto].
      intros t n d S. apply (PL t n d). eapply S_spread; eauto. now left.
    - assert (forall t name ds, Selects frags cond rest t name ds o -> Plannable ix t name ds) as PR.
      { intros. apply (PL t name1 ds1). now apply selects_rest. }
      apply IH1; auto. apply selects_cons in SL as [SL|SL]; [|eauto].
      inversion SL as [? ? ? ? ? ? ? J|? ? ? ? on' sel' ? ? ? ? J F' S'|? ? ? ? ? ? ? ? ? J]; subst; destruct J as [J|[]]; congruence.
    - cbn in AL.
      assert (forall t name ds, Selects frags cond rest t name ds o -> Plannable ix t name ds) as PR.
      { intros. apply (PL t name ds1). now apply selects_rest. }
      destruct (smem o all) eqn:A.
      { apply smem_In in A. apply in_right, IH2; auto.
        apply AL, (direct_selects cond) in A as [n1 [d1 A]]. eauto. }
      apply smem_false in A. apply selects_cons in SL as [SL|SL]; [|apply in_right, IH2; eauto].
      apply in_left. apply filter_keeps; [|auto].
      inversion SL as [? ? ? ? ? ? ? J|? ? ? ? on' sel' ? ? ? ? J F' S'|? ? ? ? ? ? ? ? ? J S']; subst; destruct J as [J|[]]; try congruence.
      injection J as <- <- <-.
      apply IH1; [easy|auto| |eauto].
      intros t n d S. apply (PL t n d). eapply S_inline; eauto. now left.
  Qed.

  Lemma planned_selected pf cond before all items fs :
    Expands ix frags pf cond before all items fs ->
    forall f, In f fs -> exists ds, Selects frags cond items (b_cond f) (b_name f) ds (b_output f) /\
                                    Plannable ix (b_cond f) (b_name f) ds.
  Proof.
    induction 1 as [pf cond before all
      |pf cond before all alias name given ds sel rest fs Hin H1 IH1
      |pf cond before all alias name given ds sel rest fs Hin C H1 IH1
      |pf cond before all alias name given ds sel rest fs Hin C U H1 IH1
      |pf cond before all alias given ds sel rest fs Hin C U H1 IH1
      |pf cond before all alias name given ds sel rest fs t r args children Hin C U H1 IH1 H2 IH2
      |pf cond before all name ds rest fs on sel gs F H1 IH1 H2 IH2
      |pf cond before all name ds rest fs F H1 IH1
      |pf cond before all c ds sel rest fs gs H1 IH1 H2 IH2]; intros f I.
    - easy.
    - apply IH1 in I as [d [I J]]. eauto using selects_rest.
    - apply IH1 in I as [d [I J]]. eauto using selects_rest.
    - apply IH1 in I as [d [I J]]. eauto using selects_rest.
    - destruct I as [<-|I]; [|apply IH1 in I as [d [I J]]; eauto using selects_rest].
      exists ds. split; [eapply S_direct; now left|]. split; [auto|]. intros [_ N]. now apply N.
    - destruct I as [<-|I]; [|apply IH2 in I as [d [I J]]; eauto using selects_rest].
      exists ds. split; [eapply S_direct; now left|]. split; [auto|]. intros [N _]. cbn in N.
      inversion U; congruence.
    - apply in_app_or in I as [I|I]; [|apply IH2 in I as [d [I J]]; eauto using selects_rest].
      apply filter_In in I as [I _]. apply IH1 in I as [d [I J]]. exists d. split; [|auto].
      eapply S_spread; eauto. now left.
    - apply IH1 in I as [d [I J]]. eauto using selects_rest.
    - apply in_app_or in I as [I|I]; [|apply IH2 in I as [d [I J]]; eauto using selects_rest].
      apply filter_In in I as [I _]. apply IH1 in I as [d [I J]]. exists d. split; [|auto].
      eapply S_inline; eauto. now left.
  Qed.

  (** *** One field per output name, without fragments *)
  Lemma direct_unique pf cond before all items fs :
    Expands ix frags pf cond before all items fs ->
    (forall it, In it items -> match it with SField _ _ _ _ _ => True | _ => False end) ->
    NoDup (map b_output fs) /\ forall o, In o (map b_output fs) -> ~ In o before.
  Proof.
    induction 1 as [pf cond before all
      |pf cond before all alias name given ds sel rest fs Hin H1 IH1
      |pf cond before all alias name given ds sel rest fs Hin C H1 IH1
      |pf cond before all alias name given ds sel rest fs Hin C U H1 IH1
      |pf cond before all alias given ds sel rest fs Hin C U H1 IH1
      |pf cond before all alias name given ds sel rest fs t r args children Hin C U H1 IH1 H2 IH2
      |pf cond before all name ds rest fs on sel gs F H1 IH1 H2 IH2
      |pf cond before all name ds rest fs F H1 IH1
      |pf cond before all c ds sel rest fs gs H1 IH1 H2 IH2]; intros D.
    - split; [constructor|easy].
    - apply IH1. intros; apply D; now right.
    - destruct IH1 as [N O]; [intros; apply D; now right|]. split; [auto|]. intros o J K. apply (O o J). now right.
    - destruct IH1 as [N O]; [intros; apply D; now right|]. split; [auto|]. intros o J K. apply (O o J). now right.
    - destruct IH1 as [N O]; [intros; apply D; now right|]. cbn. split.
      + constructor; [|auto]. intros J. apply (O _ J). now left.
      + intros o [<-|J]; [auto|]. intros K. apply (O o J). now right.
    - destruct IH2 as [N O]; [intros; apply D; now right|]. cbn. split.
      + constructor; [|auto]. intros J. apply (O _ J). now left.
      + intros o [<-|J]; [auto|]. intros K. apply (O o J). now right.
    - destruct (D _ (or_introl eq_refl)).
    - destruct (D _ (or_introl eq_refl)).
    - destruct (D _ (or_introl eq_refl)).
  Qed.
End Proofs.
