(** Proofs about deduplication (C12). *)
From Coq Require Import Bool Arith Lia List.
From Verif Require Import Base DedupeModel DedupeSpec.
Import ListNotations.
Open Scope list_scope.

Section Facts.
  Context {K V : Type}.
  Variable keq : forall a b : K, {a = b} + {a <> b}.
  Variable persist : bool.
  Notation state := (state (K := K) (V := V)).
  Notation label := (label (K := K) (V := V)).
  Notation step := (step keq persist).
  Notation steps := (steps keq persist).
  Implicit Types (s : state) (ls : list label).

  Definition has_key s i k : Prop := exists p, is s i k p.

  Record Inv ls s : Prop :=
    { i_arr : forall i k, In (Arrive i k) ls <-> has_key s i k;
      i_open : forall i, s_chan s i = Open <-> exists k, is s i k Executing;
      i_born : forall i, s_chan s i <> Closed -> exists k, is s i k Executing \/ exists v, is s i k (Returned v);
      i_exec : forall i k, is s i k Executing -> s_cache s k = Some (Pending i);
      i_pend : forall k j, s_cache s k = Some (Pending j) -> is s j k Executing \/ is s j k Dropped;
      i_wait : forall i k j, is s i k (Awaiting j) -> has_key s j k;
      i_sent : forall j v, s_chan s j = Sent v <-> In (Finish j v) ls;
      i_store : persist = true -> forall k v, s_cache s k = Some (Ready v) <-> Executed ls k v;
      i_none : persist = false -> forall k v, s_cache s k <> Some (Ready v) }.

  Lemma inv_new : Inv [] new.
  Proof.
    constructor; unfold is; cbn; try (intros; discriminate); try (intros; contradiction).
    - intros i k. split; [intros []|intros (p & H); discriminate].
    - intros i. split; [discriminate|intros (k & H); discriminate].
    - intros j v. split; [discriminate|intros []].
    - intros _ k v. split; [discriminate|intros (j & [] & _)].
  Qed.

  Lemma steps_app l1 l2 : forall s, steps s (l1 ++ l2) = match steps s l1 with Some s1 => steps s1 l2 | None => None end.
  Proof. induction l1 as [|l l1 IH]; intros s; cbn; [auto|]. destruct (step s l); auto. Qed.

  Lemma is_fun s i k p k' p' : is s i k p -> is s i k' p' -> k = k' /\ p = p'.
  Proof. unfold is. intros A B. rewrite A in B. injection B as <- <-. auto. Qed.

  Lemma set_call_is i c s j k p : is (set_call i c s) j k p <-> (j = i /\ c = (k, p)) \/ (j <> i /\ is s j k p).
  Proof.
    unfold is. cbn. destruct (Nat.eq_dec j i); split; intros H.
    - left. split; congruence.
    - destruct H as [[_ ->]|[N _]]; congruence.
    - auto.
    - destruct H as [[? _]|[_ H]]; congruence.
  Qed.

  (** A call moving on without touching channels or the table. *)
  Lemma inv_move ls s i k p p' l :
    Inv ls s -> is s i k p -> p <> Executing -> p' <> Executing ->
    (forall v, p <> Returned v) -> p <> Dropped ->
    (forall j, p' = Awaiting j -> has_key s j k) ->
    (forall j k', l <> Arrive j k') -> (forall j v, l <> Finish j v) ->
    Inv (ls ++ [l]) (set_call i (k, p') s).
  Proof.
    intros HI Hp N N' NR ND W LA LF. assert (HI' := HI). destruct HI' as [A O B E P Wt S G Z].
    assert (HK : forall j k', has_key (set_call i (k, p') s) j k' <-> has_key s j k').
    { intros j k'. unfold has_key. split; intros (q & H).
      - apply set_call_is in H as [[-> H]|[_ H]]; [injection H as <- <-|]; eauto.
      - destruct (Nat.eq_dec j i) as [->|Ne].
        + destruct (is_fun _ _ _ _ _ _ Hp H) as [<- <-]. exists p'. apply set_call_is. auto.
        + exists q. apply set_call_is. auto. }
    assert (EX : forall j k', is (set_call i (k, p') s) j k' Executing <-> is s j k' Executing).
    { intros j k'. rewrite set_call_is. split.
      - intros [[_ H]|[_ H]]; [congruence|auto].
      - intros H. right. split; auto. intros ->. destruct (is_fun _ _ _ _ _ _ Hp H). congruence. }
    constructor; cbn [s_cache s_chan set_call].
    - intros j k'. rewrite HK, <- A, in_app_iff. cbn. split; [|auto]. intros [H|[H|[]]]; auto. exfalso. now apply (LA j k').
    - intros j. rewrite O. split; intros (k' & H); exists k'; now apply EX.
    - intros j H. apply B in H as (k' & [H|(v & H)]); exists k'; [left; now apply EX|right; exists v; apply set_call_is; right; split; auto].
      intros ->. destruct (is_fun _ _ _ _ _ _ Hp H). now apply (NR v).
    - intros j k' H. apply EX in H. auto.
    - intros k' j H. apply P in H as [H|H]; [left; now apply EX|right; apply set_call_is; right; split; auto].
      intros ->. destruct (is_fun _ _ _ _ _ _ Hp H). congruence.
    - intros j k' j' H. apply HK. apply set_call_is in H as [[-> H]|[_ H]]; [injection H as <- H; auto|eauto].
    - intros j v. rewrite S, in_app_iff. cbn. split; [auto|]. intros [H|[H|[]]]; auto. exfalso. now apply (LF j v).
    - intros Pt k' v. rewrite (G Pt). unfold Executed. split; intros (j & H1 & H2); exists j; rewrite ?in_app_iff in *; cbn in *; auto.
      split; [destruct H1 as [|[|[]]]; auto; exfalso; now apply (LA j k')|
              destruct H2 as [|[|[]]]; auto; exfalso; now apply (LF j v)].
    - exact Z.
  Qed.

  Lemma inv_init ls s i k l :
    Inv ls s -> is s i k Trying -> (forall j, s_cache s k = Some (Pending j) -> s_chan s j <> Open) ->
    (forall v, s_cache s k <> Some (Ready v)) ->
    (forall j k', l <> Arrive j k') -> (forall j v, l <> Finish j v) ->
    Inv (ls ++ [l]) (init keq i k s).
  Proof.
    intros HI Hp NO NRd LA LF. assert (HI' := HI). destruct HI' as [A O B E P Wt S G Z]. unfold init.
    assert (IS : forall j k' p, is (set_call i (k, Executing) (set_chan i Open (set_entry keq k (Some (Pending i)) s))) j k' p <->
                 (j = i /\ (k, @Executing V) = (k', p)) \/ (j <> i /\ is s j k' p)).
    { intros j k' p. rewrite set_call_is. reflexivity. }
    assert (HK : forall j k', has_key (set_call i (k, Executing) (set_chan i Open (set_entry keq k (Some (Pending i)) s))) j k' <-> has_key s j k').
    { intros j k'. unfold has_key. split; intros (q & H).
      - apply IS in H as [[-> H]|[_ H]]; [injection H as <- <-|]; eauto.
      - destruct (Nat.eq_dec j i) as [->|Ne].
        + destruct (is_fun _ _ _ _ _ _ Hp H) as [<- <-]. eexists. apply IS. auto.
        + exists q. apply IS. auto. }
    assert (CI : s_chan s i = Closed).
    { destruct (s_chan s i) eqn:C; auto; exfalso.
      - destruct (B i) as (k' & [H|(v & H)]); [congruence| |]; destruct (is_fun _ _ _ _ _ _ Hp H); discriminate.
      - destruct (B i) as (k' & [H|(v' & H)]); [congruence| |]; destruct (is_fun _ _ _ _ _ _ Hp H); discriminate. }
    assert (NX : forall j, ~ is s j k Executing).
    { intros j H. eapply NO; [apply E, H|]. apply O. eauto. }
    constructor; cbn [s_cache s_chan set_call set_chan set_entry].
    - intros j k'. rewrite HK, <- A, in_app_iff. cbn. split; [|auto]. intros [H|[H|[]]]; auto. exfalso. now apply (LA j k').
    - intros j. destruct (Nat.eq_dec j i) as [->|Ne].
      + split; [intros _; exists k; apply IS; auto|auto].
      + rewrite O. split; intros (k' & H); exists k'; [apply IS; auto|]. apply IS in H as [[? _]|[_ H]]; [congruence|auto].
    - intros j H. destruct (Nat.eq_dec j i) as [->|Ne]; [exists k; left; apply IS; auto|].
      apply B in H as (k' & [H|(v & H)]); exists k'; [left|right; exists v]; apply IS; auto.
    - intros j k' H. apply IS in H as [[-> H]|[Ne H]].
      + injection H as <-. destruct (keq k k); congruence.
      + destruct (keq k' k) as [->|]; [exfalso; now apply (NX j)|auto].
    - intros k' j H. destruct (keq k' k) as [->|Ne].
      + injection H as <-. left. apply IS. auto.
      + apply P in H as [H|H]; [left|right]; apply IS; right; split; auto; intros ->;
          destruct (is_fun _ _ _ _ _ _ Hp H); congruence.
    - intros j k' j' H. apply HK. apply IS in H as [[-> H]|[_ H]]; [discriminate|eauto].
    - intros j v. destruct (Nat.eq_dec j i) as [->|Ne].
      + split; [discriminate|]. rewrite in_app_iff. intros [H|[H|[]]]; [apply S in H; congruence|exfalso; now apply (LF i v)].
      + rewrite S, in_app_iff. cbn. split; [auto|]. intros [H|[H|[]]]; auto. exfalso. now apply (LF j v).
    - intros Pt k' v. assert (EE : Executed (ls ++ [l]) k' v <-> Executed ls k' v).
      { unfold Executed. split; intros (j & H1 & H2); exists j; rewrite ?in_app_iff in *; cbn in *; auto.
        split; [destruct H1 as [|[|[]]]; auto; exfalso; now apply (LA j k')|
              destruct H2 as [|[|[]]]; auto; exfalso; now apply (LF j v)]. }
      rewrite EE, <- (G Pt). destruct (keq k' k) as [->|]; [|reflexivity].
      split; [discriminate|]. intros H. exfalso. now apply (NRd v).
    - intros Pf k' v. destruct (keq k' k); [discriminate|now apply Z].
  Qed.

  Lemma inv_step ls s l s' : Inv ls s -> step s l = Some s' -> Inv (ls ++ [l]) s'.
  Proof.
    intros HI H. destruct l as [i k|i|i|i v|i]; cbn in H.
    - destruct (s_calls s i) eqn:C; [discriminate|]. injection H as <-.
      assert (Ni : forall k p, ~ is s i k p) by (unfold is; congruence).
      destruct HI as [A O B E P Wt S G Z].
      assert (KP : forall j k' p, is s j k' p -> is (set_call i (k, Trying) s) j k' p).
      { intros j k' p H. apply set_call_is. right. split; auto. intros ->. now apply Ni in H. }
      constructor; cbn [s_cache s_chan set_call].
      + intros j k'. rewrite in_app_iff, A. cbn. unfold has_key. split.
        * intros [(p & H)|[H|[]]]; [eauto|]. injection H as <- <-. exists Trying. apply set_call_is. auto.
        * intros (p & H). apply set_call_is in H as [[-> H]|[_ H]]; [injection H as <- <-; auto|eauto].
      + intros j. rewrite O. split; intros (k' & H); exists k'; auto. apply set_call_is in H as [[_ H]|[_ H]]; [discriminate|auto].
      + intros j H. apply B in H as (k' & [H|(v & H)]); exists k'; eauto.
      + intros j k' H. apply set_call_is in H as [[_ H]|[_ H]]; [discriminate|auto].
      + intros k' j H. apply P in H as [H|H]; auto.
      + intros j k' j' H. apply set_call_is in H as [[_ H]|[_ H]]; [discriminate|]. apply Wt in H as (p & H). exists p. auto.
      + intros j v. rewrite S, in_app_iff. cbn. split; [auto|]. intros [H|[H|[]]]; auto. discriminate.
      + intros Pt k' v. rewrite (G Pt). unfold Executed. split; intros (j & H1 & H2); exists j; rewrite ?in_app_iff in *; cbn in *; auto.
        destruct H2 as [H2|[H2|[]]]; [|discriminate]. split; auto. destruct H1 as [H1|[H1|[]]]; auto.
        injection H1 as -> ->. apply S in H2. assert (s_chan s j <> Closed) by congruence.
        apply B in H as (k1 & [H|(v1 & H)]); now apply Ni in H.
      + exact Z.
    - destruct (s_calls s i) as [[k p]|] eqn:C; [|discriminate]. destruct p; try discriminate. injection H as <-.
      assert (Hp : is s i k Trying) by exact C. unfold run_step.
      destruct (s_cache s k) as [[v|j]|] eqn:Ck.
      + apply (inv_move ls s i k Trying); auto; try discriminate.
      + assert (D := i_pend ls s HI k j Ck). destruct (s_chan s j) eqn:Cj.
        * apply (inv_move ls s i k Trying); auto; try discriminate. intros j' E. injection E as <-.
          destruct D as [D|D]; eexists; exact D.
        * apply inv_init; auto; try congruence; try discriminate.
        * apply inv_init; auto; try congruence; try discriminate.
      + apply inv_init; auto; try congruence; try discriminate.
    - destruct (s_calls s i) as [[k p]|] eqn:C; [|discriminate]. destruct p as [|j| | |]; try discriminate.
      assert (Hp : is s i k (Awaiting j)) by exact C.
      destruct (s_chan s j); [discriminate| |]; injection H as <-; apply (inv_move ls s i k (Awaiting j)); auto; discriminate.
    - destruct (s_calls s i) as [[k p]|] eqn:C; [|discriminate]. destruct p; try discriminate. injection H as <-.
      assert (Hp : is s i k Executing) by exact C.
      assert (HI' := HI). destruct HI' as [A O B E P Wt S G Z].
      set (s1 := set_chan i (Sent v) (set_entry keq k (if persist then Some (Ready v) else None) s)).
      assert (IS : forall j k' p, is (set_call i (k, Returned v) s1) j k' p <->
                 (j = i /\ (k, Returned v) = (k', p)) \/ (j <> i /\ is s j k' p)).
      { intros j k' p. rewrite set_call_is. reflexivity. }
      assert (HK : forall j k', has_key (set_call i (k, Returned v) s1) j k' <-> has_key s j k').
      { intros j k'. unfold has_key. split; intros (q & H).
        - apply IS in H as [[-> H]|[_ H]]; [injection H as <- <-|]; eauto.
        - destruct (Nat.eq_dec j i) as [->|Ne].
          + destruct (is_fun _ _ _ _ _ _ Hp H) as [<- <-]. eexists. apply IS. auto.
          + exists q. apply IS. auto. }
      assert (Ui : forall j, is s j k Executing -> j = i).
      { intros j H. apply E in H. rewrite (E i k Hp) in H. congruence. }
      assert (Ci : s_chan s i = Open) by (apply O; eauto).
      constructor; cbn [s_cache s_chan set_call set_chan set_entry s1].
      + intros j k'. rewrite HK, <- A, in_app_iff. cbn. split; [|auto]. intros [H|[H|[]]]; auto. discriminate.
      + intros j. destruct (Nat.eq_dec j i) as [->|Ne].
        * split; [discriminate|]. intros (k' & H). apply IS in H as [[_ H]|[H _]]; congruence.
        * rewrite O. split; intros (k' & H); exists k'; [apply IS; auto|]. apply IS in H as [[? _]|[_ H]]; [congruence|auto].
      + intros j H. destruct (Nat.eq_dec j i) as [->|Ne]; [exists k; right; exists v; apply IS; auto|].
        apply B in H as (k' & [H|(w & H)]); exists k'; [left|right; exists w]; apply IS; auto.
      + intros j k' H. apply IS in H as [[_ H]|[Ne H]]; [discriminate|].
        destruct (keq k' k) as [->|]; [exfalso; apply Ne; now apply Ui|auto].
      + intros k' j H. destruct (keq k' k) as [->|Ne]; [destruct persist; discriminate|].
        apply P in H as [H|H]; [left|right]; apply IS; right; split; auto; intros ->;
          destruct (is_fun _ _ _ _ _ _ Hp H); congruence.
      + intros j k' j' H. apply HK. apply IS in H as [[_ H]|[_ H]]; [discriminate|eauto].
      + intros j w. rewrite in_app_iff. cbn. destruct (Nat.eq_dec j i) as [->|Ne].
        * split; [intros H; injection H as <-; auto|]. intros [H|[H|[]]]; [apply S in H; congruence|congruence].
        * rewrite S. split; [auto|]. intros [H|[H|[]]]; auto. congruence.
      + intros Pt k' w. assert (EE : Executed (ls ++ [Finish i v]) k' w <-> Executed ls k' w \/ (k' = k /\ w = v)).
        { unfold Executed. split.
          - intros (j & H1 & H2). rewrite in_app_iff in *. cbn in *. destruct H1 as [H1|[H1|[]]]; [|discriminate].
            destruct H2 as [H2|[H2|[]]]; [left; eauto|]. injection H2 as <- <-. right. split; auto.
            apply A in H1 as (p & H1). now destruct (is_fun _ _ _ _ _ _ Hp H1).
          - intros [(j & H1 & H2)|[-> ->]]; [exists j; rewrite !in_app_iff; auto|].
            exists i. rewrite !in_app_iff. cbn. split; auto. left. apply A. eexists. exact Hp. }
        rewrite EE, <- (G Pt), Pt. destruct (keq k' k) as [->|Ne].
        * rewrite (E i k Hp). split; [intros H; injection H as <-; auto|]. intros [H|[_ ->]]; [discriminate|auto].
        * split; [auto|]. intros [H|[H _]]; [auto|congruence].
      + intros Pf k' w. rewrite Pf. destruct (keq k' k); [discriminate|now apply Z].
    - destruct (s_calls s i) as [[k p]|] eqn:C; [|discriminate]. destruct p as [|j| | |]; try discriminate; injection H as <-.
      + apply (inv_move ls s i k Trying); auto; discriminate.
      + apply (inv_move ls s i k (Awaiting j)); auto; discriminate.
      + assert (Hp : is s i k Executing) by exact C.
        assert (HI' := HI). destruct HI' as [A O B E P Wt S G Z].
        set (s1 := set_chan i Closed s).
        assert (IS : forall j k' p, is (set_call i (k, Dropped) s1) j k' p <->
                   (j = i /\ (k, @Dropped V) = (k', p)) \/ (j <> i /\ is s j k' p)).
        { intros j k' p. rewrite set_call_is. reflexivity. }
        assert (HK : forall j k', has_key (set_call i (k, Dropped) s1) j k' <-> has_key s j k').
        { intros j k'. unfold has_key. split; intros (q & H).
          - apply IS in H as [[-> H]|[_ H]]; [injection H as <- <-|]; eauto.
          - destruct (Nat.eq_dec j i) as [->|Ne].
            + destruct (is_fun _ _ _ _ _ _ Hp H) as [<- <-]. eexists. apply IS. auto.
            + exists q. apply IS. auto. }
        assert (Ci : s_chan s i = Open) by (apply O; eauto).
        constructor; cbn [s_cache s_chan set_call set_chan s1].
        * intros j k'. rewrite HK, <- A, in_app_iff. cbn. split; [|auto]. intros [H|[H|[]]]; auto. discriminate.
        * intros j. destruct (Nat.eq_dec j i) as [->|Ne].
          -- split; [discriminate|]. intros (k' & H). apply IS in H as [[_ H]|[H _]]; congruence.
          -- rewrite O. split; intros (k' & H); exists k'; [apply IS; auto|]. apply IS in H as [[? _]|[_ H]]; [congruence|auto].
        * intros j H. destruct (Nat.eq_dec j i) as [->|Ne]; [congruence|].
          apply B in H as (k' & [H|(w & H)]); exists k'; [left|right; exists w]; apply IS; auto.
        * intros j k' H. apply IS in H as [[_ H]|[Ne H]]; [discriminate|auto].
        * intros k' j H. apply P in H as [H|H].
          -- destruct (Nat.eq_dec j i) as [->|Ne]; [right|left]; apply IS; auto.
             left. destruct (is_fun _ _ _ _ _ _ Hp H) as [<- _]. auto.
          -- right. apply IS. right. split; auto. intros ->. destruct (is_fun _ _ _ _ _ _ Hp H). discriminate.
        * intros j k' j' H. apply HK. apply IS in H as [[_ H]|[_ H]]; [discriminate|eauto].
        * intros j w. rewrite in_app_iff. cbn. destruct (Nat.eq_dec j i) as [->|Ne].
          -- split; [discriminate|]. intros [H|[H|[]]]; [apply S in H; congruence|congruence].
          -- rewrite S. split; [auto|]. intros [H|[H|[]]]; auto. congruence.
        * intros Pt k' w. rewrite (G Pt). unfold Executed. split; intros (j & H1 & H2); exists j; rewrite ?in_app_iff in *; cbn in *; auto.
          destruct H1 as [H1|[H1|[]]]; [|discriminate]. destruct H2 as [H2|[H2|[]]]; [auto|discriminate].
        * exact Z.
  Qed.

  Lemma reach ls : forall s, steps new ls = Some s -> Inv ls s.
  Proof.
    induction ls as [|l ls IH] using rev_ind; intros s H.
    - injection H as <-. apply inv_new.
    - rewrite steps_app in H. destruct (steps new ls) as [s0|] eqn:E; [|discriminate]. cbn [DedupeModel.steps] in H.
      destruct (step s0 l) eqn:E1; [|discriminate]. injection H as <-. eapply inv_step; eauto.
  Qed.

  (** *** What [step] does, in terms of the history *)
  Lemma one_executes ls s i j k : steps new ls = Some s -> is s i k Executing -> is s j k Executing -> i = j.
  Proof. intros H A B. apply reach in H. apply (i_exec ls s H) in A, B. congruence. Qed.

  Lemma key_arrived ls s i k p : steps new ls = Some s -> is s i k p -> In (Arrive i k) ls.
  Proof. intros H A. apply reach in H. apply (i_arr ls s H). eexists. exact A. Qed.

  Lemma step_joins ls s i j k : steps new ls = Some s -> is s i k Trying -> is s j k Executing ->
    exists s', step s (Step i) = Some s' /\ is s' i k (Awaiting j) /\
      forall i', i' <> i -> s_calls s' i' = s_calls s i'.
  Proof.
    intros H A B. apply reach in H. assert (Cj := i_exec ls s H j k B).
    assert (Oj : s_chan s j = Open) by (apply (i_open ls s H); eauto).
    cbn. unfold is in A. rewrite A. eexists. split; [reflexivity|]. unfold run_step. rewrite Cj, Oj.
    split; [apply set_call_is; auto|]. intros i' N. cbn. destruct (Nat.eq_dec i' i); congruence.
  Qed.

  Lemma step_stored ls s i k v : steps new ls = Some s -> is s i k Trying -> persist = true -> Executed ls k v ->
    exists s', step s (Step i) = Some s' /\ is s' i k (Returned v) /\
      forall i', i' <> i -> s_calls s' i' = s_calls s i'.
  Proof.
    intros H A Pt X. apply reach in H. apply (i_store ls s H Pt) in X.
    cbn. unfold is in A. rewrite A. eexists. split; [reflexivity|]. unfold run_step. rewrite X.
    split; [apply set_call_is; auto|]. intros i' N. cbn. destruct (Nat.eq_dec i' i); congruence.
  Qed.

  Lemma step_executes ls s i k : steps new ls = Some s -> is s i k Trying ->
    (forall j, ~ is s j k Executing) -> (persist = true -> forall v, ~ Executed ls k v) ->
    exists s', step s (Step i) = Some s' /\ is s' i k Executing /\
      forall i', i' <> i -> s_calls s' i' = s_calls s i'.
  Proof.
    intros H A N X. apply reach in H.
    assert (R : run_step keq i k s = init keq i k s).
    { unfold run_step. destruct (s_cache s k) as [[v|j]|] eqn:Ck; auto.
      - exfalso. destruct persist eqn:P; [apply (X eq_refl v); now apply (i_store ls s H P)|].
        eapply (i_none ls s H P); eauto.
      - destruct (s_chan s j) eqn:Cj; auto. exfalso.
        destruct (i_pend ls s H k j Ck) as [E|E]; [now apply (N j)|].
        apply (i_open ls s H) in Cj as (k' & Cj). destruct (is_fun _ _ _ _ _ _ E Cj). discriminate. }
    cbn. unfold is in A. rewrite A. eexists. split; [reflexivity|]. rewrite R. split; [apply set_call_is; auto|].
    intros i' Ne. cbn. destruct (Nat.eq_dec i' i); congruence.
  Qed.

  (** *** Waiting *)
  Lemma awaited ls s i j k : steps new ls = Some s -> is s i k (Awaiting j) ->
    match s_chan s j with
    | Open => is s j k Executing
    | Sent v => In (Finish j v) ls
    | Closed => True
    end.
  Proof.
    intros H A. apply reach in H. destruct (s_chan s j) eqn:C; auto.
    - destruct (i_wait ls s H i k j A) as (p & W). apply (i_open ls s H) in C as (k' & C).
      destruct (is_fun _ _ _ _ _ _ W C) as [-> _]. exact C.
    - now apply (i_sent ls s H).
  Qed.

  (** While the awaited call executes, the waiting one can only wait or be dropped;
      when it finishes with [v] the other gets [v]; when it is dropped the other
      tries again. *)
  Lemma receive_value ls s i j k v : steps new ls = Some s -> is s i k (Awaiting j) -> In (Finish j v) ls ->
    exists s', step s (Receive i) = Some s' /\ is s' i k (Returned v).
  Proof.
    intros H A F. apply reach in H. apply (i_sent ls s H) in F. cbn. unfold is in A. rewrite A, F.
    eexists. split; [reflexivity|]. apply set_call_is; auto.
  Qed.

  Lemma receive_retry ls s i j k : steps new ls = Some s -> is s i k (Awaiting j) -> is s j k Dropped ->
    exists s', step s (Receive i) = Some s' /\ is s' i k Trying.
  Proof.
    intros H A D. apply reach in H. assert (C : s_chan s j = Closed).
    { destruct (s_chan s j) eqn:C; auto; exfalso;
        (destruct (i_born ls s H j) as (k' & [E|(v0 & E)]); [congruence| |]; destruct (is_fun _ _ _ _ _ _ D E); discriminate). }
    cbn. unfold is in A. rewrite A, C. eexists. split; [reflexivity|]. apply set_call_is; auto.
  Qed.

  (** Who is awaited has started to execute. *)
  Record Inv2 s : Prop := { i2 : forall i k j, is s i k (Awaiting j) ->
      is s j k Executing \/ is s j k Dropped \/ exists v, is s j k (Returned v) /\ s_chan s j = Sent v }.

  Lemma is_kept s l s' j k p : step s l = Some s' -> is s j k p ->
    (p = Dropped \/ exists v, p = Returned v) -> is s' j k p.
  Proof.
    intros H A D. unfold is in *. destruct l as [i k'|i|i|i v|i]; cbn in H.
    - destruct (s_calls s i) eqn:C; [discriminate|]. injection H as <-. cbn. destruct (Nat.eq_dec j i); congruence.
    - destruct (s_calls s i) as [[k' q]|] eqn:C; [|discriminate]. destruct q; try discriminate. injection H as <-.
      assert (j <> i). { intros ->. rewrite A in C. injection C as -> ->. destruct D as [|[w0 D]]; discriminate. }
      unfold run_step. destruct (s_cache s k') as [[v|j']|]; [|destruct (s_chan s j')|]; cbn; destruct (Nat.eq_dec j i); congruence.
    - destruct (s_calls s i) as [[k' q]|] eqn:C; [|discriminate]. destruct q as [|j'| | |]; try discriminate.
      assert (j <> i). { intros ->. rewrite A in C. injection C as -> ->. destruct D as [|[w0 D]]; discriminate. }
      destruct (s_chan s j'); [discriminate| |]; injection H as <-; cbn; destruct (Nat.eq_dec j i); congruence.
    - destruct (s_calls s i) as [[k' q]|] eqn:C; [|discriminate]. destruct q; try discriminate.
      assert (j <> i). { intros ->. rewrite A in C. injection C as -> ->. destruct D as [|[w D]]; discriminate. }
      injection H as <-; cbn; destruct (Nat.eq_dec j i); congruence.
    - destruct (s_calls s i) as [[k' q]|] eqn:C; [|discriminate].
      destruct q as [|j'| | |]; try discriminate;
        (assert (j <> i); [intros ->; rewrite A in C; injection C as -> ->; destruct D as [|[w D]]; discriminate|]);
      injection H as <-; cbn; destruct (Nat.eq_dec j i); congruence.
  Qed.

  Lemma chan_kept s l s' ls j v : Inv ls s -> step s l = Some s' -> s_chan s j = Sent v -> s_chan s' j = Sent v.
  Proof.
    intros HI H C. apply (i_sent ls s HI) in C. apply (i_sent _ _ (inv_step ls s l s' HI H)). apply in_app_iff. auto.
  Qed.

  Lemma exec_next ls s l s' j k : Inv ls s -> step s l = Some s' -> is s j k Executing ->
    is s' j k Executing \/ is s' j k Dropped \/ exists v, is s' j k (Returned v) /\ s_chan s' j = Sent v.
  Proof.
    intros HI H A. unfold is in *. destruct l as [i k'|i|i|i v|i]; cbn in H.
    - destruct (s_calls s i) eqn:C; [discriminate|]. injection H as <-. cbn. destruct (Nat.eq_dec j i); [congruence|auto].
    - destruct (s_calls s i) as [[k' q]|] eqn:C; [|discriminate]. destruct q; try discriminate. injection H as <-.
      assert (j <> i) by congruence.
      left. unfold run_step. destruct (s_cache s k') as [[v|j']|]; [|destruct (s_chan s j')|]; cbn; destruct (Nat.eq_dec j i); congruence.
    - destruct (s_calls s i) as [[k' q]|] eqn:C; [|discriminate]. destruct q as [|j'| | |]; try discriminate.
      assert (j <> i) by congruence.
      left. destruct (s_chan s j'); [discriminate| |]; injection H as <-; cbn; destruct (Nat.eq_dec j i); congruence.
    - destruct (s_calls s i) as [[k' q]|] eqn:C; [|discriminate]. destruct q; try discriminate.
      injection H as <-; cbn; destruct (Nat.eq_dec j i) as [->|]; [|auto].
      rewrite A in C. injection C as <-. right. right. eauto.
    - destruct (s_calls s i) as [[k' q]|] eqn:C; [|discriminate].
      destruct (Nat.eq_dec j i) as [->|N].
      + rewrite A in C. injection C as <- <-. injection H as <-. cbn. destruct (Nat.eq_dec i i); [auto|congruence].
      + left. destruct q; try discriminate; injection H as <-; cbn; destruct (Nat.eq_dec j i); congruence.
  Qed.

  Lemma reach2 ls : forall s, steps new ls = Some s -> Inv2 s.
  Proof.
    induction ls as [|l ls IH] using rev_ind; intros s H.
    - injection H as <-. constructor. unfold is. cbn. discriminate.
    - rewrite steps_app in H. destruct (steps new ls) as [s0|] eqn:E; [|discriminate]. cbn [DedupeModel.steps] in H.
      destruct (step s0 l) as [s1|] eqn:E1; [|discriminate]. injection H as <-.
      assert (HI := reach ls s0 E). specialize (IH s0 eq_refl). destruct IH as [IH].
      constructor. intros i k j W.
      assert (X : is s0 i k (Awaiting j) \/ is s0 j k Executing).
      { unfold is in *. destruct l as [i' k'|i'|i'|i' v|i']; cbn in E1.
        - destruct (s_calls s0 i') eqn:C; [discriminate|]. injection E1 as <-. cbn in W. destruct (Nat.eq_dec i i'); [congruence|auto].
        - destruct (s_calls s0 i') as [[k' q]|] eqn:C; [|discriminate]. destruct q; try discriminate. injection E1 as <-.
          revert W. unfold run_step. destruct (s_cache s0 k') as [[v|j']|] eqn:Ck.
          + cbn. destruct (Nat.eq_dec i i'); [congruence|auto].
          + destruct (s_chan s0 j') eqn:Cj; cbn; destruct (Nat.eq_dec i i'); try congruence; auto.
            intros W. injection W as -> ->. right. apply (i_open ls s0 HI) in Cj as (k1 & Cj).
            destruct (i_pend ls s0 HI k j Ck) as [P|P]; [exact P|]. destruct (is_fun _ _ _ _ _ _ P Cj). discriminate.
          + cbn. destruct (Nat.eq_dec i i'); [congruence|auto].
        - destruct (s_calls s0 i') as [[k' q]|] eqn:C; [|discriminate]. destruct q as [|j'| | |]; try discriminate.
          destruct (s_chan s0 j'); [discriminate| |]; injection E1 as <-; cbn in W; (destruct (Nat.eq_dec i i'); [congruence|auto]).
        - destruct (s_calls s0 i') as [[k' q]|] eqn:C; [|discriminate]. destruct q; try discriminate.
          injection E1 as <-; cbn in W; destruct (Nat.eq_dec i i'); [congruence|auto].
        - destruct (s_calls s0 i') as [[k' q]|] eqn:C; [|discriminate].
          destruct q; try discriminate; injection E1 as <-; cbn in W; (destruct (Nat.eq_dec i i'); [congruence|auto]). }
      assert (Y : is s0 j k Executing \/ is s0 j k Dropped \/ exists v, is s0 j k (Returned v) /\ s_chan s0 j = Sent v).
      { destruct X as [X|X]; [eauto|auto]. }
      destruct Y as [Y|[Y|(v & Y & Z)]].
      + eapply exec_next; eauto.
      + right. left. eapply is_kept; eauto.
      + right. right. exists v. split; [eapply is_kept; eauto|eapply chan_kept; eauto].
  Qed.

  (** If no call can move and none executes, every call has returned or was dropped. *)
  Lemma nobody_stuck ls s i k p : steps new ls = Some s -> is s i k p ->
    (forall j, step s (Step j) = None) -> (forall j, step s (Receive j) = None) ->
    (forall j k', ~ is s j k' Executing) ->
    p = Dropped \/ exists v, p = Returned v.
  Proof.
    intros H A Q1 Q2 Q3. destruct p as [|j| |v|]; eauto; exfalso.
    - specialize (Q1 i). cbn in Q1. unfold is in A. rewrite A in Q1. discriminate.
    - assert (W := awaited ls s i j k H A). specialize (Q2 i). cbn in Q2. unfold is in A. rewrite A in Q2.
      destruct (s_chan s j); try discriminate. now apply (Q3 j k).
    - now apply (Q3 i k).
  Qed.

  Lemma await_next ls s l s' i j k : steps new ls = Some s -> step s l = Some s' -> is s i k (Awaiting j) ->
    is s' i k (Awaiting j) \/ is s' i k Dropped \/
    (exists v, is s' i k (Returned v) /\ s_chan s' j = Sent v) \/ is s' j k Dropped.
  Proof.
    intros R H A. assert (HI := reach ls s R). assert (HI' := inv_step ls s l s' HI H).
    destruct (i2 s (reach2 ls s R) i k j A) as [X|[X|(v & X & C)]].
    2: { right. right. right. eapply is_kept; eauto. }
    - assert (Oj : s_chan s j = Open) by (apply (i_open ls s HI); eauto).
      unfold is in *. destruct l as [i' k'|i'|i'|i' v'|i']; cbn in H.
      + destruct (s_calls s i') eqn:C; [discriminate|]. injection H as <-. cbn. destruct (Nat.eq_dec i i'); [congruence|auto].
      + destruct (s_calls s i') as [[k' q]|] eqn:C; [|discriminate]. destruct q; try discriminate. injection H as <-.
        left. unfold run_step. destruct (s_cache s k') as [[v|j']|]; [|destruct (s_chan s j')|]; cbn; destruct (Nat.eq_dec i i'); congruence.
      + destruct (s_calls s i') as [[k' q]|] eqn:C; [|discriminate]. destruct q as [|j'| | |]; try discriminate.
        left. destruct (s_chan s j') eqn:Cj; [discriminate| |]; injection H as <-; cbn; destruct (Nat.eq_dec i i'); congruence.
      + destruct (s_calls s i') as [[k' q]|] eqn:C; [|discriminate]. destruct q; try discriminate. injection H as <-.
        left. cbn. destruct (Nat.eq_dec i i'); congruence.
      + destruct (s_calls s i') as [[k' q]|] eqn:C; [|discriminate].
        destruct (Nat.eq_dec i i') as [<-|N].
        * right. left. rewrite A in C. injection C as <- <-. injection H as <-. cbn. destruct (Nat.eq_dec i i); congruence.
        * left. destruct q; try discriminate; injection H as <-; cbn; destruct (Nat.eq_dec i i'); congruence.
    - unfold is in *. destruct l as [i' k'|i'|i'|i' v'|i']; cbn in H.
      + destruct (s_calls s i') eqn:C'; [discriminate|]. injection H as <-. cbn. destruct (Nat.eq_dec i i'); [congruence|auto].
      + destruct (s_calls s i') as [[k' q]|] eqn:C'; [|discriminate]. destruct q; try discriminate. injection H as <-.
        left. unfold run_step. destruct (s_cache s k') as [[w|j']|]; [|destruct (s_chan s j')|]; cbn; destruct (Nat.eq_dec i i'); congruence.
      + destruct (s_calls s i') as [[k' q]|] eqn:C'; [|discriminate]. destruct q as [|j'| | |]; try discriminate.
        destruct (Nat.eq_dec i i') as [<-|N].
        * rewrite A in C'. injection C' as <- <-. rewrite C in H. injection H as <-. right. right. left. exists v. cbn.
          destruct (Nat.eq_dec i i); [auto|congruence].
        * left. destruct (s_chan s j') eqn:Cj; [discriminate| |]; injection H as <-; cbn; destruct (Nat.eq_dec i i'); congruence.
      + destruct (s_calls s i') as [[k' q]|] eqn:C'; [|discriminate]. destruct q; try discriminate. injection H as <-.
        left. cbn. destruct (Nat.eq_dec i i'); congruence.
      + destruct (s_calls s i') as [[k' q]|] eqn:C'; [|discriminate].
        destruct (Nat.eq_dec i i') as [<-|N].
        * right. left. rewrite A in C'. injection C' as <- <-. injection H as <-. cbn. destruct (Nat.eq_dec i i); congruence.
        * left. destruct q; try discriminate; injection H as <-; cbn; destruct (Nat.eq_dec i i'); congruence.
  Qed.

  Lemma joined l1 s1 i j k : steps new l1 = Some s1 -> is s1 i k (Awaiting j) ->
    forall l2 s2 v, steps s1 l2 = Some s2 -> In (Finish j v) (l1 ++ l2) ->
    is s2 i k (Awaiting j) \/ is s2 i k Dropped \/ is s2 i k (Returned v).
  Proof.
    intros R A l2 s2 v H F.
    assert (R2 : steps new (l1 ++ l2) = Some s2) by (rewrite steps_app, R; exact H).
    assert (HI2 := reach _ _ R2). apply (i_sent _ _ HI2) in F.
    assert (G : is s2 i k (Awaiting j) \/ is s2 i k Dropped \/
                (exists v, is s2 i k (Returned v) /\ s_chan s2 j = Sent v) \/ is s2 j k Dropped).
    { clear F HI2 R2. revert s2 H. induction l2 as [|l l2 IH] using rev_ind; intros s2 H.
      - injection H as <-. auto.
      - rewrite steps_app in H. destruct (steps s1 l2) as [s3|] eqn:E3; [|discriminate]. cbn [DedupeModel.steps] in H.
        destruct (step s3 l) as [s4|] eqn:E4; [|discriminate]. injection H as <-.
        assert (R3 : steps new (l1 ++ l2) = Some s3) by (rewrite steps_app, R; exact E3).
        destruct (IH s3 eq_refl) as [X|[X|[(w & X & Y)|X]]].
        + eapply await_next; eauto.
        + right. left. eapply is_kept; eauto.
        + right. right. left. exists w. split; [eapply is_kept; eauto|eapply chan_kept; [apply (reach _ _ R3)|eauto|auto]].
        + right. right. right. eapply is_kept; eauto. }
    destruct G as [G|[G|[(w & G & C)|G]]]; auto.
    - right. right. replace v with w by congruence. exact G.
    - exfalso. destruct (i_born _ _ HI2 j) as (k' & [E|(w & E)]); [congruence| |]; destruct (is_fun _ _ _ _ _ _ G E); discriminate.
  Qed.

  (** *** Where results come from *)
  Lemma results ls : forall s i k v, steps new ls = Some s -> is s i k (Returned v) ->
    In (Finish i v) ls \/
    (exists l1 j l2 s1, ls = l1 ++ Finish j v :: l2 /\ steps new l1 = Some s1 /\
       is s1 j k Executing /\ is s1 i k (Awaiting j)) \/
    (persist = true /\ Executed ls k v).
  Proof.
    induction ls as [|l ls IH] using rev_ind; intros s i k v H A.
    - injection H as <-. discriminate.
    - rewrite steps_app in H. destruct (steps new ls) as [s0|] eqn:E; [|discriminate]. cbn [DedupeModel.steps] in H.
      destruct (step s0 l) as [s1|] eqn:E1; [|discriminate]. injection H as <-.
      assert (HI := reach ls s0 E).
      assert (Keep : is s0 i k (Returned v) ->
        In (Finish i v) (ls ++ [l]) \/
        (exists l1 j l2 s1, ls ++ [l] = l1 ++ Finish j v :: l2 /\ steps new l1 = Some s1 /\
           is s1 j k Executing /\ is s1 i k (Awaiting j)) \/
        (persist = true /\ Executed (ls ++ [l]) k v)).
      { intros B. destruct (IH s0 i k v eq_refl B) as [X|[(l1 & j & l2 & s2 & -> & X)|[X Y]]].
        - left. apply in_app_iff. auto.
        - right. left. exists l1, j, (l2 ++ [l]), s2. split; [|exact X]. now rewrite <- app_assoc.
        - right. right. split; auto. destruct Y as (j & Y1 & Y2). exists j. rewrite !in_app_iff. auto. }
      unfold is in A. destruct l as [i' k'|i'|i'|i' v'|i']; cbn in E1.
      + destruct (s_calls s0 i') eqn:C; [discriminate|]. injection E1 as <-. cbn in A. destruct (Nat.eq_dec i i'); [discriminate|auto].
      + destruct (s_calls s0 i') as [[k' q]|] eqn:C; [|discriminate]. destruct q; try discriminate. injection E1 as <-.
        unfold run_step in A. destruct (s_cache s0 k') as [[v1|j']|] eqn:Ck.
        * cbn in A. destruct (Nat.eq_dec i i'); [|auto]. injection A as -> ->. right. right.
          destruct persist eqn:P; [|exfalso; eapply (i_none ls s0 HI P); eauto]. split; auto.
          apply (i_store ls s0 HI P) in Ck as (j & Y1 & Y2). exists j. rewrite !in_app_iff. auto.
        * destruct (s_chan s0 j'); cbn in A; (destruct (Nat.eq_dec i i'); [discriminate|auto]).
        * cbn in A. destruct (Nat.eq_dec i i'); [discriminate|auto].
      + destruct (s_calls s0 i') as [[k' q]|] eqn:C; [|discriminate]. destruct q as [|j| | |]; try discriminate.
        destruct (s_chan s0 j) as [|v1|] eqn:Cj; [discriminate| |]; injection E1 as <-; cbn in A;
          destruct (Nat.eq_dec i i') as [->|N]; auto; try discriminate.
        injection A as -> ->. right. left.
        (* the receiver was waiting when the value was sent *)
        apply (i_sent ls s0 HI) in Cj. clear Keep IH.
        assert (G : forall ls s0, steps new ls = Some s0 -> is s0 i' k (Awaiting j) -> In (Finish j v) ls ->
          exists l1 l2 s1, ls = l1 ++ Finish j v :: l2 /\ steps new l1 = Some s1 /\ is s1 j k Executing /\ is s1 i' k (Awaiting j)).
        { clear. induction ls as [|l ls IH] using rev_ind; intros s0 E W F; [destruct F|].
          rewrite steps_app in E. destruct (steps new ls) as [s2|] eqn:E2; [|discriminate]. cbn [DedupeModel.steps] in E.
          destruct (step s2 l) as [s3|] eqn:E1; [|discriminate]. injection E as <-.
          assert (HI := reach ls s2 E2).
          apply in_app_iff in F as [F|[->|[]]].
          - assert (W2 : is s2 i' k (Awaiting j)).
            { unfold is in *. destruct l as [i1 k'|i1|i1|i1 v1|i1]; cbn in E1.
              - destruct (s_calls s2 i1) eqn:C; [discriminate|]. injection E1 as <-. cbn in W. destruct (Nat.eq_dec i' i1); [congruence|auto].
              - destruct (s_calls s2 i1) as [[k' q]|] eqn:C; [|discriminate]. destruct q; try discriminate. injection E1 as <-.
                revert W. unfold run_step. destruct (s_cache s2 k') as [[v1|j']|] eqn:Ck.
                + cbn. destruct (Nat.eq_dec i' i1); [congruence|auto].
                + destruct (s_chan s2 j') eqn:Cj; cbn; destruct (Nat.eq_dec i' i1); try congruence; auto.
                  intros W. injection W as -> ->. apply (i_sent ls s2 HI) in F. congruence.
                + cbn. destruct (Nat.eq_dec i' i1); [congruence|auto].
              - destruct (s_calls s2 i1) as [[k' q]|] eqn:C; [|discriminate]. destruct q as [|j'| | |]; try discriminate.
                destruct (s_chan s2 j'); [discriminate| |]; injection E1 as <-; cbn in W; (destruct (Nat.eq_dec i' i1); [congruence|auto]).
              - destruct (s_calls s2 i1) as [[k' q]|] eqn:C; [|discriminate]. destruct q; try discriminate.
                injection E1 as <-; cbn in W; destruct (Nat.eq_dec i' i1); [congruence|auto].
              - destruct (s_calls s2 i1) as [[k' q]|] eqn:C; [|discriminate].
                destruct q; try discriminate; injection E1 as <-; cbn in W; (destruct (Nat.eq_dec i' i1); [congruence|auto]). }
            destruct (IH s2 eq_refl W2 F) as (l1 & l2 & s1 & -> & X). exists l1, (l2 ++ [l]), s1. split; [|exact X]. now rewrite <- app_assoc.
          - exists ls, [], s2. split; [reflexivity|]. split; [exact E2|]. cbn in E1.
            destruct (s_calls s2 j) as [[k' q]|] eqn:C; [|discriminate]. destruct q; try discriminate. injection E1 as <-.
            apply set_call_is in W as [[_ W]|[Nj W]]; [discriminate|]. change (is s2 i' k (Awaiting j)) in W. split; [|exact W].
            destruct (i_wait ls s2 HI i' k j W) as (q & Q). assert (B : is s2 j k' Executing) by exact C.
            destruct (is_fun _ _ _ _ _ _ B Q) as [-> _]. exact B. }
        destruct (G ls s0 E C Cj) as (l1 & l2 & s1 & -> & X). exists l1, j, (l2 ++ [Receive i']), s1.
        split; [|exact X]. now rewrite <- app_assoc.
      + destruct (s_calls s0 i') as [[k' q]|] eqn:C; [|discriminate]. destruct q; try discriminate. injection E1 as <-.
        cbn in A. destruct (Nat.eq_dec i i') as [->|]; [|auto]. injection A as -> ->. left. apply in_app_iff. cbn. auto.
      + destruct (s_calls s0 i') as [[k' q]|] eqn:C; [|discriminate].
        destruct q; try discriminate; injection E1 as <-; cbn in A; (destruct (Nat.eq_dec i i'); [discriminate|auto]).
  Qed.

  Lemma executed_unique ls s k v v' : steps new ls = Some s -> persist = true -> Executed ls k v -> Executed ls k v' -> v = v'.
  Proof. intros H P A B. apply reach in H. apply (i_store ls s H P) in A, B. congruence. Qed.

  Lemma returned_executed ls s i k v : steps new ls = Some s -> is s i k (Returned v) -> Executed ls k v.
  Proof.
    intros H A. destruct (results ls s i k v H A) as [X|[(l1 & j & l2 & s1 & -> & H1 & X & Y)|[_ X]]]; auto.
    - exists i. split; [eapply key_arrived; eauto|auto].
    - exists j. split; [|apply in_app_iff; cbn; auto]. apply in_app_iff. left. eapply key_arrived; eauto.
  Qed.
End Facts.
