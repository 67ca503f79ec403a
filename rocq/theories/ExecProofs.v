(** Proofs about the executor's caches (C07, C08, C09). *)
From Coq Require Import String Ascii ZArith NArith Bool Arith Lia List.
From Verif Require Import Base JsonModel CtxModel AuthModel IrModel PlanModel OpModel BuilderModel ExecModel ExecSpec.
Import ListNotations.
Open Scope string_scope.
Open Scope list_scope.

Lemma zget_In {A} k (m : list (Z * A)) a : zget k m = Some a -> In (k, a) m.
Proof.
  unfold zget. destruct (find _ m) as [[k' a']|] eqn:F; [|discriminate]. intros E. injection E as ->.
  apply find_some in F as [I E]. cbn in E. apply Z.eqb_eq in E. now subst.
Qed.

Lemma zget_zset_same {A} k a (m : list (Z * A)) : zget k (zset k a m) = Some a.
Proof. unfold zget, zset. cbn. now rewrite Z.eqb_refl. Qed.

Lemma zget_zdel_other {A} k k' (m : list (Z * A)) : k <> k' -> zget k (zdel k' m) = zget k m.
Proof.
  intros N. unfold zget, zdel. induction m as [|[k1 a1] m IH]; cbn; [auto|].
  destruct (Z.eqb_spec k1 k'); cbn.
  - subst. destruct (Z.eqb_spec k' k); [congruence|]. exact IH.
  - destruct (Z.eqb_spec k1 k); [auto|]. exact IH.
Qed.

Lemma zget_zdel_same {A} k (m : list (Z * A)) : zget k (zdel k m) = None.
Proof.
  unfold zget, zdel. induction m as [|[k1 a1] m IH]; cbn; [auto|].
  destruct (Z.eqb_spec k1 k); cbn; [exact IH|]. destruct (Z.eqb_spec k1 k); [congruence|]. exact IH.
Qed.

Lemma zget_zset_other {A} k k' a (m : list (Z * A)) : k <> k' -> zget k (zset k' a m) = zget k m.
Proof.
  intros N. unfold zset, zget. cbn. destruct (Z.eqb_spec k' k); [congruence|].
  apply (zget_zdel_other k k' m N).
Qed.

Lemma set_phase_same {IO Resp} i (ph : phase (IO := IO) (Resp := Resp)) f : set_phase i ph f i = ph.
Proof. unfold set_phase. now rewrite Nat.eqb_refl. Qed.
Lemma set_phase_other {IO Resp} i j (ph : phase (IO := IO) (Resp := Resp)) f : i <> j -> set_phase i ph f j = f j.
Proof. intros N. unfold set_phase. now rewrite (proj2 (Nat.eqb_neq i j) N). Qed.

Section Proofs.
  Context {IO World Resp BE : Type}.
  Variable text_hash : string -> Z.
  Variable body_hash : list (string * string) -> list gql_request -> Z.
  Variable create : string -> option string -> result (plan IO) BE.
  Variable respond : plan IO -> member -> World -> Resp.
  Variable build_failed : BE -> Resp.
  Variable ops : nat -> member.
  Notation key := (key text_hash ops).
  Notation opid := (opid body_hash ops).
  Notation step := (step text_hash body_hash create respond build_failed ops).
  Notation steps := (steps text_hash body_hash create respond build_failed ops).
  Notation app := (app (IO := IO) (Resp := Resp)).
  Implicit Types s : app.

  Definition made (i : nat) (p : plan IO) : Prop :=
    exists j, key j = key i /\ create (text ops j) (q_operation (request_of (ops j))) = Ok p.

  Definition result_of (i : nat) (p : plan IO) (r : Resp) : Prop :=
    exists j pj w, opid j = opid i /\ made j pj /\ r = respond pj (ops j) w /\
      (j = i /\ pj = p \/ plan_can_dedupe p = true /\ plan_can_dedupe pj = true).

  Definition good s (i : nat) (ph : phase (IO := IO) (Resp := Resp)) : Prop :=
    match ph with
    | Fresh | Missed | Dropped => True
    | Built p => create (text ops i) (q_operation (request_of (ops i))) = Ok p
    | Planned p | Alone p => made i p
    | Leading p => made i p /\ plan_can_dedupe p = true /\ zget (opid i) (a_pending s) = Some i
    | Waiting j p => made i p /\ plan_can_dedupe p = true /\ opid j = opid i /\
                     exists pj, a_phase s j = Leading pj
    | Executed p r => made i p /\ result_of i p r
    | FromCache r => exists j p, key j = key i /\ made j p /\ pl_const p = true /\ pl_protected p = false /\
                                 result_of j p r
    | Answered_ r =>
        (exists e, create (text ops i) (q_operation (request_of (ops i))) = Err e /\ r = build_failed e) \/
        exists p, made i p /\ result_of i p r
    end.

  Record Inv s : Prop :=
    { inv_plans : forall h p, zget h (a_plans s) = Some p ->
        exists j, key j = h /\ create (text ops j) (q_operation (request_of (ops j))) = Ok p;
      inv_consts : forall h r, zget h (a_consts s) = Some r ->
        exists j p, key j = h /\ made j p /\ pl_const p = true /\ pl_protected p = false /\ result_of j p r;
      inv_pending : forall o j, zget o (a_pending s) = Some j -> opid j = o /\ exists pj, a_phase s j = Leading pj;
      inv_phase : forall i, good s i (a_phase s i) }.

  Lemma inv_start : Inv start.
  Proof. constructor; cbn; try discriminate. exact (fun _ => I). Qed.

  Definition leads (ph : phase (IO := IO) (Resp := Resp)) : bool := match ph with Leading _ => true | _ => false end.

  (** Moving one operation that neither leads nor comes to lead. *)
  Lemma inv_put s i ph :
    Inv s -> leads (a_phase s i) = false ->
    (forall s', a_pending s' = a_pending s -> (forall j pj, a_phase s j = Leading pj -> a_phase s' j = Leading pj) ->
                good s' i ph) ->
    Inv {| a_consts := a_consts s; a_plans := a_plans s; a_pending := a_pending s;
           a_phase := set_phase i ph (a_phase s) |}.
  Proof.
    intros [P C Q F] NL G.
    assert (K : forall j pj, a_phase s j = Leading pj -> set_phase i ph (a_phase s) j = Leading pj).
    { intros j pj H. unfold set_phase. destruct (Nat.eqb_spec i j); [|auto]. subst. rewrite H in NL. discriminate. }
    constructor; cbn; auto.
    - intros o j H. apply Q in H as [E [pj H]]. split; [auto|]. exists pj. auto.
    - intros j. destruct (Nat.eq_dec i j) as [->|N].
      + rewrite set_phase_same. apply G; auto.
      + rewrite set_phase_other by auto. specialize (F j). destruct (a_phase s j); cbn in *; auto.
        destruct F as [F1 [F2 [F3 [pj F4]]]]. repeat split; auto. exists pj. auto.
  Qed.

  Lemma inv_same_pending s s' :
    Inv s -> (forall h r, zget h (a_consts s') = Some r ->
        exists j p, key j = h /\ made j p /\ pl_const p = true /\ pl_protected p = false /\ result_of j p r) ->
    (forall h p, zget h (a_plans s') = Some p ->
        exists j, key j = h /\ create (text ops j) (q_operation (request_of (ops j))) = Ok p) ->
    a_pending s' = a_pending s -> a_phase s' = a_phase s -> Inv s'.
  Proof.
    intros [P C Q F] C' P' E1 E2. constructor; auto.
    - rewrite E1, E2. auto.
    - intros i. rewrite E2. specialize (F i). destruct (a_phase s i); cbn in *; rewrite ?E1, ?E2; auto.
  Qed.

  Lemma inv_step s l s' : Inv s -> step s l = Some s' -> Inv s'.
  Proof.
    intros HI H. assert (F := inv_phase s HI). destruct l as [i|i|i|i|i w|i|i]; cbn in H; specialize (F i).
    - destruct (a_phase s i) eqn:E; try discriminate.
      destruct (zget (key i) (a_consts s)) as [r|] eqn:Z; injection H as <-; (apply inv_put; [exact HI|now rewrite E|]);
        intros; cbn; [|exact I].
      apply (inv_consts s HI) in Z as [j [p Z]]. exists j, p. exact Z.
    - destruct (a_phase s i) eqn:E; try discriminate.
      destruct (zget (key i) (a_plans s)) as [p|] eqn:Z.
      + injection H as <-. apply inv_put; [exact HI|now rewrite E|]. intros; cbn.
        apply (inv_plans s HI) in Z as [j Z]. exists j. exact Z.
      + destruct (create _ _) as [p|e] eqn:CR; injection H as <-; (apply inv_put; [exact HI|now rewrite E|]); intros; cbn; eauto.
    - destruct (a_phase s i) as [| |p| | | | | | | |] eqn:E; try discriminate. injection H as <-. cbn in F.
      eapply (inv_same_pending {| a_consts := a_consts s; a_plans := a_plans s; a_pending := a_pending s;
                                  a_phase := set_phase i (Planned p) (a_phase s) |}); auto.
      + apply inv_put; [exact HI|now rewrite E|]. intros; cbn. exists i. auto.
      + cbn. apply (inv_consts s HI).
      + cbn. intros h p' Z. destruct (Z.eq_dec h (key i)) as [->|N].
        * rewrite zget_zset_same in Z. injection Z as <-. exists i. auto.
        * rewrite zget_zset_other in Z by auto. now apply (inv_plans s HI).
    - destruct (a_phase s i) as [| | |p| | | | | | |] eqn:E; try discriminate. cbn in F.
      destruct (plan_can_dedupe p) eqn:D.
      + destruct (zget (opid i) (a_pending s)) as [j|] eqn:Z.
        * injection H as <-. apply (inv_pending s HI) in Z as [E1 [pj E2]].
          apply inv_put; [exact HI|now rewrite E|]. intros s' Q K; cbn. repeat split; auto. exists pj. auto.
        * injection H as <-.
          assert (K : forall j pj, a_phase s j = Leading pj -> set_phase i (Leading p) (a_phase s) j = Leading pj).
          { intros j pj H. unfold set_phase. destruct (Nat.eqb_spec i j); [|auto]. subst. congruence. }
          constructor; cbn.
          -- apply (inv_plans s HI).
          -- apply (inv_consts s HI).
          -- intros o j H. destruct (Z.eq_dec o (opid i)) as [->|N].
             ++ rewrite zget_zset_same in H. injection H as <-. split; [auto|]. exists p.
                unfold set_phase. now rewrite Nat.eqb_refl.
             ++ rewrite zget_zset_other in H by auto. apply (inv_pending s HI) in H as [E1 [pj E2]].
                split; [auto|]. exists pj. auto.
          -- intros j. destruct (Nat.eq_dec i j) as [<-|N].
             ++ rewrite set_phase_same. cbn. rewrite zget_zset_same. auto.
             ++ rewrite set_phase_other by auto. assert (G := inv_phase s HI j). destruct (a_phase s j) eqn:Ej; cbn in *; auto.
                ** destruct G as [G1 [G2 G3]]. repeat split; auto.
                   destruct (Z.eq_dec (opid j) (opid i)) as [EE|NE].
                   --- rewrite EE in G3. congruence.
                   --- now rewrite zget_zset_other.
                ** destruct G as [G1 [G2 [G3 [pj G4]]]]. repeat split; auto. exists pj. auto.
      + injection H as <-. apply inv_put; [exact HI|now rewrite E|]. intros; cbn. auto.
    - destruct (a_phase s i) as [| | | |p|p| | | | |] eqn:E; try discriminate; cbn in F.
      + injection H as <-. apply inv_put; [exact HI|now rewrite E|]. intros; cbn. split; [auto|].
        exists i, p, w. auto 10.
      + injection H as <-. destruct F as [F1 [F2 F3]].
        assert (K : forall j pj, j <> i -> a_phase s j = Leading pj ->
                     set_phase i (Executed p (respond p (ops i) w))
                       (release i (fun p' => Executed p' (respond p (ops i) w)) (a_phase s)) j = Leading pj).
        { intros j pj N H. unfold set_phase, release. destruct (Nat.eqb_spec i j); [congruence|]. now rewrite H. }
        constructor; cbn.
        * apply (inv_plans s HI).
        * apply (inv_consts s HI).
        * intros o j H. destruct (Z.eq_dec o (opid i)) as [->|N].
          -- rewrite zget_zdel_same in H. discriminate.
          -- rewrite zget_zdel_other in H by auto. apply (inv_pending s HI) in H as [E1 [pj E2]].
             split; [auto|]. exists pj. apply K; [congruence|auto].
        * intros j. destruct (Nat.eq_dec i j) as [<-|N].
          -- rewrite set_phase_same. cbn. split; [auto|]. exists i, p, w. auto 10.
          -- rewrite set_phase_other by auto. assert (G := inv_phase s HI j).
             unfold release at 2. destruct (a_phase s j) as [| | | |p'|p'|l p'|p' r'| | |] eqn:Ej; cbn in *; auto.
             ++ destruct G as [G1 [G2 G3]]. repeat split; auto.
                destruct (Z.eq_dec (opid j) (opid i)) as [EE|NE]; [congruence|]. now rewrite zget_zdel_other.
             ++ destruct G as [G1 [G2 [G3 [pj G4]]]]. destruct (Nat.eqb_spec l i) as [->|Nl]; cbn.
                ** split; [auto|]. exists i, p, w. auto 10.
                ** repeat split; auto. exists pj. auto.
    - destruct (a_phase s i) as [| | | | | | |p r| | |] eqn:E; try discriminate. cbn in F. injection H as <-.
      destruct F as [F1 F2].
      eapply (inv_same_pending {| a_consts := a_consts s; a_plans := a_plans s; a_pending := a_pending s;
                                  a_phase := set_phase i (Answered_ r) (a_phase s) |}); auto.
      + apply inv_put; [exact HI|now rewrite E|]. intros; cbn. right. exists p. auto.
      + cbn. intros h r' Z. destruct (pl_const p && negb (pl_protected p)) eqn:CP; [|now apply (inv_consts s HI)].
        apply andb_true_iff in CP as [CP PP]. apply negb_true_iff in PP.
        destruct (Z.eq_dec h (key i)) as [->|N].
        * rewrite zget_zset_same in Z. injection Z as <-. exists i, p. auto.
        * rewrite zget_zset_other in Z by auto. now apply (inv_consts s HI).
      + cbn. apply (inv_plans s HI).
    - assert (NLD : leads (a_phase s i) = false -> Inv {| a_consts := a_consts s; a_plans := a_plans s; a_pending := a_pending s;
           a_phase := set_phase i Dropped (a_phase s) |}).
      { intros NL. apply inv_put; [exact HI|exact NL|]. intros; exact I. }
      destruct (a_phase s i) as [| | | | |p| | | | |] eqn:E; try discriminate; cbn in F;
        try (injection H as <-; apply NLD; reflexivity).
      injection H as <-. destruct F as [F1 [F2 F3]].
      assert (K : forall j pj, j <> i -> a_phase s j = Leading pj ->
                   set_phase i Dropped (release i Planned (a_phase s)) j = Leading pj).
      { intros j pj N H. unfold set_phase, release. destruct (Nat.eqb_spec i j); [congruence|]. now rewrite H. }
      constructor; cbn.
      + apply (inv_plans s HI).
      + apply (inv_consts s HI).
      + intros o j H. destruct (Z.eq_dec o (opid i)) as [->|N].
        * rewrite zget_zdel_same in H. discriminate.
        * rewrite zget_zdel_other in H by auto. apply (inv_pending s HI) in H as [E1 [pj E2]].
          split; [auto|]. exists pj. apply K; [congruence|auto].
      + intros j. destruct (Nat.eq_dec i j) as [<-|N].
        * rewrite set_phase_same. exact I.
        * rewrite set_phase_other by auto. assert (G := inv_phase s HI j).
          unfold release at 2. destruct (a_phase s j) as [| | | |p'|p'|l p'|p' r'| | |] eqn:Ej; cbn in *; auto.
          -- destruct G as [G1 [G2 G3]]. repeat split; auto.
             destruct (Z.eq_dec (opid j) (opid i)) as [EE|NE]; [congruence|]. now rewrite zget_zdel_other.
          -- destruct G as [G1 [G2 [G3 [pj G4]]]]. destruct (Nat.eqb_spec l i) as [->|Nl]; cbn; auto.
             repeat split; auto. exists pj. auto.
  Qed.

  Lemma inv_steps ls : forall s s', Inv s -> steps s ls = Some s' -> Inv s'.
  Proof.
    induction ls as [|l ls IH]; cbn; intros s s' HI H; [congruence|].
    destruct (step s l) as [s1|] eqn:E; [|discriminate]. eapply IH; [|exact H]. eapply inv_step; eauto.
  Qed.

  Lemma reachable_inv ls s : steps start ls = Some s -> Inv s.
  Proof. apply inv_steps, inv_start. Qed.
End Proofs.

Section History.
  Context {IO World Resp BE : Type}.
  Variable text_hash : string -> Z.
  Variable body_hash : list (string * string) -> list gql_request -> Z.
  Variable create : string -> option string -> result (plan IO) BE.
  Variable respond : plan IO -> member -> World -> Resp.
  Variable build_failed : BE -> Resp.
  Variable ops : nat -> member.
  Notation steps := (steps text_hash body_hash create respond build_failed ops).
  Notation PlanFor := (PlanFor text_hash create ops).
  Notation CameFrom := (CameFrom text_hash body_hash create respond ops).
  Notation own_plan := (own_plan create ops).

  Lemma used_plan ls s i p : steps start ls = Some s -> plan_used (a_phase s i) = Some p -> PlanFor i p.
  Proof.
    intros H U. assert (G := inv_phase _ _ _ _ _ _ _ (reachable_inv _ _ _ _ _ _ _ _ H) i).
    destruct (a_phase s i); cbn in *; try discriminate; injection U as <-; try tauto.
    exists i. auto.
  Qed.

  Lemma plan_for_own i p : TextsTold text_hash ops -> OneNamePerText ops -> PlanFor i p -> own_plan i = Ok p.
  Proof.
    intros T N (j & E & H). apply T in E. unfold ExecSpec.own_plan in *. now rewrite <- E, <- (N j i E).
  Qed.

  Lemma answered_from ls s i r : steps start ls = Some s -> answer s i = Some r ->
    (exists e, own_plan i = Err e /\ r = build_failed e) \/
    (exists p, PlanFor i p /\ CameFrom i p r) \/
    (exists j p, text_hash (text ops j) = text_hash (text ops i) /\ PlanFor j p /\
                 pl_const p = true /\ pl_protected p = false /\ CameFrom j p r).
  Proof.
    intros H A. assert (G := inv_phase _ _ _ _ _ _ _ (reachable_inv _ _ _ _ _ _ _ _ H) i).
    unfold answer in A. destruct (a_phase s i); try discriminate; injection A as ->; cbn in G.
    - right. right. exact G.
    - destruct G as [G|G]; auto.
  Qed.

  Lemma from_cache ls s i r : steps start ls = Some s -> a_phase s i = FromCache r ->
    exists j p, text_hash (text ops j) = text_hash (text ops i) /\ PlanFor j p /\
                pl_const p = true /\ pl_protected p = false /\ CameFrom j p r.
  Proof.
    intros H A. assert (G := inv_phase _ _ _ _ _ _ _ (reachable_inv _ _ _ _ _ _ _ _ H) i).
    rewrite A in G. exact G.
  Qed.

  Lemma cached_is_fresh ls s i r :
    TextsTold text_hash ops -> OneNamePerText ops -> OperationsTold body_hash ops ->
    (forall i p, own_plan i = Ok p -> pl_const p = true -> pl_protected p = false -> forall k l w w', respond p (ops k) w = respond p (ops l) w') ->
    steps start ls = Some s -> a_phase s i = FromCache r ->
    exists p, own_plan i = Ok p /\ pl_protected p = false /\ forall w, r = respond p (ops i) w.
  Proof.
    intros T N O C H A. destruct (from_cache ls s i r H A) as (j & p & E & P & Cp & Pp & k & pk & w & Ek & Pk & R & _).
    assert (Q : own_plan i = Ok p).
    { apply plan_for_own; auto. destruct P as (l & El & P). exists l. split; congruence || auto. }
    assert (Qk : own_plan k = Ok pk) by (apply plan_for_own; auto).
    assert (Qj : own_plan j = Ok p) by (apply plan_for_own; auto).
    apply O in Ek as [_ Ek]. assert (pk = p).
    { unfold ExecSpec.own_plan, text in *. rewrite Ek in Qk. congruence. }
    subst pk. exists p. repeat split; auto. intros w'. rewrite R. eauto.
  Qed.

  Lemma failures_too ls s i r e : TextsTold text_hash ops -> OneNamePerText ops ->
    steps start ls = Some s -> own_plan i = Err e -> answer s i = Some r -> r = build_failed e.
  Proof.
    intros T N H O A. destruct (answered_from ls s i r H A) as [(e' & E & ->)|[(p & P & _)|(j & p & K & P & _)]].
    - congruence.
    - apply plan_for_own in P; auto. congruence.
    - assert (Q : PlanFor i p). { destruct P as (k & Ek & P). exists k. split; congruence || auto. }
      apply plan_for_own in Q; auto. congruence.
  Qed.

  Lemma answered_uncached ls s i r : steps start ls = Some s -> answer s i = Some r -> a_phase s i <> FromCache r ->
    (exists e, own_plan i = Err e /\ r = build_failed e) \/ exists p, PlanFor i p /\ CameFrom i p r.
  Proof.
    intros H A NC. assert (G := inv_phase _ _ _ _ _ _ _ (reachable_inv _ _ _ _ _ _ _ _ H) i).
    unfold answer in A. destruct (a_phase s i); try discriminate; injection A as ->; [congruence|]. exact G.
  Qed.

  Lemma own_answer ls s i r : OperationsTold body_hash ops -> steps start ls = Some s -> answer s i = Some r ->
    a_phase s i <> FromCache r ->
    (exists e, own_plan i = Err e /\ r = build_failed e) \/
    exists k pk w, m_headers (ops k) = m_headers (ops i) /\ request_of (ops k) = request_of (ops i) /\
                   PlanFor i pk /\ r = respond pk (ops k) w.
  Proof.
    intros O H A NC. assert (G := inv_phase _ _ _ _ _ _ _ (reachable_inv _ _ _ _ _ _ _ _ H) i).
    unfold answer in A. destruct (a_phase s i); try discriminate; injection A as ->; [congruence|].
    cbn in G. destruct G as [G|(p & P & k & pk & w & E & Pk & -> & _)]; [left; exact G|right].
    apply O in E as [E1 E2]. exists k, pk, w. repeat split; auto.
    destruct Pk as (j & Ej & Pk). exists j. split; auto. unfold key in Ej. rewrite Ej. unfold text. now rewrite E2.
  Qed.
End History.
