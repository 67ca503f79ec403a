(** Proofs about guards, caching and hoisting (C32, C33, C06). *)
From Coq Require Import String Ascii ZArith NArith Bool Arith Lia List.
From Verif Require Import Base BaseFacts JsonModel JsonSpec JsonProofs MustacheModel CtxModel AuthModel DiscModel
  MergeModel IrModel TtlModel IrSpec IrProofs AuthSpec AuthProofs.
Import ListNotations.
Open Scope string_scope.
Open Scope list_scope.

(** ** Only reachable calls are made *)
Section Logged.
  Context {IO F Key St : Type}.
  Notation ir := (ir IO).
  Variable rx : req_ext.
  Variable ext : auth_ext.
  Variable req : request.
  Variable do_io : IO -> ctx -> St -> result value F * St.
  Variable cache_key : IO -> ctx -> option Key.
  Variable cache_get : Key -> St -> result (option value) F * St.
  Variable cache_set : Key -> value -> Z -> St -> result unit F * St.

  Notation eval := (eval rx ext req do_io cache_key cache_get cache_set).
  Notation leval := (IrModel.eval rx ext req (logged do_io) cache_key
    (fun k => unlogged (cache_get k)) (fun k v a => unlogged (cache_set k v a))).
  Notation evals := (evals rx ext req do_io cache_key cache_get cache_set).
  Notation levals := (IrProofs.evals rx ext req (logged do_io) cache_key
    (fun k => unlogged (cache_get k)) (fun k v a => unlogged (cache_set k v a))).
  Notation run_tasks := (run_tasks rx ext req do_io cache_key cache_get cache_set).
  Notation lrun_tasks := (IrProofs.run_tasks rx ext req (logged do_io) cache_key
    (fun k => unlogged (cache_get k)) (fun k v a => unlogged (cache_set k v a))).
  Notation run_task := (run_task rx ext req do_io cache_key cache_get cache_set).
  Notation lrun_task := (IrProofs.run_task rx ext req (logged do_io) cache_key
    (fun k => unlogged (cache_get k)) (fun k v a => unlogged (cache_set k v a))).

  (** The logged run is the plain run, with a log whose growth satisfies [P]. *)
  Definition follows {A} (P : IO -> Prop) (plain : A * St) (log : list IO) (out : A * (St * list IO)) : Prop :=
    fst out = fst plain /\ fst (snd out) = snd plain /\
    exists calls, snd (snd out) = log ++ calls /\ forall io, In io calls -> P io.

  Lemma follows_ret {A} (P : IO -> Prop) (a : A) st log : follows P (a, st) log (a, (st, log)).
  Proof. repeat split; auto. exists []. rewrite app_nil_r. split; auto. intros ? []. Qed.

  Lemma follows_weaken {A} (P Q : IO -> Prop) (p : A * St) log out :
    (forall io, P io -> Q io) -> follows P p log out -> follows Q p log out.
  Proof. intros H (A1 & A2 & calls & A3 & A4). repeat split; auto. exists calls. auto. Qed.

  Lemma follows_bind {A B} (P : IO -> Prop) (p : A * St) log out
        (k : A * St -> B * St) (k' : A * (St * list IO) -> B * (St * list IO)) :
    follows P p log out ->
    (forall log', follows P (k p) log' (k' (fst p, (snd p, log')))) ->
    follows P (k p) log (k' out).
  Proof.
    intros (A1 & A2 & calls & A3 & A4) H. destruct out as [a [s l]]. cbn in *. subst.
    destruct (H (log ++ calls)) as (B1 & B2 & calls' & B3 & B4).
    repeat split; auto. exists (calls ++ calls'). rewrite B3, app_assoc. split; auto.
    intros io [I|I]%in_app_or; auto.
  Qed.

  Lemma follows_io (P : IO -> Prop) io c st log :
    P io -> follows P (do_io io c st) log (logged do_io io c (st, log)).
  Proof.
    intros H. unfold logged. cbn. destruct (do_io io c st) as [r st'].
    repeat split; auto. exists [io]. split; auto. intros x [<-|[]]. auto.
  Qed.

  Lemma follows_un {A} (P : IO -> Prop) (op : St -> result A F * St) st log :
    follows P (op st) log (unlogged op (st, log)).
  Proof. unfold unlogged. cbn. destruct (op st). apply follows_ret. Qed.

  Lemma follows_evals (P : ir -> IO -> Prop) c l :
    Forall (fun e => forall c st log, follows (P e) (eval e c st) log (leval e c (st, log))) l ->
    forall st log, follows (fun io => exists e, In e l /\ P e io) (evals l c st) log (levals l c (st, log)).
  Proof.
    induction 1 as [|e l He Hl IH]; intros st log; [apply follows_ret|].
    cbn.
    apply (follows_bind _ (eval e c st) log (leval e c (st, log))
      (fun p => let '(r, s1) := p in let '(rs, s2) := evals l c s1 in (r :: rs, s2))
      (fun p => let '(r, s1) := p in let '(rs, s2) := levals l c s1 in (r :: rs, s2))).
    - eapply follows_weaken; [|apply He]. intros io H. exists e. split; [now left|auto].
    - intros log'. destruct (eval e c st) as [r s1]. cbn.
      apply (follows_bind _ (evals l c s1) log' (levals l c (s1, log'))
        (fun p => let '(rs, s2) := p in (r :: rs, s2)) (fun p => let '(rs, s2) := p in (r :: rs, s2))).
      + eapply follows_weaken; [|apply IH]. intros io (e' & I & H). exists e'. split; [now right|auto].
      + intros l2. destruct (evals l c s1). cbn. apply follows_ret.
  Qed.

  Lemma follows_tasks (P : ir -> IO -> Prop) c m :
    Forall (fun kv => forall c st log, follows (P (snd kv)) (eval (snd kv) c st) log (leval (snd kv) c (st, log))) m ->
    forall tasks st log,
    follows (fun io => exists k e, In (k, e) m /\ P e io) (run_tasks m c tasks st) log (lrun_tasks m c tasks (st, log)).
  Proof.
    intros H. induction tasks as [|[n repr] tasks IH]; intros st log; [apply follows_ret|].
    cbn.
    apply (follows_bind _ (run_task m n repr c st) log (lrun_task m n repr c (st, log))
      (fun p => let '(r, s1) := p in let '(rs, s2) := run_tasks m c tasks s1 in (r :: rs, s2))
      (fun p => let '(r, s1) := p in let '(rs, s2) := lrun_tasks m c tasks s1 in (r :: rs, s2))).
    - unfold IrProofs.run_task. destruct (aget n m) as [e|] eqn:A; [|apply follows_ret].
      apply aget_In in A. rewrite Forall_forall in H.
      apply (follows_bind _ (eval e (with_value repr c) st) log (leval e (with_value repr c) (st, log))
        (fun p => let '(r, s1) := p in (named n r, s1)) (fun p => let '(r, s1) := p in (named n r, s1))).
      + eapply follows_weaken; [|apply (H (n, e)); auto]. intros io Q. exists n, e. auto.
      + intros l2. destruct (eval e (with_value repr c) st). cbn. apply follows_ret.
    - intros log'. destruct (run_task m n repr c st) as [r s1]. cbn.
      apply (follows_bind _ (run_tasks m c tasks s1) log' (lrun_tasks m c tasks (s1, log'))
        (fun p => let '(rs, s2) := p in (r :: rs, s2)) (fun p => let '(rs, s2) := p in (r :: rs, s2))).
      + apply IH.
      + intros l2. destruct (run_tasks m c tasks s1). cbn. apply follows_ret.
  Qed.

  Lemma eval_logged : forall e c st log,
    follows (Reachable ext req e) (eval e c st) log (leval e c (st, log)).
  Proof.
    induction e as [d|io|age io|e p IH|p|a e IH|e m IH|e1 e2 IH1 IH2|l IH|d e IH|m IH|s] using ir_ind';
      intros c st log.
    - apply follows_ret.
    - cbn [IrModel.eval].
      apply (follows_bind _ (do_io io c st) log (logged do_io io c (st, log))
        (fun p => let '(r, s1) := p in (lift r, s1)) (fun p => let '(r, s1) := p in (lift r, s1))).
      + apply follows_io. constructor.
      + intros l2. destruct (do_io io c st). cbn. apply follows_ret.
    - cbn [IrModel.eval]. unfold eval_cached. destruct (cache_key io c) as [k|].
      + apply (follows_bind _ (cache_get k st) log (unlogged (cache_get k) (st, log))
          (fun p => match p with
                    | (Err f, st) => (Err (EOutside f), st)
                    | (Ok (Some v), st) => (Ok v, st)
                    | (Ok None, st) =>
                        match do_io io c st with
                        | (Err f, st) => (Err (EOutside f), st)
                        | (Ok v, st) =>
                            match cache_set k v age st with
                            | (Err f, st) => (Err (EOutside f), st)
                            | (Ok tt, st) => (Ok v, st)
                            end
                        end
                    end)
          (fun p => match p with
                    | (Err f, st) => (Err (EOutside f), st)
                    | (Ok (Some v), st) => (Ok v, st)
                    | (Ok None, st) =>
                        match logged do_io io c st with
                        | (Err f, st) => (Err (EOutside f), st)
                        | (Ok v, st) =>
                            match unlogged (cache_set k v age) st with
                            | (Err f, st) => (Err (EOutside f), st)
                            | (Ok tt, st) => (Ok v, st)
                            end
                        end
                    end)).
        * apply follows_un.
        * intros log'. destruct (cache_get k st) as [[[v|]|f] s1]; cbn [fst snd]; try apply follows_ret.
          apply (follows_bind _ (do_io io c s1) log' (logged do_io io c (s1, log'))
            (fun p => match p with
                      | (Err f, st) => (Err (EOutside f), st)
                      | (Ok v, st) =>
                          match cache_set k v age st with
                          | (Err f, st) => (Err (EOutside f), st)
                          | (Ok tt, st) => (Ok v, st)
                          end
                      end)
            (fun p => match p with
                      | (Err f, st) => (Err (EOutside f), st)
                      | (Ok v, st) =>
                          match unlogged (cache_set k v age) st with
                          | (Err f, st) => (Err (EOutside f), st)
                          | (Ok tt, st) => (Ok v, st)
                          end
                      end)).
          -- apply follows_io. constructor.
          -- intros l2. destruct (do_io io c s1) as [[v|f] s2]; cbn [fst snd]; try apply follows_ret.
             apply (follows_bind _ (cache_set k v age s2) l2 (unlogged (cache_set k v age) (s2, l2))
               (fun p => match p with (Err f, st) => (Err (EOutside f), st) | (Ok tt, st) => (Ok v, st) end)
               (fun p => match p with (Err f, st) => (Err (EOutside f), st) | (Ok tt, st) => (Ok v, st) end)).
             ++ apply follows_un.
             ++ intros l3. destruct (cache_set k v age s2) as [[[]|f] s3]; cbn [fst snd]; apply follows_ret.
      + apply (follows_bind _ (do_io io c st) log (logged do_io io c (st, log))
          (fun p => let '(r, s1) := p in (lift r, s1)) (fun p => let '(r, s1) := p in (lift r, s1))).
        * apply follows_io. constructor.
        * intros l2. destruct (do_io io c st). cbn. apply follows_ret.
    - cbn [IrModel.eval].
      apply (follows_bind _ (eval e c st) log (leval e c (st, log))
        (fun q => match q with
          | (Ok v, st) => (Ok (match get_path p v with Some x => x | None => VNull end), st)
          | (Err er, st) => (Err er, st) end)
        (fun q => match q with
          | (Ok v, st) => (Ok (match get_path p v with Some x => x | None => VNull end), st)
          | (Err er, st) => (Err er, st) end)).
      + eapply follows_weaken; [|apply IH]. intros; now constructor.
      + intros l2. destruct (eval e c st) as [[v|er] s1]; cbn; apply follows_ret.
    - apply follows_ret.
    - cbn [IrModel.eval]. destruct (verify ext a req) eqn:V; cbn [to_result]; [|apply follows_ret].
      eapply follows_weaken; [|apply IH]. intros; now constructor.
    - cbn [IrModel.eval].
      apply (follows_bind _ (eval e c st) log (leval e c (st, log))
        (fun q => match q with (Ok v, st) => (map_enum m v, st) | (Err er, st) => (Err er, st) end)
        (fun q => match q with (Ok v, st) => (map_enum m v, st) | (Err er, st) => (Err er, st) end)).
      + eapply follows_weaken; [|apply IH]. intros; now constructor.
      + intros l2. destruct (eval e c st) as [[v|er] s1]; cbn; apply follows_ret.
    - cbn [IrModel.eval].
      apply (follows_bind _ (eval e1 c st) log (leval e1 c (st, log))
        (fun q => match q with (Ok v, st) => eval e2 (with_args v c) st | (Err er, st) => (Err er, st) end)
        (fun q => match q with (Ok v, st) => leval e2 (with_args v c) st | (Err er, st) => (Err er, st) end)).
      + eapply follows_weaken; [|apply IH1]. intros; now constructor.
      + intros l2. destruct (eval e1 c st) as [[v|er] s1]; cbn [fst snd]; [|apply follows_ret].
        eapply follows_weaken; [|apply IH2]. intros; now apply R_pipe2.
    - rewrite !eval_merge.
      apply (follows_bind _ (evals l c st) log (levals l c (st, log))
        (fun q => let '(rs, s1) := q in (rmap merge_values (collect rs), s1))
        (fun q => let '(rs, s1) := q in (rmap merge_values (collect rs), s1))).
      + eapply follows_weaken; [|apply (follows_evals (Reachable ext req)); auto].
        intros io (e & I & R). eapply R_merge; eauto.
      + intros l2. destruct (evals l c st). cbn. apply follows_ret.
    - cbn [IrModel.eval].
      apply (follows_bind _ (eval e c st) log (leval e c (st, log))
        (fun q => match q with
          | (Ok v, st) => (match resolve_type d v with Ok w => Ok w | Err m => Err (EDiscriminate m) end, st)
          | (Err er, st) => (Err er, st) end)
        (fun q => match q with
          | (Ok v, st) => (match resolve_type d v with Ok w => Ok w | Err m => Err (EDiscriminate m) end, st)
          | (Err er, st) => (Err er, st) end)).
      + eapply follows_weaken; [|apply IH]. intros; now constructor.
      + intros l2. destruct (eval e c st) as [[v|er] s1]; cbn; apply follows_ret.
    - rewrite !eval_entity.
      destruct (option_map cow_value (path_arg c ["representations"])) as [[| | | | |l|]|];
        try apply follows_ret.
      destruct (check_representations (map fst m) l) as [tasks|er]; [|apply follows_ret].
      apply (follows_bind _ (run_tasks m c tasks st) log (lrun_tasks m c tasks (st, log))
        (fun q => let '(rs, s1) := q in (rmap VList (collect rs), s1))
        (fun q => let '(rs, s1) := q in (rmap VList (collect rs), s1))).
      + eapply follows_weaken; [|apply (follows_tasks (Reachable ext req)); auto].
        intros io (k & e & I & R). eapply R_entity; eauto.
      + intros l2. destruct (run_tasks m c tasks st). cbn. apply follows_ret.
    - apply follows_ret.
  Qed.

  Lemma only_reachable_calls e c st log r st' log' :
    leval e c (st, log) = (r, (st', log')) ->
    eval e c st = (r, st') /\
    exists calls, log' = log ++ calls /\ forall io, In io calls -> Reachable ext req e io.
  Proof.
    intros H. destruct (eval_logged e c st log) as (A & B & C). rewrite H in A, B, C. cbn in *.
    split; auto. rewrite (surjective_pairing (eval e c st)). congruence.
  Qed.
End Logged.

(** ** Hoisting *)
Section Hoist.
  Context {IO : Type}.
  Notation ir := (ir IO).

  Fixpoint update_irs (l : list ir) : list ir * list auth :=
    match l with
    | [] => ([], [])
    | e :: t =>
        let '(e', a) := update_ir e in
        let '(t', b) := update_irs t in (e' :: t', a ++ b)
    end.

  Lemma update_merge l : update_ir (IMerge l) = let '(l', a) := update_irs l in (IMerge l', a).
  Proof. reflexivity. Qed.

  Lemma hoisted_spec : forall (e : ir) a, In a (snd (update_ir e)) <-> Hoisted e a.
  Proof.
    induction e as [d|io|age io|e p IH|p|b e IH|e m IH|e1 e2 IH1 IH2|l IH|d e IH|m IH|s] using ir_ind';
      intros a; try (cbn; split; [intros []|intros H; inv H]; fail).
    - cbn. specialize (IH a). destruct (update_ir e) as [e' l]. cbn in *.
      rewrite IH. split; intros H; [now constructor|now inv H].
    - cbn. specialize (IH a). destruct (update_ir e) as [e' l]. cbn in *. rewrite IH. split.
      + intros [<-|H]; [constructor|now apply H_guard].
      + intros H. inv H; auto.
    - cbn. specialize (IH1 a). specialize (IH2 a). destruct (update_ir e1) as [e1' l1].
      destruct (update_ir e2) as [e2' l2]. cbn in *. rewrite in_app_iff, IH1, IH2. split.
      + intros [H|H]; [now apply H_pipe1|now apply H_pipe2].
      + intros H. inv H; auto.
    - rewrite update_merge. destruct (update_irs l) as [l' al] eqn:U. cbn.
      assert (G : In a al <-> exists e, In e l /\ Hoisted e a).
      { revert l' al U. induction IH as [|e l He _ IH]; intros l' al U; cbn in U.
        - inv U. cbn. split; [intros []|intros (e & [] & _)].
        - specialize (He a). destruct (update_ir e) as [e' b]. destruct (update_irs l) as [t' b'].
          inv U. rewrite in_app_iff. cbn in He. rewrite He, (IH t' b') by auto. split.
          + intros [H|(x & I & H)]; [exists e|exists x]; cbn; auto.
          + intros (x & [<-|I] & H); [auto|right; eauto]. }
      rewrite G. split.
      + intros (e & I & H). eapply H_merge; eauto.
      + intros H. inv H. eauto.
    - cbn. specialize (IH a). destruct (update_ir e) as [e' l]. cbn in *.
      rewrite IH. split; intros H; [now constructor|now inv H].
  Qed.

  Context {F Key St : Type}.
  Variable rx : req_ext.
  Variable ext : auth_ext.
  Variable req : request.
  Variable do_io : IO -> ctx -> St -> result value F * St.
  Variable cache_key : IO -> ctx -> option Key.
  Variable cache_get : Key -> St -> result (option value) F * St.
  Variable cache_set : Key -> value -> Z -> St -> result unit F * St.
  Notation eval := (eval rx ext req do_io cache_key cache_get cache_set).
  Notation evals := (evals rx ext req do_io cache_key cache_get cache_set).

  Lemma hoisting_preserves : forall (e : ir),
    (forall a, Hoisted e a -> verify ext a req = Succeed) ->
    forall c st, eval (fst (update_ir e)) c st = eval e c st.
  Proof.
    induction e as [d|io|age io|e p IH|p|b e IH|e m IH|e1 e2 IH1 IH2|l IH|d e IH|m IH|s] using ir_ind';
      intros H c st; try reflexivity.
    - cbn. assert (Q := IH (fun a A => H a (H_path a e p A)) c st).
      destruct (update_ir e) as [e' l]. cbn in *. now rewrite Q.
    - cbn. rewrite (H b) by constructor. cbn.
      assert (Q := IH (fun a A => H a (H_guard a b e A)) c st).
      destruct (update_ir e) as [e' l]. cbn in *. now rewrite Q.
    - cbn. assert (Q1 := IH1 (fun a A => H a (H_pipe1 a e1 e2 A)) c st).
      assert (Q2 := IH2 (fun a A => H a (H_pipe2 a e1 e2 A))).
      destruct (update_ir e1) as [e1' l1]. destruct (update_ir e2) as [e2' l2]. cbn in *.
      rewrite Q1. destruct (eval e1 c st) as [[v|er] s1]; auto.
    - rewrite update_merge. destruct (update_irs l) as [l' al] eqn:U. cbn [fst].
      rewrite !eval_merge.
      enough (G : evals l' c st = evals l c st) by now rewrite G.
      assert (H' : forall e a, In e l -> Hoisted e a -> verify ext a req = Succeed).
      { intros e a I A. apply H. eapply H_merge; eauto. }
      clear H. revert l' al U st. induction IH as [|e l He _ IH]; intros l' al U st; cbn in U.
      + inv U. reflexivity.
      + assert (Q := He (fun a A => H' e a (or_introl eq_refl) A) c st).
        destruct (update_ir e) as [e' b]. destruct (update_irs l) as [t' b'] eqn:U'.
        inv U. cbn in *. rewrite Q. destruct (eval e c st) as [r s1].
        now rewrite (IH (fun x a I A => H' x a (or_intror I) A) t' b').
    - cbn. assert (Q := IH (fun a A => H a (H_disc a d e A)) c st).
      destruct (update_ir e) as [e' l]. cbn in *. now rewrite Q.
  Qed.

  (** The chain of checks in front of the operation. *)
  Lemma fold_and_succeeds l : forall a,
    verify ext (fold_left AAnd l a) req = Succeed <->
    verify ext a req = Succeed /\ forall b, In b l -> verify ext b req = Succeed.
  Proof.
    induction l as [|x l IH]; intros a; cbn [fold_left].
    - split; [intros; split; auto; intros ? []|tauto].
    - rewrite IH. cbn [verify].
      assert (V : forall p q, vand p q = Succeed <-> p = Succeed /\ q = Succeed).
      { intros [|] [|]; cbn; split; intuition congruence. }
      rewrite V. split.
      + intros ((A & B) & C). split; auto. intros b [<-|I]; auto.
      + intros (A & B). repeat split; auto; intros; apply B; cbn; auto.
  Qed.

  Lemma before_ok (auths : list auth) b c st :
    before_chain auths = Some b ->
    (forall a, In a auths -> verify ext a req = Succeed) ->
    eval b c st = (Ok VNull, st).
  Proof.
    destruct auths as [|a t]; [discriminate|]. cbn. intros [= <-] H. cbn.
    rewrite (proj2 (fold_and_succeeds t a)); [reflexivity|]. split; intros; apply H; cbn; auto.
  Qed.

  Lemma before_err (auths : list auth) a c st :
    In a auths -> verify ext a req <> Succeed ->
    exists b er, before_chain auths = Some b /\ eval b c st = (Err (EAuth er), st).
  Proof.
    destruct auths as [|a0 t]; [intros []|]. intros I N. cbn.
    eexists. destruct (verify ext (fold_left AAnd t a0) req) as [|er] eqn:V.
    - apply fold_and_succeeds in V as [V1 V2]. exfalso. apply N. destruct I as [<-|I]; auto.
    - exists er. split; [reflexivity|]. cbn. now rewrite V.
  Qed.
End Hoist.

(** ** Caching *)
Section Caching.
  Context {IO : Type}.
  Notation ir := (ir IO).

  Lemma wrap_copy age : forall e : ir, CachedCopy age e (cache_wrap age e).
  Proof.
    induction e as [d|io|a io|e p IH|p|b e IH|e m IH|e1 e2 IH1 IH2|l IH|d e IH|m IH|s] using ir_ind';
      try (constructor; auto; fail).
    - constructor. induction IH as [|e l He _ IH]; constructor; auto.
    - constructor. induction IH as [|[k e] m He _ IH]; constructor; auto.
  Qed.

  Lemma copy_fun age : forall e x y : ir, CachedCopy age e x -> CachedCopy age e y -> x = y.
  Proof.
    induction e as [d|io|a io|e p IH|p|b e IH|e m IH|e1 e2 IH1 IH2|l IH|d e IH|m IH|s] using ir_ind';
      intros x y A B; inv A; inv B; try reflexivity; try (f_equal; auto; fail).
    - f_equal. rename H0 into X, H1 into Y. revert l' l'0 X Y.
      induction IH as [|e l He _ IH]; intros l1 l2 X Y; inv X; inv Y; f_equal; auto.
    - f_equal. rename H0 into X, H1 into Y. revert m' m'0 X Y.
      induction IH as [|[k e] m He _ IH]; intros l1 l2 X Y; inv X; inv Y; auto.
      destruct H1 as [X1 X2], H2 as [Y1 Y2]. cbn in *. destruct y as [k1 e1], y0 as [k2 e2]. cbn in *.
      subst. f_equal; auto. f_equal. auto.
  Qed.

  Context {F : Type}.
  Variable rx : req_ext.
  Variable ext : auth_ext.
  Variable req : request.
  Variable answer : IO -> ctx -> result value F.
  Variable elapsed : IO -> ctx -> outside -> Z.
  Variable cap : nat.
  Variable key : IO -> ctx -> option Z.
  Hypothesis key_det : forall io io' c c' k, key io c = Some k -> key io' c' = Some k ->
    answer io c = answer io' c'.

  Notation eval := (eval rx ext req (stable_call answer elapsed) key stable_get (stable_set cap)).
  Notation evals := (evals rx ext req (stable_call answer elapsed) key stable_get (stable_set cap)).
  Notation run_task := (run_task rx ext req (stable_call answer elapsed) key stable_get (stable_set cap)).
  Notation run_tasks := (run_tasks rx ext req (stable_call answer elapsed) key stable_get (stable_set cap)).
  Notation good := (Consistent answer key).

  Lemma In_remove (m : ttl_map value) k x : In x (t_remove k m) -> In x m.
  Proof. unfold t_remove. rewrite filter_In. tauto. Qed.

  Lemma In_insert n now k v ttl (m : ttl_map value) x :
    In x (t_insert n now k v ttl m) -> x = (k, (v, (now + ttl)%Z)) \/ In x m.
  Proof.
    unfold t_insert. intros H.
    assert (G : In x (t_remove k m ++ [(k, (v, (now + ttl)%Z))])).
    { destruct (Nat.ltb n _); auto. destruct (t_remove k m ++ _) as [|y t]; [destruct H|now right]. }
    apply in_app_or in G as [G|[<-|[]]]; auto. right. now apply In_remove in G.
  Qed.

  Lemma find_In k (m : ttl_map value) e : t_find k m = Some e -> In (k, e) m.
  Proof.
    induction m as [|[k' e'] m IH]; cbn; [discriminate|].
    destruct (Z.eqb_spec k k') as [->|]; [intros [= ->]; auto|right; auto].
  Qed.

  Lemma get_good o k v : good o -> t_get (o_now o) k (o_cache o) = Some v ->
    forall io c, key io c = Some k -> answer io c = Ok v.
  Proof.
    intros G H io c K. unfold t_get in H. destruct (t_find k (o_cache o)) as [[w t]|] eqn:T; [|discriminate].
    destruct (t <? o_now o)%Z; [discriminate|]. inv H. apply find_In in T. eapply G; eauto.
  Qed.

  Lemma cached_good age io c o : good o ->
    fst (eval_cached (stable_call answer elapsed) key stable_get (stable_set cap) age io c o) = lift (answer io c) /\
    good (snd (eval_cached (stable_call answer elapsed) key stable_get (stable_set cap) age io c o)).
  Proof.
    intros G. unfold eval_cached. destruct (key io c) as [k|] eqn:K; cbn.
    - destruct (t_get (o_now o) k (o_cache o)) as [v|] eqn:T.
      + cbn. rewrite (get_good o k v) by auto. split; auto.
      + cbn. destruct (answer io c) as [v|f] eqn:A; cbn.
        * split; auto. intros k' v' t' I io' c' K'. cbn in I. apply In_insert in I as [I|I].
          -- inv I. rewrite <- A. eapply key_det; eauto.
          -- eapply G; eauto.
        * split; auto.
    - split; auto.
  Qed.

  (** Each outcome is the same in any two consistent outsides, cached or not. *)
  Definition agree (x y : ir) : Prop :=
    forall c o o', good o -> good o' ->
      fst (eval x c o) = fst (eval y c o') /\ good (snd (eval x c o)) /\ good (snd (eval y c o')).

  Lemma copy_agree age : forall e x, CachedCopy age e x -> agree e x.
  Proof.
    induction e as [d|io|a io|e p IH|p|b e IH|e m IH|e1 e2 IH1 IH2|l IH|d e IH|m IH|s] using ir_ind';
      intros x X; inv X; intros c o o' G G'; try (cbn; auto; fail).
    - cbn [IrModel.eval]. destruct (cached_good age io c o' G') as [A B]. rewrite A. cbn. auto.
    - cbn [IrModel.eval]. destruct (cached_good age io c o' G') as [A B].
      destruct (cached_good a io c o G) as [A' B']. rewrite A, A'. auto.
    - destruct (IH _ H2 c o o' G G') as (A & B & C). cbn.
      destruct (eval e c o) as [r1 s1], (eval y c o') as [r2 s2]. cbn in *. subst r2. destruct r1; auto.
    - cbn. destruct (to_result (verify ext b req)); [|auto]. apply (IH _ H2); auto.
    - destruct (IH _ H2 c o o' G G') as (A & B & C). cbn.
      destruct (eval e c o) as [r1 s1], (eval y c o') as [r2 s2]. cbn in *. subst r2. destruct r1; auto.
    - destruct (IH1 _ H1 c o o' G G') as (A & B & C). cbn.
      destruct (eval e1 c o) as [r1 s1], (eval y c o') as [r2 s2]. cbn in *. subst r2.
      destruct r1 as [v|er]; auto. apply (IH2 _ H3); auto.
    - rewrite !eval_merge. rename H0 into X.
      enough (Q : forall o o', good o -> good o' -> fst (evals l c o) = fst (evals l' c o') /\
                good (snd (evals l c o)) /\ good (snd (evals l' c o'))).
      { destruct (Q o o' G G') as (A & B & C). destruct (evals l c o), (evals l' c o'). cbn in *.
        subst. auto. }
      clear o o' G G'. revert l' X. induction IH as [|e l He _ IH]; intros l' X o o' G G'; inv X; [cbn; auto|].
      destruct (He _ H1 c o o' G G') as (A & B & C). cbn.
      destruct (eval e c o) as [r1 s1], (eval y c o') as [r2 s2]. cbn in *. subst r2.
      destruct (IH _ H3 s1 s2 B C) as (A1 & B1 & C1).
      destruct (evals l c s1), (evals l'0 c s2). cbn in *. subst. auto.
    - destruct (IH _ H2 c o o' G G') as (A & B & C). cbn.
      destruct (eval e c o) as [r1 s1], (eval y c o') as [r2 s2]. cbn in *. subst r2. destruct r1; auto.
    - rewrite !eval_entity. rename H0 into X.
      assert (N : map fst m = map fst m').
      { clear - X. induction X as [|x y m m' [A _] _ IH]; cbn; congruence. }
      rewrite <- N.
      destruct (option_map cow_value (path_arg c ["representations"])) as [[| | | | |l|]|]; cbn; auto.
      destruct (check_representations (map fst m) l) as [tasks|er]; cbn; auto.
      assert (T : forall n repr o o', good o -> good o' ->
        fst (run_task m n repr c o) = fst (run_task m' n repr c o') /\
        good (snd (run_task m n repr c o)) /\ good (snd (run_task m' n repr c o'))).
      { clear - IH X. intros n repr o o' G G'. unfold IrProofs.run_task.
        induction X as [|[k e] [k' e'] m m' [A B] _ IHX]; [cbn; auto|].
        cbn in A. subst k'. inversion IH as [|? ? He Hm]; subst. cbn [aget].
        destruct (String.eqb n k); [|apply IHX; auto].
        destruct (He _ B (with_value repr c) o o' G G') as (A1 & B1 & C1). cbn [snd] in *.
        destruct (eval e (with_value repr c) o), (eval e' (with_value repr c) o'). cbn in *. subst. auto. }
      assert (Q : forall o o', good o -> good o' ->
        fst (run_tasks m c tasks o) = fst (run_tasks m' c tasks o') /\
        good (snd (run_tasks m c tasks o)) /\ good (snd (run_tasks m' c tasks o'))).
      { clear o o' G G'. induction tasks as [|[n repr] t IHt]; intros o o' G G'; [cbn; auto|].
        destruct (T n repr o o' G G') as (A & B & C). cbn.
        destruct (run_task m n repr c o) as [r1 s1], (run_task m' n repr c o') as [r2 s2]. cbn in *. subst r2.
        destruct (IHt s1 s2 B C) as (A1 & B1 & C1).
        destruct (run_tasks m c t s1), (run_tasks m' c t s2). cbn in *. subst. auto. }
      destruct (Q o o' G G') as (A & B & C).
      destruct (run_tasks m c tasks o), (run_tasks m' c tasks o'). cbn in *. subst. auto.
  Qed.

  Theorem caching_transparent age (e : ir) c o :
    good o ->
    fst (eval (cache_wrap age e) c o) = fst (eval e c o) /\ good (snd (eval (cache_wrap age e) c o)).
  Proof.
    intros G. destruct (copy_agree age e _ (wrap_copy age e) c o o G G) as (A & B & C). auto.
  Qed.
End Caching.
