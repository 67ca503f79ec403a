(** Proofs about the sharing of operations (C54). *)
From Coq Require Import String ZArith Bool List.
From Verif Require Import Base BaseFacts JsonModel MustacheModel CtxModel AuthModel DiscModel MergeModel IrModel IrSpec IrProofs
  PlanModel OpModel ExecModel ShareSpec GuardProofs OpProofs.
Import ListNotations.

Section Share.
  Context {IO : Type}.
  Notation ir := (ir IO).
  Notation field := (pfield ir).
  Variable dedupe : IO -> bool.

  Lemma dedupe_sound : forall e : ir, NoMapping e -> check_dedupe dedupe e = true ->
    forall io, Makes e io -> dedupe io = true.
  Proof.
    induction e as [d|io|age io|e p IH|p|a e IH|e m IH|e1 e2 IH1 IH2|l IH|d e IH|m IH|s] using ir_ind';
      intros N H x M; inversion M; subst; cbn in H; try (now inversion N; subst; auto).
    - inversion N; subst. apply andb_true_iff in H as [? ?]. auto.
    - inversion N; subst. apply andb_true_iff in H as [? ?]. auto.
    - inversion N as [| | | | | | |? NL| | |]; subst. rewrite Forall_forall in IH. rewrite forallb_forall in H. eauto.
    - inversion N as [| | | | | | | | |? NM|]; subst. rewrite Forall_forall in IH. rewrite forallb_forall in H.
      match goal with I : In (?k, ?e) m |- _ => refine (IH (k, e) I (NM k e I) (H (k, e) I) x _) end. assumption.
  Qed.

  Lemma dedupe_complete : forall e : ir, (forall io, Makes e io -> dedupe io = true) -> check_dedupe dedupe e = true.
  Proof.
    induction e as [d|io|age io|e p IH|p|a e IH|e m IH|e1 e2 IH1 IH2|l IH|d e IH|m IH|s] using ir_ind'; intros H; cbn; auto.
    - apply H. constructor.
    - apply H. constructor.
    - apply IH. intros. apply H. now constructor.
    - apply IH. intros. apply H. now constructor.
    - rewrite IH1, IH2; auto; intros; apply H; [now apply M_pipe2|now apply M_pipe1].
    - apply forallb_forall. intros e I. rewrite Forall_forall in IH. apply IH; auto. intros. apply H. eapply M_merge; eauto.
    - apply IH. intros. apply H. now constructor.
    - apply forallb_forall. intros [k e] I. rewrite Forall_forall in IH. apply (IH (k, e)); auto.
      intros. apply H. eapply M_entity; eauto.
  Qed.

  Lemma omin_some a b : (exists t, omin a b = Some t) <-> (exists t, a = Some t) /\ (exists t, b = Some t).
  Proof. destruct a as [x|], b as [y|]; cbn; split; try (intros [? ?]; discriminate); try (intros [[? ?] [? ?]]; discriminate); eauto. Qed.
  Lemma fold_omin_some l : forall a, (exists t, fold_left omin l a = Some t) <->
    (exists t, a = Some t) /\ forall b, In b l -> exists t, b = Some t.
  Proof.
    induction l as [|b l IH]; intros a; cbn; [split; [intros H; split; [exact H|intros b []]|intros [H _]; exact H]|].
    rewrite IH, omin_some. split.
    - intros [[A B] H]. split; [exact A|]. intros c [<-|I]; auto.
    - intros [A H]. split; [split; [exact A|apply H; now left]|]. intros c I. apply H. now right.
  Qed.

  Lemma cache_spec : forall e : ir, (exists t, check_cache e = Some t) <-> Cached e.
  Proof.
    induction e as [d|io|age io|e p IH|p|a e IH|e m IH|e1 e2 IH1 IH2|l IH|d e IH|m IH|s] using ir_ind'; cbn [check_cache];
      try (split; [intros [? ?]; discriminate | intros K; now inversion K]).
    - split; [constructor|eauto].
    - rewrite IH. split; [now constructor|intros K; now inversion K].
    - rewrite IH. split; [now constructor|intros K; now inversion K].
    - rewrite omin_some, IH1, IH2. split; [intros [? ?]; now constructor|intros K; now inversion K].
    - destruct l as [|e l]; [split; [intros [? ?]; discriminate | intros K; inversion K; congruence]|].
      rewrite fold_omin_some. rewrite Forall_forall in IH. split.
      + intros [A B]. constructor; [discriminate|]. intros x [<-|I]; [apply IH; [now left|auto]|].
        apply IH; [now right|]. apply B. apply in_map. auto.
      + intros K. inversion K as [| | | |? _ KL| |]; subst. split; [apply IH; [now left|apply KL; now left]|].
        intros b I. apply in_map_iff in I as [x [<- I]]. apply IH; [now right|]. apply KL. now right.
    - rewrite IH. split; [now constructor|intros K; now inversion K].
    - destruct m as [|[k e] m]; [split; [intros [? ?]; discriminate | intros K; inversion K; congruence]|].
      rewrite fold_omin_some. rewrite Forall_forall in IH. split.
      + intros [A B]. constructor; [discriminate|]. intros k' x [[= <- <-]|I]; [apply (IH (k, e)); [now left|auto]|].
        apply (IH (k', x)); [now right|]. apply B. apply in_map_iff. exists (k', x). auto.
      + intros K. inversion K as [| | | | | |? _ KL]; subst. split; [apply (IH (k, e)); [now left|apply (KL k); now left]|].
        intros b I. apply in_map_iff in I as [[k' x] [<- I]]. apply (IH (k', x)); [now right|]. apply (KL k'). now right.
  Qed.

  Lemma mustache_const_spec m : mustache_is_const m = true <-> forall p, ~ In (Expression p) m.
  Proof.
    induction m as [|[s|p] m IH]; cbn.
    - split; [intros _ p []|reflexivity].
    - rewrite IH. split; [intros H p [C|I]; [discriminate|now apply (H p)]|intros H p I; apply (H p); now right].
    - split; [discriminate|]. intros H. destruct (H p). now left.
  Qed.

  Fixpoint fixed_spec (d : dynamic) : dynamic_is_const d = true <-> Fixed d.
  Proof.
    destruct d as [v|m|l|l]; cbn.
    - split; [constructor|reflexivity].
    - rewrite mustache_const_spec. split; [now constructor|intros H; now inversion H].
    - rewrite forallb_forall. assert (G : forall kv, In kv l -> (dynamic_is_const (snd kv) = true <-> Fixed (snd kv))).
      { clear -fixed_spec. induction l as [|[k d] l IH]; [intros kv []|intros kv [<-|I]; [apply fixed_spec|exact (IH kv I)]]. }
      split.
      + intros H. constructor. intros k d I. apply (G (k, d) I), (H (k, d) I).
      + intros H [k d] I. apply (G (k, d) I). inversion H as [| |? K|]; subst. exact (K k d I).
    - rewrite forallb_forall. assert (G : forall d, In d l -> (dynamic_is_const d = true <-> Fixed d)).
      { clear -fixed_spec. induction l as [|d l IH]; [intros x []|intros x [<-|I]; [apply fixed_spec|exact (IH x I)]]. }
      split.
      + intros H. constructor. intros d I. apply (G d I), (H d I).
      + intros H d I. apply (G d I). inversion H as [| | |? K]; subst. exact (K d I).
  Qed.

  Lemma const_spec : forall e : ir, is_const e = true <-> Constant e.
  Proof.
    induction e as [d|io|age io|e p IH|p|a e IH|e m IH|e1 e2 IH1 IH2|l IH|d e IH|m IH|s] using ir_ind'; cbn;
      try (split; [discriminate | intros K; now inversion K]);
      try (rewrite IH; split; [now constructor|intros K; now inversion K]).
    - rewrite fixed_spec. split; [now constructor|intros K; now inversion K].
    - rewrite andb_true_iff, IH1, IH2. split; [intros [? ?]; now constructor|intros K; now inversion K].
    - rewrite forallb_forall. rewrite Forall_forall in IH. split.
      + intros H. constructor. intros e I. apply IH; auto.
      + intros H e I. apply IH; auto. inversion H; subst; auto.
    - rewrite forallb_forall. rewrite Forall_forall in IH. split.
      + intros H. constructor. intros k e I. apply (IH (k, e) I), (H (k, e) I).
      + intros H [k e] I. apply (IH (k, e) I). inversion H; subst; eauto.
    - split; [constructor|reflexivity].
  Qed.

  Lemma guarded_spec : forall e : ir, is_protected e = true <-> Guarded e.
  Proof.
    induction e as [d|io|age io|e p IH|p|a e IH|e m IH|e1 e2 IH1 IH2|l IH|d e IH|m IH|s] using ir_ind'; cbn;
      try (split; [discriminate | intros K; now inversion K]);
      try (rewrite IH; split; [now constructor|intros K; now inversion K]).
    - split; [constructor|reflexivity].
    - rewrite orb_true_iff, IH1, IH2. split; [intros [?|?]; [now apply G_pipe1|now apply G_pipe2]|intros K; inversion K; auto].
    - rewrite forallb_forall. rewrite Forall_forall in IH. split.
      + intros H. constructor. intros e I. apply IH; auto.
      + intros H e I. apply IH; auto. inversion H; subst; auto.
    - rewrite existsb_exists. rewrite Forall_forall in IH. split.
      + intros [[k e] [I H]]. apply (G_entity m k e I). apply (IH (k, e) I), H.
      + intros H. inversion H as [| | | | | | |? k e I G]; subst. exists (k, e). split; [auto|]. now apply (IH (k, e) I).
  Qed.

  (** Taking the guards out changes nothing of this. *)
  Lemma updated_dedupe : forall e : ir, check_dedupe dedupe (fst (update_ir e)) = check_dedupe dedupe e.
  Proof.
    induction e as [d|io|age io|e p IH|p|a e IH|e m IH|e1 e2 IH1 IH2|l IH|d e IH|m IH|s] using ir_ind'; try reflexivity.
    - cbn. destruct (update_ir e). exact IH.
    - cbn. destruct (update_ir e). exact IH.
    - cbn. destruct (update_ir e1), (update_ir e2). cbn in *. now rewrite IH1, IH2.
    - rewrite update_merge. destruct (update_irs l) as [l' al] eqn:U. cbn [fst check_dedupe].
      revert l' al U. induction IH as [|e l E _ IH]; intros l' al U; cbn in U.
      + injection U as <- <-. reflexivity.
      + destruct (update_ir e) as [e' b]. destruct (update_irs l) as [t' b'] eqn:U'. injection U as <- <-.
        cbn in *. rewrite E. f_equal. eapply IH; eauto.
    - cbn. destruct (update_ir e). exact IH.
  Qed.
  Lemma updated_cache : forall e : ir, check_cache (fst (update_ir e)) = check_cache e.
  Proof.
    induction e as [d|io|age io|e p IH|p|a e IH|e m IH|e1 e2 IH1 IH2|l IH|d e IH|m IH|s] using ir_ind'; try reflexivity.
    - cbn. destruct (update_ir e). exact IH.
    - cbn. destruct (update_ir e). exact IH.
    - cbn. destruct (update_ir e1), (update_ir e2). cbn in *. now rewrite IH1, IH2.
    - rewrite update_merge. destruct (update_irs l) as [l' al] eqn:U. cbn [fst].
      assert (E : map check_cache l' = map check_cache l).
      { revert l' al U. induction IH as [|e l E _ IH]; intros l' al U; cbn in U.
        - injection U as <- <-. reflexivity.
        - destruct (update_ir e) as [e' b]. destruct (update_irs l) as [t' b'] eqn:U'. injection U as <- <-.
          cbn in *. rewrite E. f_equal. eapply IH; eauto. }
      clear U. cbn [check_cache]. destruct l' as [|x l'], l as [|y l]; try discriminate; [reflexivity|].
      cbn in E. injection E as -> ->. reflexivity.
    - cbn. destruct (update_ir e). exact IH.
  Qed.

  Lemma updated_irs : forall fs : list field,
    map p_ir (fst (update_fields fs)) = map (fun f => option_map (fun e => fst (update_ir e)) (p_ir f)) fs.
  Proof.
    induction fs as [|f fs IH]; [reflexivity|]. cbn. rewrite update_field_eq.
    destruct (update_fields fs) as [fs' b]. cbn in IH.
    destruct f as [i n o [e|] t c s inc en sc sel]; cbn; now rewrite IH.
  Qed.

  Lemma plan_dedupe_spec (fs : list field) :
    plan_is_dedupe dedupe (fst (update_fields fs)) = true <->
    forall f e, In f fs -> p_ir f = Some e -> check_dedupe dedupe e = true.
  Proof.
    unfold plan_is_dedupe.
    assert (E : forall l : list field, forallb (ir_all (check_dedupe dedupe)) l =
      forallb (fun o => match o with Some e => check_dedupe dedupe e | None => true end) (map p_ir l)).
    { induction l as [|f l IH]; [reflexivity|]. cbn. now rewrite IH. }
    rewrite E, updated_irs, forallb_forall. split.
    - intros H f e I P. specialize (H (Some (fst (update_ir e)))). cbn in H. rewrite updated_dedupe in H.
      apply H. apply in_map_iff. exists f. rewrite P. auto.
    - intros H o I. apply in_map_iff in I as [f [<- I]]. destruct (p_ir f) as [e|] eqn:P; [|reflexivity].
      cbn. rewrite updated_dedupe. eauto.
  Qed.

  Lemma plan_ttl_spec (fs : list field) :
    (exists t, plan_min_ttl (fst (update_fields fs)) = Some t) <->
    forall f e, In f fs -> p_ir f = Some e -> Cached e.
  Proof.
    unfold plan_min_ttl.
    assert (E : forall (l : list field) a, fold_left (fun ttl f => match p_ir f with Some e => omin ttl (check_cache e) | None => ttl end) l a =
      fold_left omin (flat_map (fun o => match o with Some e => [check_cache e] | None => [] end) (map p_ir l)) a).
    { induction l as [|f l IH]; intros a; [reflexivity|]. cbn. rewrite IH. now destruct (p_ir f). }
    rewrite E, updated_irs, fold_omin_some. split.
    - intros [_ H] f e I P. apply cache_spec. apply H. apply in_flat_map. exists (Some (fst (update_ir e))).
      split; [apply in_map_iff; exists f; now rewrite P|]. rewrite updated_cache. now left.
    - intros H. split; [eauto|]. intros b I. apply in_flat_map in I as [o [I J]]. apply in_map_iff in I as [f [<- I]].
      destruct (p_ir f) as [e|] eqn:P; [|easy]. cbn in J. rewrite updated_cache in J. destruct J as [<-|[]].
      apply cache_spec. eauto.
  Qed.

  Lemma within_sel (fs : list field) f : In f (flat_map dfs fs) <-> Within fs f.
  Proof.
    assert (D : forall g : field, (forall f, In f (dfs g) <-> f = g \/ Within (p_selection g) f)).
    { clear. fix D 1. intros [i n o e t c s inc en sc sel] f.
      cbn [dfs p_selection].
      match goal with |- context [_ :: ?go sel] => assert (G : In f (go sel) <-> Within sel f) end.
      { clear -D. induction sel as [|g l IH]; cbn.
        - split; [easy|]. intros W. inversion W; subst; easy.
        - rewrite in_app_iff, IH, (D g f). clear -D. split.
          + intros [[->|W]|W]; [apply W_here; now left|eapply W_below; [now left|exact W]|].
            inversion W; subst; [apply W_here; now right|eapply W_below; [right; eauto|auto]].
          + intros W. inversion W as [? ? I|? h ? I J]; subst; destruct I as [<-|I]; auto.
            * right. now apply W_here.
            * right. eapply W_below; eauto. }
      cbn. rewrite G. intuition. }
    split.
    - intros I. apply in_flat_map in I as [g [I J]]. apply D in J as [->|W]; [now apply W_here|eapply W_below; eauto].
    - intros W. apply in_flat_map. inversion W as [? ? I|? h ? I J]; subst.
      + exists f. split; [auto|]. apply D. auto.
      + exists h. split; [auto|]. apply D. auto.
  Qed.

  Lemma plan_const_spec (fs : list field) :
    plan_is_const fs = true <-> forall f e, Within fs f -> p_ir f = Some e -> Constant e.
  Proof.
    unfold plan_is_const, all_fields. rewrite forallb_forall. split.
    - intros H f e W P. apply within_sel in W. apply const_spec. specialize (H f W). unfold ir_all in H. now rewrite P in H.
    - intros H f I. unfold ir_all. destruct (p_ir f) as [e|] eqn:P; [|reflexivity]. apply const_spec. apply (H f e); auto.
      now apply within_sel.
  Qed.
  Lemma plan_protected_spec (fs : list field) :
    plan_is_protected fs = true <-> forall f e, Within fs f -> p_ir f = Some e -> Guarded e.
  Proof.
    unfold plan_is_protected, all_fields. rewrite forallb_forall. split.
    - intros H f e W P. apply within_sel in W. apply guarded_spec. specialize (H f W). unfold ir_all in H. now rewrite P in H.
    - intros H f I. unfold ir_all. destruct (p_ir f) as [e|] eqn:P; [|reflexivity]. apply guarded_spec. apply (H f e); auto.
      now apply within_sel.
  Qed.

  Lemma shared_spec root q (fs : list field) :
    plan_can_dedupe (finish_plan dedupe root q fs) = true <->
    q = true /\
    ((forall f e, In f fs -> p_ir f = Some e -> check_dedupe dedupe e = true) \/
     (forall f e, Within fs f -> p_ir f = Some e -> Constant e) \/
     (forall f e, In f fs -> p_ir f = Some e -> Cached e)).
  Proof.
    unfold plan_can_dedupe, finish_plan, plan_auth.
    pose proof (plan_dedupe_spec fs) as D. pose proof (plan_ttl_spec fs) as T. pose proof (plan_const_spec fs) as K.
    destruct (update_fields fs) as [fs' auths]. cbn [fst pl_query pl_dedupe pl_const pl_ttl] in *.
    rewrite andb_true_iff, !orb_true_iff, D, K, <- T.
    destruct (plan_min_ttl fs'); [|]; split.
    - intros [Q _]. split; [auto|]. right. right. eauto.
    - intros [Q _]. split; auto.
    - intros [Q [[H|H]|C]]; [split; auto|split; auto|discriminate].
    - intros [Q [H|[H|[t C]]]]; [split; auto|split; auto|discriminate].
  Qed.
End Share.
