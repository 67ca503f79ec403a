(** Laws of composed transformations. *)
From Coq Require Import String Bool List Lia.
From Verif Require Import Base ComposeModel ComposeSpec.
Import ListNotations.
Open Scope list_scope.

Section P.
  Context {V E : Type}.
  Implicit Types a b c : transform V E.
  Lemma pipe_assoc a b c v : pipe (pipe a b) c v = pipe a (pipe b c) v.
  Proof. unfold pipe, and_then, rbind. destruct (a v); auto. Qed.
  Lemma pipe_default_l a v : pipe default a v = a v.
  Proof. reflexivity. Qed.
  Lemma pipe_default_r a v : pipe a default v = a v.
  Proof. unfold pipe, and_then, rbind. destruct (a v); auto. Qed.
  Lemma pipes_succeed : forall (l : list (transform V E)) a v v', fold_left pipe l a v = Ok v' <-> succeeds (a :: l) v v'.
  Proof.
    induction l as [|b l IH]; intros a v v'; cbn [fold_left].
    - split; [intros H; econstructor; [exact H|constructor]|]. intros H. inversion H as [|? ? ? ? ? H1 H2]; subst. inversion H2; subst. auto.
    - rewrite IH. split; intros H.
      + inversion H as [|? ? ? s1 ? H1 H2]; subst. unfold pipe, and_then, rbind in H1. destruct (a v) eqn:A; [|discriminate]. econstructor; [exact A|]. econstructor; eauto.
      + inversion H as [|? ? ? s1 ? H1 H2]; subst. inversion H2 as [|? ? ? s2 ? H3 H4]; subst. econstructor; [|exact H4]. unfold pipe, and_then, rbind. now rewrite H1.
  Qed.
  Lemma pipes_stop : forall (l : list (transform V E)) a v e, fold_left pipe l a v = Err e <-> stops (a :: l) v e.
  Proof.
    induction l as [|b l IH]; intros a v e; cbn [fold_left].
    - split; [intros H; now constructor|]. intros H. inversion H as [|? ? ? ? ? H1 H2]; subst; auto. inversion H2.
    - rewrite IH. split; intros H.
      + inversion H as [? ? ? ? H1|? ? ? s1 ? H1 H2]; subst; unfold pipe, and_then, rbind in H1; destruct (a v) eqn:A; try discriminate.
        * eapply stops_later; [exact A|]. now constructor.
        * injection H1 as ->. now constructor.
        * eapply stops_later; [exact A|]. eapply stops_later; eauto.
      + inversion H as [? ? ? ? H1|? ? ? s1 ? H1 H2]; subst.
        * apply stops_here. unfold pipe, and_then, rbind. now rewrite H1.
        * inversion H2 as [? ? ? ? H3|? ? ? s2 ? H3 H4]; subst.
          { apply stops_here. unfold pipe, and_then, rbind. now rewrite H1. }
          { eapply stops_later; [|exact H4]. unfold pipe, and_then, rbind. now rewrite H1. }
  Qed.
End P.

Section T.
  Context {I O E : Type}.
  Implicit Types a b c : try_fold I E O.
  Lemma and_empty_l a i s : and_ empty a i s = a i s.
  Proof. reflexivity. Qed.
  Lemma and_empty_r a i s : and_ a empty i s = a i s.
  Proof. unfold and_, fold, empty. destruct (a i s); auto. Qed.
  Lemma and_ok a b i s s' : and_ a b i s = Ok s' <-> exists s1, a i s = Ok s1 /\ b i s1 = Ok s'.
  Proof.
    unfold and_, fold. destruct (a i s) as [s1|e]; [|destruct (b i s)].
    - split; [eauto|]. intros (x & H & B). injection H as <-. auto.
    - split; [discriminate|]. intros (x & H & B). discriminate.
    - split; [discriminate|]. intros (x & H & B). discriminate.
  Qed.
  Lemma and_assoc_ok a b c i s s' : and_ (and_ a b) c i s = Ok s' <-> and_ a (and_ b c) i s = Ok s'.
  Proof.
    rewrite !and_ok. split.
    - intros (s1 & H & C). apply and_ok in H as (s0 & A & B). exists s0. split; [auto|]. apply and_ok. eauto.
    - intros (s0 & A & H). apply and_ok in H as (s1 & B & C). exists s1. split; [|auto]. apply and_ok. eauto.
  Qed.
  Lemma from_iter_ok i : forall l s s', from_iter l i s = Ok s' <-> succeeds (map (fun a => a i) l) s s'.
  Proof.
    induction l as [|a l IH]; intros s s'; cbn [map from_iter].
    - split; [intros H; injection H as <-; constructor|]. intros H. inversion H; subst. reflexivity.
    - rewrite and_ok. split.
      + intros (s1 & A & B). apply IH in B. econstructor; eauto.
      + intros H. inversion H as [|? ? ? s1 ? H1 H2]; subst. exists s1. split; [auto|now apply IH].
  Qed.
  Lemma reports_total : forall (l : list (O -> checked O E)) s, exists s' es, reports l s s' es.
  Proof.
    induction l as [|f l IH]; intros s; [exists s, []; constructor|].
    destruct (f s) as [s1|e] eqn:F.
    - destruct (IH s1) as (s' & es & R). exists s', es. econstructor; eauto.
    - destruct (IH s) as (s' & es & R). exists s', (e ++ es). eapply reports_err; eauto.
  Qed.
  Lemma reports_fun (l : list (O -> checked O E)) s s1 e1 : reports l s s1 e1 -> forall s2 e2, reports l s s2 e2 -> s1 = s2 /\ e1 = e2.
  Proof.
    induction 1 as [s|f l s s0 s1 es F R IH|f l s s1 e es F R IH]; intros s2 e2 H; inversion H; subst; auto; try congruence.
    - match goal with X : f s = Ok ?x |- _ => assert (x = s0) by congruence; subst x end. auto.
    - match goal with X : f s = Err ?x |- _ => assert (x = e) by congruence; subst x end. edestruct IH as [-> ->]; eauto.
  Qed.
  Lemma reports_succeeds (l : list (O -> checked O E)) s s' : succeeds l s s' -> reports l s s' [].
  Proof. induction 1; econstructor; eauto. Qed.
  Lemma from_iter_reports i : forall l s, match from_iter l i s with
    | Ok s' => reports (map (fun a => a i) l) s s' []
    | Err es => exists s', reports (map (fun a => a i) l) s s' es
    end.
  Proof.
    induction l as [|a l IH]; intros s; cbn [map from_iter].
    - constructor.
    - unfold and_, fold. destruct (a i s) as [s1|e] eqn:A.
      + specialize (IH s1). destruct (from_iter l i s1); [econstructor; eauto|]. destruct IH as (s' & R). exists s'. econstructor; eauto.
      + specialize (IH s). destruct (from_iter l i s) as [s'|es].
        * exists s'. rewrite <- (app_nil_r e). eapply reports_err; eauto.
        * destruct IH as (s' & R). exists s'. eapply reports_err; eauto.
  Qed.
  Lemma from_iter_err i l s es : from_iter l i s = Err es <->
    (exists s', reports (map (fun a => a i) l) s s' es) /\ ~ exists s', succeeds (map (fun a => a i) l) s s'.
  Proof.
    pose proof (from_iter_reports i l s) as H. split.
    - intros X. rewrite X in H. split; [auto|]. intros (s' & Y). apply from_iter_ok in Y. congruence.
    - intros [(s' & R) N]. destruct (from_iter l i s) as [s2|e2] eqn:F.
      + exfalso. apply N. exists s2. now apply from_iter_ok.
      + destruct H as (s2 & R2). destruct (reports_fun _ _ _ _ R _ _ R2) as [_ ->]. auto.
  Qed.
  Lemma chain_ok i : forall l a s s', fold_left and_ l a i s = Ok s' <-> succeeds (map (fun a => a i) (a :: l)) s s'.
  Proof.
    induction l as [|b l IH]; intros a s s'; cbn [fold_left].
    - cbn. split; [intros H; econstructor; [exact H|constructor]|]. intros H. inversion H as [|? ? ? ? ? H1 H2]; subst. inversion H2; subst. auto.
    - rewrite IH. cbn [map]. split; intros H.
      + inversion H as [|? ? ? s1 ? H1 H2]; subst. apply and_ok in H1 as (s0 & A & B). econstructor; [exact A|]. econstructor; eauto.
      + inversion H as [|? ? ? s1 ? H1 H2]; subst. inversion H2 as [|? ? ? s2 ? H3 H4]; subst. econstructor; [|exact H4]. apply and_ok. eauto.
  Qed.
  Lemma chain_err i : forall l a s es, fold_left and_ l a i s = Err es <->
    exists l1 f l2 s1 e, a :: l = l1 ++ f :: l2 /\ succeeds (map (fun a => a i) l1) s s1 /\ f i s1 = Err e /\
      es = e ++ flat_map (fun g => errors (g i s)) l2.
  Proof.
    induction l as [|b l IH]; intros a s es; cbn [fold_left].
    - split.
      + intros H. exists [], a, [], s, es. cbn. rewrite app_nil_r. repeat split; auto. constructor.
      + intros ([|x l1] & f & l2 & s1 & e & H & Sc & F & ->); cbn in H; [|injection H as <- H; destruct l1; discriminate].
        injection H as <- <-. inversion Sc; subst. cbn. now rewrite app_nil_r.
    - rewrite IH. split.
      + intros (l1 & f & l2 & s1 & e & H & Sc & F & ->). destruct l1 as [|x l1]; cbn in H; injection H as <- H.
        * subst l2. cbn in Sc. inversion Sc; subst. unfold and_, fold in F. destruct (a i s1) as [s2|e1] eqn:A.
          { exists [a], b, l, s2, e. cbn. repeat split; auto. econstructor; [exact A|constructor]. }
          { exists [], a, (b :: l), s1, e1. cbn. refine (conj eq_refl (conj (succeeds_nil _) (conj A _))). destruct (b i s1); injection F as <-; cbn; [auto|now rewrite app_assoc]. }
        * cbn in Sc. inversion Sc as [|? ? ? s0 ? H1 H2]; subst. apply and_ok in H1 as (s2 & A & B).
          exists (a :: b :: l1), f, l2, s1, e. cbn. repeat split; auto. econstructor; [exact A|]. econstructor; eauto.
      + intros (l1 & f & l2 & s1 & e & H & Sc & F & ->). destruct l1 as [|x l1]; cbn in H; injection H as <- H.
        * subst l2. cbn in Sc. inversion Sc; subst. exists [], (and_ a b), l, s1, (e ++ errors (b i s1)). cbn. refine (conj eq_refl (conj (succeeds_nil _) (conj _ (app_assoc _ _ _)))).
          unfold and_, fold. rewrite F. destruct (b i s1); cbn; [now rewrite app_nil_r|auto].
        * cbn in Sc. inversion Sc as [|? ? ? s0 ? H1 H2]; subst. destruct l1 as [|y l1]; cbn in H; injection H as <- H.
          { subst l2. inversion H2; subst. exists [], (and_ a b), l, s, e. cbn. refine (conj eq_refl (conj (succeeds_nil _) (conj _ eq_refl))). unfold and_, fold. now rewrite H1. }
          { cbn in H2. inversion H2 as [|? ? ? s2 ? H3 H4]; subst. exists (and_ a b :: l1), f, l2, s1, e. cbn. repeat split; auto. econstructor; [|exact H4].
            apply and_ok. eauto. }
  Qed.
  Lemma trace_spec a msg i s :
    (forall s', trace a msg i s = Ok s' <-> a i s = Ok s') /\
    (forall es, a i s = Err es -> trace a msg i s = Err (map (fun x => Build_cause (msg :: at_ x) (message x)) es)).
  Proof. unfold trace, traced. destruct (a i s) as [x|e]; split; [tauto|discriminate|split; discriminate|intros es H; injection H as <-; auto]. Qed.
End T.
Lemma update_spec {I O E} (a : try_fold I E O) f i s : update a f i s = match a i s with Ok s' => Ok (f s') | Err e => Err e end.
Proof. unfold update, transform_plain, transform_valid, and_then, rbind. destruct (a i s); auto. Qed.
Lemma transform_spec {I O O1 E} (a : try_fold I E O) (up : O -> O1 -> O1) (down : O1 -> O) i o1 :
  transform_plain a up down i o1 = match a i (down o1) with Ok o => Ok (up o o1) | Err e => Err e end.
Proof. unfold transform_plain, transform_valid, and_then, rbind. destruct (a i (down o1)); auto. Qed.
(** A fold lifted through a pair of functions that lose nothing is composed by lifting. *)
Lemma lift_and {I O O1 E} (a b : try_fold I E O) (up : O -> O1 -> O1) (down : O1 -> O) i o1 :
  (forall o o1, down (up o o1) = o) -> (forall o o' o1, up o (up o' o1) = up o o1) ->
  and_ (transform_plain a up down) (transform_plain b up down) i o1 = transform_plain (and_ a b) up down i o1.
Proof.
  intros D U. unfold and_, fold. rewrite !transform_spec. destruct (a i (down o1)) as [o|e].
  - rewrite transform_spec, D. destruct (b i o); [rewrite U|]; reflexivity.
  - destruct (b i (down o1)); reflexivity.
Qed.
