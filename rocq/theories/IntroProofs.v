(** Proofs about introspection. *)
From Coq Require Import String Ascii Bool List Arith Lia.
From Verif Require Import Base JsonModel TypeModel PlanModel BuilderModel IntroModel IntroSpec BaseFacts.
Import ListNotations.
Open Scope string_scope.
Open Scope list_scope.

Lemma prefix_app a b : String.prefix a (a ++ b)%string = true.
Proof. induction a as [|c a IH]; cbn; [now destruct b|]. destruct (ascii_dec c c); [exact IH|congruence]. Qed.
Lemma prefix_ok a s : String.prefix a s = true -> exists b, s = (a ++ b)%string.
Proof.
  revert s. induction a as [|c a IH]; intros s H; [exists s; reflexivity|]. destruct s as [|d s]; [discriminate|]. cbn in H.
  destruct (ascii_dec c d) as [->|]; [|discriminate]. destruct (IH _ H) as (b & ->). exists b. reflexivity.
Qed.
Lemma contains_ok needle s : contains needle s = true <-> exists a b, s = (a ++ needle ++ b)%string.
Proof.
  split.
  - induction s as [|c s IH]; cbn [contains]; intros H; apply orb_true_iff in H; destruct H as [H|H].
    + apply prefix_ok in H. destruct H as (b & ->). exists "", b. reflexivity.
    + discriminate.
    + apply prefix_ok in H. destruct H as (b & E). exists "", b. exact E.
    + destruct (IH H) as (a & b & ->). exists (String c a), b. reflexivity.
  - intros (a & b & ->). induction a as [|c a IH]; cbn [append].
    + destruct (needle ++ b)%string as [|d s] eqn:E; cbn [contains]; rewrite <- E, prefix_app; reflexivity.
    + cbn [contains]. rewrite IH. apply orb_true_r.
Qed.

Lemma add_joined first o : forall l r, joined first l r -> joined first (l ++ o) (fold_left add_missing o r).
Proof.
  induction o as [|[k v] o IH]; intros l r J; [now rewrite app_nil_r|]. cbn [fold_left]. replace (l ++ (k, v) :: o) with ((l ++ [(k, v)]) ++ o) by (rewrite <- app_assoc; reflexivity).
  apply IH. unfold add_missing. cbn [fst]. destruct (aget k r) as [x|] eqn:E.
  - apply joined_old; [exact J|]. apply aget_In in E. apply in_map_iff. exists (k, x). auto.
  - apply joined_new; [exact J|]. now apply aget_None.
Qed.
Lemma joined_first first l r : joined first l r -> exists rest, r = first ++ rest /\ forall k v, In (k, v) rest -> In (k, v) l /\ ~ In k (map fst first).
Proof.
  induction 1 as [|l k v r J (rest & -> & R) N|l k v r J (rest & -> & R) I].
  - exists []. split; [now rewrite app_nil_r|]. intros k v [].
  - exists (rest ++ [(k, v)]). split; [now rewrite app_assoc|]. intros k' v' X. apply in_app_iff in X. destruct X as [X|[X|[]]].
    + destruct (R _ _ X). split; [apply in_app_iff; now left|assumption].
    + injection X as <- <-. split; [apply in_app_iff; right; now left|]. intros F. apply N. rewrite map_app. apply in_app_iff. now left.
  - exists rest. split; [reflexivity|]. intros k' v' X. destruct (R _ _ X). split; [apply in_app_iff; now left|assumption].
Qed.
Lemma joined_get first l r : joined first l r -> forall k, aget k r = match aget k first with Some v => Some v | None => aget k l end.
Proof.
  intros J k. induction J as [|l k0 v r J IH N|l k0 v r J IH I].
  - cbn. now destruct (aget k first).
  - rewrite !aget_app, IH. destruct (aget k first) eqn:F; [reflexivity|]. now destruct (aget k l).
  - rewrite aget_app, IH. destruct (aget k first) eqn:F; [reflexivity|]. destruct (aget k l) eqn:G; [reflexivity|]. cbn.
    destruct (String.eqb_spec k k0) as [->|]; [|reflexivity]. exfalso. apply aget_None in IH. contradiction.
Qed.

(** ** What is asked of the schema is not among the operation's own fields *)
Section Build.
  Context {IR : Type}.
  Variable ix : index IR.
  Variable frags : list (string * fragment).
  Lemma visited_kept rec pf cond items : forall fields ff vis n fields' ff' vis' n',
    iter_items ix frags rec pf cond items fields ff vis n = Some (fields', ff', vis', n') -> forall k, In k vis ->
    In k vis' /\ forall f, In f fields' -> b_output f = k -> In f fields.
  Proof.
    induction items as [|s items IH]; intros fields ff vis n fields' ff' vis' n' H k K; cbn [iter_items] in H.
    { injection H as <- <- <- <-. split; [exact K|auto]. }
    destruct s as [alias name given ds sel|fr ds|c ds sel].
    - destruct (smem (output_of alias name) vis) eqn:V; [eapply IH; eauto|]. apply smem_false in V.
      assert (K' : In k (output_of alias name :: vis)) by now right.
      destruct (is_const_skip _ _); [eapply IH; eauto|].
      assert (Add : forall f fl, b_output f = output_of alias name -> (forall g, In g fields' -> b_output g = k -> In g (fl ++ [f])) -> forall g, In g fields' -> b_output g = k -> In g fl).
      { intros f fl Ef A g G Ek. specialize (A g G Ek). apply in_app_iff in A. destruct A as [A|[<-|[]]]; [exact A|]. exfalso. apply V. now rewrite <- Ef, Ek. }
      destruct (get_field ix cond name) as [def|].
      + destruct (rec None sel _ (S n)) as [[children n1]|]; [|discriminate]. destruct (IH _ _ _ _ _ _ _ _ H k K') as [A B]. split; [exact A|]. eapply Add; [|exact B]. reflexivity.
      + destruct (String.eqb name "__typename"); [|eapply IH; eauto]. destruct (IH _ _ _ _ _ _ _ _ H k K') as [A B]. split; [exact A|]. eapply Add; [|exact B]. reflexivity.
    - destruct (aget fr frags) as [[on sel]|]; [|eapply IH; eauto]. destruct (rec (Some on) sel on n) as [[fs n1]|]; [|discriminate]. eapply IH; eauto.
    - destruct (rec _ sel _ n) as [[fs n1]|]; [|discriminate]. eapply IH; eauto.
  Qed.
  Lemma own_lacks rec pf cond k s : about_schema s -> (forall n, n = "__schema" \/ n = "__type" -> get_field ix cond n = None) ->
    forall before after fields ff vis n fields' ff' vis' n', shown_as s = Some k -> (forall x, In x before -> shown_as x <> Some k) ->
    iter_items ix frags rec pf cond (before ++ s :: after) fields ff vis n = Some (fields', ff', vis', n') ->
    (forall f, In f fields -> b_output f <> k) ->
    In k vis' /\ forall f, In f fields' -> b_output f <> k.
  Proof.
    intros A G. induction before as [|x before IH]; intros after fields ff vis n fields' ff' vis' n' Sk B H F; cbn [app iter_items] in H.
    - destruct s as [alias name given ds sel|fr ds|c ds sel]; try contradiction. cbn in Sk. injection Sk as Sk. change (output_of alias name = k) in Sk.
      assert (Fin : forall vis0, In k vis0 -> iter_items ix frags rec pf cond after fields ff vis0 n = Some (fields', ff', vis', n') -> In k vis' /\ forall f, In f fields' -> b_output f <> k).
      { intros vis0 K0 H0. destruct (visited_kept _ _ _ _ _ _ _ _ _ _ _ _ H0 k K0) as [X Y]. split; [exact X|]. intros f I E. exact (F f (Y f I E) E). }
      destruct (smem (output_of alias name) vis) eqn:V; [apply smem_In in V; rewrite Sk in V; now apply (Fin vis)|].
      destruct (is_const_skip _ _); [apply (Fin (output_of alias name :: vis)); [now left|exact H]|].
      cbn in A. rewrite (G name A) in H. assert (String.eqb name "__typename" = false) as Ne by (destruct A as [-> | ->]; reflexivity). rewrite Ne in H.
      apply (Fin (output_of alias name :: vis)); [now left|exact H].
    - assert (Bx := B x (or_introl eq_refl)). assert (B' : forall y, In y before -> shown_as y <> Some k) by (intros y Y; apply B; now right).
      destruct x as [alias name given ds sel|fr ds|c ds sel].
      + cbn in Bx. assert (Nk : output_of alias name <> k) by (intros E; apply Bx; now rewrite <- E).
        assert (F' : forall f, b_output f = output_of alias name -> forall g, In g (fields ++ [f]) -> b_output g <> k).
        { intros f Ef g I. apply in_app_iff in I. destruct I as [I|[<-|[]]]; [now apply F|]. congruence. }
        destruct (smem (output_of alias name) vis); [eapply IH; eauto|]. destruct (is_const_skip _ _); [eapply IH; eauto|].
        destruct (get_field ix cond name) as [def|].
        * destruct (rec None sel _ (S n)) as [[children n1]|]; [|discriminate]. eapply IH; [exact Sk|exact B'|exact H|]. apply F'. reflexivity.
        * destruct (String.eqb name "__typename"); [|eapply IH; eauto]. eapply IH; [exact Sk|exact B'|exact H|]. apply F'. reflexivity.
      + destruct (aget fr frags) as [[on sel]|]; [|eapply IH; eauto]. destruct (rec (Some on) sel on n) as [[fs n1]|]; [|discriminate]. eapply IH; eauto.
      + destruct (rec _ sel _ n) as [[fs n1]|]; [|discriminate]. eapply IH; eauto.
  Qed.
  Lemma insert_in (x f : bfield IR) l : In x (insert_by_id f l) -> x = f \/ In x l.
  Proof.
    induction l as [|y l IH]; cbn; [intros [H|[]]; auto|]. destruct (Nat.leb _ _); cbn; [intros [H|[H|H]]; auto|].
    intros [H|H]; [auto|]. destruct (IH H); auto.
  Qed.
  Lemma sort_in (x : bfield IR) l : In x (sort_by_id l) -> In x l.
  Proof. induction l as [|y l IH]; cbn; [auto|]. intros H. apply insert_in in H. destruct H as [->|H]; auto. Qed.
  Lemma build_lacks fuel d name o root ty fs k s : d_fragments d = frags -> get_operation d name = Ok o -> build fuel ix d name = Some (Ok (root, ty, fs)) ->
    about_schema s -> first_shown (o_sel o) k s -> (forall n, n = "__schema" \/ n = "__type" -> get_field ix root n = None) ->
    forall f, In f fs -> b_output f <> k.
  Proof.
    intros Df Go Bu A (before & after & El & Sk & B) G f I. unfold build in Bu. rewrite Go in Bu. destruct (get_type ix (o_ty o)) as [root'|]; [|discriminate].
    destruct (iter ix (d_fragments d) fuel None (o_sel o) root' 0) as [[fs' n]|] eqn:It; [|discriminate]. injection Bu as <- <- <-.
    destruct fuel as [|fuel]; [discriminate|]. cbn [iter] in It. unfold iter_set in It. rewrite Df in It.
    destruct (iter_items ix frags _ None root' (o_sel o) [] [] [] 0) as [[[[fields ff] vis] n']|] eqn:Ii; [|discriminate]. injection It as <- <-.
    rewrite El in Ii. destruct (own_lacks _ _ _ k s A G _ _ _ _ _ _ _ _ _ _ Sk B Ii) as [V F]; [intros ? []|].
    apply sort_in in I. apply in_app_iff in I. destruct I as [I|I]; [now apply F|]. apply filter_In in I. destruct I as [_ I].
    intros E. apply negb_true_iff, smem_false in I. apply I. now rewrite E.
  Qed.
End Build.
