(** Proofs about input and output uses of types (C36). *)
From Coq Require Import String Ascii ZArith NArith Bool Arith Lia List Permutation.
From Verif Require Import Base BaseFacts Ordered OrderedFacts JsonModel TypeModel BuilderModel ConfigModel RenameSpec RenameProofs AmbModel AmbSpec.
Import ListNotations.
Open Scope string_scope.
Open Scope list_scope.

Lemma set_add_in x n s : In x (set_add n s) <-> x = n \/ In x s.
Proof.
  unfold set_add. destruct (smem n s) eqn:M; cbn; [|intuition].
  apply smem_In in M. split; [auto|]. intros [->|H]; auto.
Qed.
Lemma set_remove_in x n s : In x (set_remove n s) <-> x <> n /\ In x s.
Proof.
  unfold set_remove. rewrite filter_In, negb_true_iff, String.eqb_neq. tauto.
Qed.

Lemma fold_opt_ind {A B} (f : B -> A -> option B) (P : B -> Prop) :
  forall l b b', (forall x y a, In a l -> P x -> f x a = Some y -> P y) -> P b -> fold_opt f l b = Some b' -> P b'.
Proof.
  induction l as [|a l IH]; cbn; intros b b' H Pb E; [congruence|].
  destruct (f b a) as [y|] eqn:F; [|discriminate]. eapply IH; [|eapply H; eauto|exact E]. intros; eapply H; eauto.
Qed.

Section Walk.
  Variable c : config.

  (** **** Only what is reached is collected. *)
  Lemma connections_sound (P : string -> Prop) : (forall n m, P n -> Holds c n m -> P m) ->
    forall fuel n s s', P n -> (forall x, In x s -> P x) -> connections fuel c n s = Some s' -> forall x, In x s' -> P x.
  Proof.
    intros Step. induction fuel as [|fuel IH]; intros n s s' Pn Ps E; [discriminate|]. cbn [connections] in E.
    assert (A : forall x, In x (set_add n s) -> P x) by (intros x X; apply set_add_in in X as [->|X]; auto).
    destruct (find_union c n) as [u|] eqn:U.
    - refine (fold_opt_ind _ (fun s => forall x, In x s -> P x) _ _ _ _ A E).
      intros x y m I Px F. eapply IH; [|exact Px|exact F]. apply Step with n; [auto|]. econstructor; eauto.
    - destruct (find_type c n) as [t|] eqn:T.
      + refine (fold_opt_ind _ (fun s => forall x, In x s -> P x) _ _ _ _ A E).
        intros x y [fn f] I Px F. cbn [snd] in F.
        destruct (negb (smem (type_name (f_type f)) x) && negb (is_scalar c (type_name (f_type f)))).
        * eapply IH; [|exact Px|exact F]. apply Step with n; [auto|]. eapply Holds_field; eauto.
        * injection F as <-. exact Px.
      + destruct (find_enum c n); injection E as <-; auto.
  Qed.
  Lemma connections_defined : forall fuel n s s', (forall x, In x s -> defined c x) ->
    connections fuel c n s = Some s' -> forall x, In x s' -> defined c x.
  Proof.
    induction fuel as [|fuel IH]; intros n s s' Ps E; [discriminate|]. cbn [connections] in E.
    assert (A : defined c n -> forall x, In x (set_add n s) -> defined c x)
      by (intros D x X; apply set_add_in in X as [->|X]; auto).
    unfold defined in A at 1.
    destruct (find_union c n) as [u|] eqn:U.
    - refine (fold_opt_ind _ (fun s => forall x, In x s -> defined c x) _ _ _ _ (A _) E).
      + intros x y m I Px F. eapply IH; [exact Px|exact F].
      + right. right. discriminate.
    - destruct (find_type c n) as [t|] eqn:T.
      + refine (fold_opt_ind _ (fun s => forall x, In x s -> defined c x) _ _ _ _ (A _) E).
        * intros x y [fn f] I Px F. cbn [snd] in F.
          destruct (negb (smem (type_name (f_type f)) x) && negb (is_scalar c (type_name (f_type f)))).
          -- eapply IH; [exact Px|exact F].
          -- injection F as <-. exact Px.
        * left. discriminate.
      + destruct (find_enum c n); injection E as <-; auto. apply A. right. left. discriminate.
  Qed.

  (** **** All that is reached is collected. *)
  Definition closed (s : list string) (n : string) : Prop :=
    forall m, Holds c n m -> defined c m -> is_scalar c m = false -> In m s.
  Lemma closed_incl s s' n : incl s s' -> closed s n -> closed s' n.
  Proof. intros I C m H D S. apply I. auto. Qed.

  Hypothesis one_def : forall n, find_union c n <> None -> find_type c n = None.

  Definition complete_from (s s' : list string) (n : string) : Prop :=
    incl s s' /\ (defined c n -> In n s') /\ (forall m, In m s' -> ~ In m s \/ m = n -> closed s' m).

  Lemma connections_complete : forall fuel n s s', connections fuel c n s = Some s' -> complete_from s s' n.
  Proof.
    induction fuel as [|fuel IH]; intros n s s' E; [discriminate|]. cbn [connections] in E.
    destruct (find_union c n) as [u|] eqn:U.
    - assert (X : forall ms s0 s1, fold_opt (fun s m => connections fuel c m s) ms s0 = Some s1 ->
                    incl s0 s1 /\ (forall m, In m ms -> defined c m -> In m s1) /\
                    (forall m, In m s1 -> ~ In m s0 -> closed s1 m)).
      { induction ms as [|m ms IHm]; cbn [fold_opt]; intros s0 s1 F.
        - injection F as <-. refine (conj _ (conj _ _)); [apply incl_refl|intros m []|intros m A B; contradiction].
        - destruct (connections fuel c m s0) as [s2|] eqn:C; [|discriminate].
          apply IH in C as (C1 & C2 & C3). apply IHm in F as (F1 & F2 & F3). refine (conj _ (conj _ _)).
          + eapply incl_tran; eauto.
          + intros x [->|I] D; auto.
          + intros x I N. destruct (in_dec string_dec x s2) as [J|J]; [|auto].
            eapply closed_incl; [exact F1|]. apply C3; auto. }
      apply X in E as (E1 & E2 & E3). refine (conj _ (conj _ _)).
      + intros x I. apply E1. apply set_add_in. auto.
      + intros _. apply E1. apply set_add_in. auto.
      + intros m I O. destruct (string_dec m n) as [->|N].
        * intros x H D _. inversion H as [? u' ? U' M|? t fn f T M]; subst.
          -- rewrite U in U'. injection U' as <-. auto.
          -- rewrite (one_def n) in T by congruence. discriminate.
        * apply E3; [auto|]. rewrite set_add_in. destruct O; tauto.
    - destruct (find_type c n) as [t|] eqn:T.
      + set (step := fun s (kf : string * field) => let m := type_name (f_type (snd kf)) in
                if negb (smem m s) && negb (is_scalar c m) then connections fuel c m s else Some s) in E.
        assert (X : forall fs s0 s1, fold_opt step fs s0 = Some s1 ->
                    incl s0 s1 /\
                    (forall fn f, In (fn, f) fs -> defined c (type_name (f_type f)) -> is_scalar c (type_name (f_type f)) = false -> In (type_name (f_type f)) s1) /\
                    (forall m, In m s1 -> ~ In m s0 -> closed s1 m)).
        { induction fs as [|[fn f] fs IHm]; cbn [fold_opt]; intros s0 s1 F.
          - injection F as <-. refine (conj _ (conj _ _)); [apply incl_refl|intros m g []|intros m A B; contradiction].
          - unfold step at 1 in F. cbn [snd] in F. set (m := type_name (f_type f)) in *.
            destruct (negb (smem m s0) && negb (is_scalar c m)) eqn:G.
            + destruct (connections fuel c m s0) as [s2|] eqn:C; [|discriminate].
              apply IH in C as (C1 & C2 & C3). apply IHm in F as (F1 & F2 & F3). refine (conj _ (conj _ _)).
              * eapply incl_tran; eauto.
              * intros fn' f' [A|I] D; [injection A as <- <-; auto|eauto].
              * intros x I N. destruct (in_dec string_dec x s2) as [J|J]; [|auto].
                eapply closed_incl; [exact F1|]. apply C3; auto.
            + apply IHm in F as (F1 & F2 & F3). refine (conj F1 (conj _ F3)).
              intros fn' f' [A|I] D Sc; [|eauto]. injection A as <- <-. fold m in D, Sc |- *. rewrite Sc in G.
              apply F1. apply smem_In. destruct (smem m s0); [auto|discriminate]. }
        apply X in E as (E1 & E2 & E3). refine (conj _ (conj _ _)).
        * intros x I. apply E1. apply set_add_in. auto.
        * intros _. apply E1. apply set_add_in. auto.
        * intros m I O. destruct (string_dec m n) as [->|N].
          -- intros x H D Sc. inversion H as [? u' ? U' M|? t' fn f T' M]; subst; [congruence|].
             rewrite T in T'. injection T' as <-. eauto.
          -- apply E3; [auto|]. rewrite set_add_in. destruct O; tauto.
      + assert (N : forall s0, closed s0 n).
        { intros s0 m H _ _. inversion H; congruence. }
        destruct (find_enum c n) eqn:En; injection E as <-; refine (conj _ (conj _ _)).
        * intros x I. apply set_add_in. auto.
        * intros _. apply set_add_in. auto.
        * intros m I O. rewrite set_add_in in I. destruct I as [->|I]; [auto|]. destruct O as [O| ->]; [contradiction|auto].
        * apply incl_refl.
        * intros [D|[D|D]]; congruence.
        * intros m I [O| ->]; [contradiction|auto].
  Qed.

  Lemma roots_complete fuel : forall ns s0 s1, (forall m, In m s0 -> closed s0 m) ->
    fold_opt (fun s n => connections fuel c n s) ns s0 = Some s1 ->
    (forall m, In m s1 -> closed s1 m) /\ (forall m, In m ns -> defined c m -> In m s1) /\ incl s0 s1.
  Proof.
    induction ns as [|n ns IH]; cbn [fold_opt]; intros s0 s1 C F.
    - injection F as <-. refine (conj C (conj _ (incl_refl _))). intros m [].
    - destruct (connections fuel c n s0) as [s2|] eqn:E; [|discriminate].
      apply connections_complete in E as (E1 & E2 & E3). apply IH in F as (F1 & F2 & F3).
      + refine (conj F1 (conj _ (incl_tran E1 F3))). intros m [->|I] D; [apply F3; auto|auto].
      + intros m I. destruct (in_dec string_dec m s0) as [J|J]; [|auto]. eapply closed_incl; [exact E1|auto].
  Qed.

  (** **** The walks end when unions are flat. *)
  Hypothesis flat_unions : forall n u m, find_union c n = Some u -> In m (u_types u) -> find_union c m = None.

  Definition names_of : list string := map fst (c_types c) ++ map fst (c_unions c) ++ map fst (c_enums c).
  Definition unvisited (s : list string) : nat := List.length (filter (fun n => negb (smem n s)) names_of).

  Lemma filter_le {A} (f g : A -> bool) l : (forall x, In x l -> f x = true -> g x = true) -> List.length (filter f l) <= List.length (filter g l).
  Proof.
    induction l as [|a l IH]; intros H; cbn; [lia|].
    assert (IH' := IH (fun x I => H x (or_intror I))). specialize (H a (or_introl eq_refl)).
    destruct (f a); [rewrite (H eq_refl); cbn; lia|]. destruct (g a); cbn; lia.
  Qed.
  Lemma filter_lt {A} (f g : A -> bool) l x : (forall x, In x l -> f x = true -> g x = true) -> In x l -> f x = false -> g x = true ->
    List.length (filter f l) < List.length (filter g l).
  Proof.
    induction l as [|a l IH]; intros H I Fx Gx; [destruct I|].
    assert (L := filter_le f g l (fun x I => H x (or_intror I))). destruct I as [->|I].
    - cbn. rewrite Fx, Gx. cbn. lia.
    - assert (IH' := IH (fun x I => H x (or_intror I)) I Fx Gx). specialize (H a (or_introl eq_refl)). cbn.
      destruct (f a); [rewrite (H eq_refl); cbn; lia|]. destruct (g a); cbn; lia.
  Qed.
  Lemma unvisited_incl s s' : incl s s' -> unvisited s' <= unvisited s.
  Proof.
    intros I. apply filter_le. intros x _ H. rewrite negb_true_iff, smem_false in H |- *. intros J. apply H. auto.
  Qed.
  Lemma defined_named n : defined c n -> In n names_of.
  Proof.
    unfold names_of. rewrite !in_app_iff. intros [D|[D|D]].
    - left. destruct (in_dec string_dec n (map fst (c_types c))) as [I|I]; [auto|]. exfalso. apply D. apply oget_none; [exact scmp_order|auto].
    - right. right. destruct (in_dec string_dec n (map fst (c_enums c))) as [I|I]; [auto|]. exfalso. apply D. apply oget_none; [exact scmp_order|auto].
    - right. left. destruct (in_dec string_dec n (map fst (c_unions c))) as [I|I]; [auto|]. exfalso. apply D. apply oget_none; [exact scmp_order|auto].
  Qed.
  Lemma unvisited_add n s : defined c n -> ~ In n s -> unvisited (set_add n s) < unvisited s.
  Proof.
    intros D N. apply filter_lt with n.
    - intros x _ H. rewrite negb_true_iff, smem_false, set_add_in in H. rewrite negb_true_iff, smem_false. tauto.
    - now apply defined_named.
    - rewrite negb_false_iff, smem_In, set_add_in. auto.
    - now rewrite negb_true_iff, smem_false.
  Qed.

  Definition rank (n : string) (s : list string) : nat :=
    2 * unvisited s + (if smem n s then match find_union c n with Some _ => 2 | None => 1 end else 0).

  Lemma connections_end : forall fuel n s, rank n s < fuel -> exists s', connections fuel c n s = Some s'.
  Proof.
    induction fuel as [|fuel IH]; intros n s L; [lia|]. cbn [connections]. unfold rank in L.
    assert (V : unvisited (set_add n s) <= unvisited s) by (apply unvisited_incl; intros x I; apply set_add_in; auto).
    destruct (find_union c n) as [u|] eqn:U.
    - assert (B : 2 * unvisited (set_add n s) + 1 < fuel).
      { destruct (smem n s) eqn:M; [lia|]. apply smem_false in M.
        assert (W := unvisited_add n s ltac:(right; right; congruence) M). lia. }
      assert (Fl : forall m, In m (u_types u) -> find_union c m = None) by (intros m; eapply flat_unions; eauto).
      revert B. generalize (set_add n s) as s0. induction (u_types u) as [|m ms IHm]; intros s0 B; cbn [fold_opt]; [eauto|].
      destruct (IH m s0) as (s1 & E).
      + unfold rank. rewrite (Fl m (or_introl eq_refl)). destruct (smem m s0); lia.
      + rewrite E. apply IHm; [intros x I; apply Fl; now right|]. apply connections_complete in E as (E1 & _).
        apply unvisited_incl in E1. lia.
    - destruct (find_type c n) as [t|] eqn:T; [|destruct (find_enum c n); eauto].
      assert (B : 2 * unvisited (set_add n s) < fuel).
      { destruct (smem n s) eqn:M; [lia|]. apply smem_false in M.
        assert (W := unvisited_add n s ltac:(left; congruence) M). lia. }
      revert B. generalize (set_add n s) as s0. induction (t_fields t) as [|[fn f] fs IHm]; intros s0 B; cbn [fold_opt snd]; [eauto|].
      destruct (negb (smem (type_name (f_type f)) s0) && negb (is_scalar c (type_name (f_type f)))) eqn:G; [|auto].
      apply andb_true_iff in G as [G _]. rewrite negb_true_iff in G.
      destruct (IH (type_name (f_type f)) s0) as (s1 & E); [unfold rank; rewrite G; lia|].
      rewrite E. apply IHm. apply connections_complete in E as (E1 & _). apply unvisited_incl in E1. lia.
  Qed.
  Lemma roots_end : forall ns s0, exists s1, fold_opt (fun s n => connections (walk_fuel c) c n s) ns s0 = Some s1.
  Proof.
    induction ns as [|n ns IH]; intros s0; cbn [fold_opt]; [eauto|].
    destruct (connections_end (walk_fuel c) n s0) as (s1 & ->); [|auto].
    unfold rank, walk_fuel. assert (U : unvisited s0 <= List.length names_of).
    { unfold unvisited. clear. induction names_of as [|a l IH]; cbn; [lia|]. destruct (negb (smem a s0)); cbn; lia. }
    unfold names_of in U. rewrite !app_length, !map_length in U. destruct (smem n s0); [|lia]. destruct (find_union c n); lia.
  Qed.
End Walk.

Lemma arguments_in c a : osorted scmp (c_types c) ->
  (In a (arguments c) <-> exists n t fn f an, find_type c n = Some t /\ In (fn, f) (t_fields t) /\ In (an, a) (f_args f)).
Proof.
  intros So. unfold arguments. rewrite in_flat_map. split.
  - intros ([n t] & I & H). apply in_flat_map in H as ([fn f] & J & H). apply in_map_iff in H as ([an b] & E & K).
    cbn in *. subst b. exists n, t, fn, f, an. split; [|auto]. apply in_oget; auto using scmp_order.
  - intros (n & t & fn & f & an & T & I & J). exists (n, t). split; [apply oget_in in T; auto using scmp_order|].
    apply in_flat_map. exists (fn, f). split; [auto|]. apply in_map_iff. now exists (an, a).
Qed.

Section Uses.
  Variable c : config.
  Hypothesis T : tidy c.

  Let one_def : forall n, find_union c n <> None -> find_type c n = None := fun n H => proj1 (ti_union c T n H).

  (** Object types, unions and enums. *)
  Definition composite (n : string) : Prop :=
    object_type c n \/ find_union c n <> None \/ (find_enum c n <> None /\ find_type c n = None).
  Lemma composite_not_scalar n : composite n -> is_scalar c n = false /\ defined c n.
  Proof.
    unfold is_scalar, defined. intros [(t & F & N)|[U|[E F]]].
    - rewrite F. split; [|left; discriminate]. unfold gtype_scalar. destruct (t_fields t); congruence.
    - destruct (ti_union c T n U) as [-> P]. auto.
    - rewrite F. split; [now apply (ti_enum c T)|auto].
  Qed.
  Lemma holds_composite n m : Holds c n m -> composite n.
  Proof.
    intros H. destruct H as [n u m U _|n t fn f F I].
    - right. left. congruence.
    - left. exists t. split; [auto|]. intros E. rewrite E in I. destruct I.
  Qed.

  Lemma input_types_ok fuel s : input_types fuel c = Some s ->
    (forall n, In n s -> InputUse c n /\ defined c n) /\ (forall n, composite n -> InputUse c n -> In n s).
  Proof.
    unfold input_types. set (roots := map _ _). intros E.
    assert (R : forall n, In n roots <-> ArgumentType c n /\ is_scalar c n = false).
    { intros n. unfold roots. rewrite in_map_iff. split.
      - intros (a & <- & I). apply filter_In in I as [I Sc]. apply negb_true_iff in Sc. split; [|auto].
        apply arguments_in in I as (k & t & fn & f & an & A & B & C); [|apply T]. exists k, t, fn, f, an, a. auto.
      - intros [(k & t & fn & f & an & a & A & B & C & ->) Sc]. exists a. split; [auto|]. apply filter_In.
        rewrite Sc. split; [|auto]. apply arguments_in; [apply T|]. exists k, t, fn, f, an. auto. }
    split.
    - intros n I. split.
      + revert n I. refine (fold_opt_ind _ (fun s => forall n, In n s -> InputUse c n) _ _ _ _ _ E); [|intros n []].
        intros x y m J Px F. eapply (connections_sound c (InputUse c)); [|apply InputUse_arg, R, J|exact Px|exact F].
        intros a b A B. eapply InputUse_inside; eauto.
      + revert n I. refine (fold_opt_ind _ (fun s => forall n, In n s -> defined c n) _ _ _ _ _ E); [|intros n []].
        intros x y m J Px F. eapply connections_defined; eauto.
    - apply roots_complete in E as (E1 & E2 & _); [|exact one_def|intros m []].
      intros n C U. induction U as [m A|n m U IH H].
      + apply E2; [|now apply composite_not_scalar]. apply R. split; [auto|]. now apply composite_not_scalar.
      + apply composite_not_scalar in C as [Sc D]. apply (E1 n); auto. apply IH. eapply holds_composite; eauto.
  Qed.

  Lemma output_types_ok fuel s : output_types fuel c = Some s ->
    (forall n, In n s -> OutputUse c n /\ defined c n) /\ (forall n, composite n -> OutputUse c n -> In n s).
  Proof.
    unfold output_types. set (roots := _ ++ _). intros E.
    assert (R : forall n, In n roots <-> r_query (c_schema c) = Some n \/ r_mutation (c_schema c) = Some n).
    { intros n. unfold roots. rewrite in_app_iff. destruct (r_query (c_schema c)), (r_mutation (c_schema c)); cbn; intuition congruence. }
    split.
    - intros n I. split.
      + revert n I. refine (fold_opt_ind _ (fun s => forall n, In n s -> OutputUse c n) _ _ _ _ _ E); [|intros n []].
        intros x y m J Px F. eapply (connections_sound c (OutputUse c)); [| |exact Px|exact F].
        * intros a b A B. eapply OutputUse_inside; eauto.
        * apply R in J as [J|J]; [now apply OutputUse_query|now apply OutputUse_mutation].
      + revert n I. refine (fold_opt_ind _ (fun s => forall n, In n s -> defined c n) _ _ _ _ _ E); [|intros n []].
        intros x y m J Px F. eapply connections_defined; eauto.
    - apply roots_complete in E as (E1 & E2 & _); [|exact one_def|intros m []].
      intros n C U. induction U as [m A|m A|n m U IH H].
      + apply E2; [|now apply composite_not_scalar]. apply R. auto.
      + apply E2; [|now apply composite_not_scalar]. apply R. auto.
      + apply composite_not_scalar in C as [Sc D]. apply (E1 n); auto. apply IH. eapply holds_composite; eauto.
  Qed.
End Uses.

(** *** The split *)
Lemma string_length_app a b : String.length (a ++ b)%string = String.length a + String.length b.
Proof. induction a as [|x a IH]; cbn; [auto|]. now rewrite IH. Qed.
Lemma input_name_inj a b : input_name a = input_name b -> a = b.
Proof.
  unfold input_name. revert b. induction a as [|x a IH]; intros [|y b]; cbn; intros H; auto.
  - exfalso. apply (f_equal String.length) in H. cbn in H. rewrite string_length_app in H. cbn in H. lia.
  - exfalso. apply (f_equal String.length) in H. cbn in H. rewrite string_length_app in H. cbn in H. lia.
  - injection H as -> H. f_equal. auto.
Qed.
Lemma input_name_neq a : input_name a <> a.
Proof. unfold input_name. intros H. apply (f_equal String.length) in H. rewrite string_length_app in H. cbn in H. lia. Qed.

Lemma split_one_types s k x : oget scmp k (ss_types s) <> None ->
  oget scmp x (ss_types (split_one s k)) = if String.eqb x (input_name k) then oget scmp k (ss_types s) else oget scmp x (ss_types s).
Proof.
  unfold split_one. destruct (oget scmp k (ss_types s)) as [t|] eqn:G; [|congruence]. intros _. cbn [ss_types].
  destruct (String.eqb_spec x (input_name k)) as [->|N].
  - rewrite oget_oins_other by (auto using scmp_order, input_name_neq). now rewrite oget_oins_same by (auto using scmp_order).
  - destruct (string_dec x k) as [->|Nk].
    + now rewrite oget_oins_same by (auto using scmp_order).
    + rewrite !oget_oins_other by (auto using scmp_order). now rewrite oget_odel_other by (auto using scmp_order).
Qed.

Lemma split_fold l : forall s, (forall k, In k l -> oget scmp k (ss_types s) <> None) ->
  (forall k k', In k l -> In k' l -> input_name k <> k') ->
  (forall x, oget scmp x (ss_types (fold_left split_one l s)) =
     match find (fun k => String.eqb x (input_name k)) l with
     | Some k => oget scmp k (ss_types s)
     | None => oget scmp x (ss_types s)
     end) /\
  (forall x, In x (ss_inputs (fold_left split_one l s)) <->
     (In x (ss_inputs s) /\ ~ In x l) \/ exists k, In k l /\ x = input_name k) /\
  (forall x, In x (ss_outputs (fold_left split_one l s)) <-> In x (ss_outputs s) \/ In x l).
Proof.
  induction l as [|k l IH]; intros s G N.
  - cbn. refine (conj _ (conj _ _)); [auto| |].
    + intros x. split; [auto|]. intros [[A _]|(k & [] & _)]. auto.
    + intros x. tauto.
  - cbn [fold_left find]. assert (Gk := G k (or_introl eq_refl)).
    destruct (IH (split_one s k)) as (A & B & C).
    + intros j J. rewrite split_one_types by exact Gk. destruct (String.eqb_spec j (input_name k)) as [E|E]; [exact Gk|]. apply G. now right.
    + intros a b Ia Ib. apply N; now right.
    + refine (conj _ (conj _ _)).
      * intros x. rewrite A. destruct (find (fun k0 => String.eqb x (input_name k0)) l) as [j|] eqn:F.
        -- apply find_some in F as [J E]. apply String.eqb_eq in E. subst x.
           rewrite split_one_types by exact Gk.
           destruct (String.eqb_spec j (input_name k)) as [E|E].
           ++ exfalso. eapply N; [left; reflexivity|right; exact J|auto].
           ++ destruct (String.eqb_spec (input_name j) (input_name k)) as [E2|E2]; [apply input_name_inj in E2; now subst|auto].
        -- rewrite split_one_types by exact Gk. destruct (String.eqb x (input_name k)); reflexivity.
      * intros x. rewrite B. unfold split_one. destruct (oget scmp k (ss_types s)) as [t|]; [|congruence]. cbn [ss_inputs].
        rewrite set_add_in, set_remove_in. cbn [In]. split.
        -- intros [[[->|[H1 H2]] H3]|(j & J & ->)].
           ++ right. exists k. auto.
           ++ left. split; [auto|]. intros [H|H]; [congruence|contradiction].
           ++ right. exists j. auto.
        -- intros [[H1 H2]|(j & [<-|J] & ->)].
           ++ left. split; [|tauto]. right. split; [|auto]. intros ->. tauto.
           ++ left. split; [auto|]. intros J. eapply N; [left; reflexivity|right; exact J|reflexivity].
           ++ right. exists j. auto.
      * intros x. rewrite C. unfold split_one. destruct (oget scmp k (ss_types s)) as [t|]; [|congruence]. cbn [ss_outputs].
        rewrite set_add_in, set_remove_in. cbn [In]. destruct (string_dec x k); [subst; tauto|]. intuition congruence.
Qed.

Lemma oget_map_key {V} (g : string -> V -> V) (m : list (string * V)) x :
  oget scmp x (map (fun kt => (fst kt, g (fst kt) (snd kt))) m) = option_map (g x) (oget scmp x m).
Proof.
  induction m as [|[k t] m IH]; cbn; [auto|]. destruct (scmp x k) eqn:E; auto.
  apply (to_eq _ scmp_order) in E. now subst.
Qed.

Lemma with_own_name t : with_name (type_name t) t = t.
Proof. induction t as [n b|t IH b]; cbn; [auto|]. now rewrite IH. Qed.
Lemma type_name_with n t : type_name (with_name n t) = n.
Proof. induction t as [m b|t IH b]; cbn; auto. Qed.

Section Split.
  Variable c c' : config.
  Variable order : list string -> list string.
  Variable fuel : nat.
  Hypothesis T : tidy c.
  Hypothesis R : rearranges order.
  Hypothesis Fresh : inputs_fresh c.
  Hypothesis NU : no_union_inputs c.
  Hypothesis NE : no_enum_arguments_inside c.
  Variable I O : list string.
  Hypothesis EI : input_types fuel c = Some I.
  Hypothesis EO : output_types fuel c = Some O.

  Definition amb : list string := order (filter (fun n => smem n O) I).
  Definition keys : list string := resolution_keys c O amb.

  Lemma amb_in n : In n amb <-> In n I /\ In n O.
  Proof.
    unfold amb. split.
    - intros H. apply (Permutation_in _ (Permutation_sym (R _))) in H. apply filter_In in H as [A B]. apply smem_In in B. auto.
    - intros [A B]. apply (Permutation_in _ (R _)). apply filter_In. split; [auto|]. now apply smem_In.
  Qed.

  Lemma keys_sound k : In k keys -> InputUse c k /\ In k O /\ find_type c k <> None.
  Proof.
    unfold keys, resolution_keys. intros H. apply in_flat_map in H as (n & A & H). apply amb_in in A as [Ai Ao].
    destruct (find_type c n) as [t|] eqn:F; [|destruct H].
    destruct (input_types_ok c T _ _ EI) as [I1 I2]. destruct (output_types_ok c T _ _ EO) as [O1 O2].
    destruct H as [<-|H].
    - refine (conj _ (conj Ao _)); [now apply I1|congruence].
    - apply filter_In in H as [H M]. apply smem_In in M. apply in_flat_map in H as ([fn f] & J & H).
      apply in_map_iff in H as ([an a] & E & K). cbn in E, K.
      assert (U : InputUse c k). { apply InputUse_arg. exists n, t, fn, f, an, a. rewrite E. auto. }
      refine (conj U (conj M _)). destruct (O1 k M) as [_ [D|[D|D]]]; [auto| |].
      + exfalso. apply D. rewrite <- E. eapply NE; [apply I1; exact Ai|apply O1; exact Ao|exact F|exact J|exact K].
      + exfalso. apply D. now apply NU.
  Qed.
  Lemma keys_complete k : object_type c k -> InputUse c k -> OutputUse c k -> In k keys.
  Proof.
    intros Ob Ui Uo. destruct (input_types_ok c T _ _ EI) as [I1 I2]. destruct (output_types_ok c T _ _ EO) as [O1 O2].
    unfold keys, resolution_keys. apply in_flat_map. exists k. split.
    - apply amb_in. split; [apply I2|apply O2]; auto; now left.
    - destruct Ob as (t & F & _). rewrite F. now left.
  Qed.

  Definition entries : list string := order (nodup string_dec keys).
  Lemma entries_in k : In k entries <-> In k keys.
  Proof.
    unfold entries. split; intros H.
    - apply (Permutation_in _ (Permutation_sym (R _))) in H. now apply nodup_In in H.
    - apply (Permutation_in _ (R _)). now apply nodup_In.
  Qed.
  Definition final : split_state := fold_left split_one entries {| ss_types := c_types c; ss_inputs := I; ss_outputs := O |}.

  Lemma copy_new k : In k keys -> ~ defined c (input_name k) /\ ~ InputUse c (input_name k) /\ ~ OutputUse c (input_name k).
  Proof. intros K. apply keys_sound in K as (_ & _ & D). exact (Fresh k D). Qed.

  Lemma final_ok :
    (forall x, oget scmp x (ss_types final) =
       match find (fun k => String.eqb x (input_name k)) entries with Some k => find_type c k | None => find_type c x end) /\
    (forall x, In x (ss_inputs final) <-> (In x I /\ ~ In x keys) \/ exists k, In k keys /\ x = input_name k) /\
    (forall x, In x (ss_outputs final) <-> In x O).
  Proof.
    unfold final. destruct (split_fold entries {| ss_types := c_types c; ss_inputs := I; ss_outputs := O |}) as (A & B & C).
    - intros k K. cbn. apply entries_in in K. now apply keys_sound in K.
    - intros k k' K K' E. apply entries_in in K, K'. apply copy_new in K as (N & _). apply keys_sound in K' as (_ & _ & D).
      apply N. left. now rewrite E.
    - refine (conj A (conj _ _)).
      + intros x. rewrite B. cbn [ss_inputs]. rewrite entries_in. split; (intros [H|(k & K & E)]; [auto|right; exists k; rewrite entries_in in *; auto]).
      + intros x. rewrite C. cbn [ss_outputs]. rewrite entries_in. split; [|auto]. intros [H|H]; [auto|]. now apply keys_sound in H.
  Qed.

  Hypothesis E' : resolve_ambiguous order fuel c = Some c'.
  Notation point := (point_gtype keys (ss_inputs final) (ss_outputs final)).

  Lemma result_eq : c' = {| c_server := c_server c; c_upstream := c_upstream c; c_schema := c_schema c;
    c_types := map (fun kt => (fst kt, point (fst kt) (snd kt))) (ss_types final);
    c_unions := c_unions c; c_enums := c_enums c; c_links := c_links c; c_telemetry := c_telemetry c |}.
  Proof. unfold resolve_ambiguous in E'. rewrite EI, EO in E'. cbn zeta in E'. injection E' as <-. reflexivity. Qed.

  Lemma union_same n : find_union c' n = find_union c n.
  Proof. now rewrite result_eq. Qed.
  Lemma enum_same n : find_enum c' n = find_enum c n.
  Proof. now rewrite result_eq. Qed.
  Lemma schema_same : c_schema c' = c_schema c.
  Proof. now rewrite result_eq. Qed.
  Lemma type_lookup x : find_type c' x = option_map (point x) (oget scmp x (ss_types final)).
  Proof. rewrite result_eq. unfold find_type. cbn [c_types]. exact (oget_map_key point (ss_types final) x). Qed.

  Lemma type_old k t : find_type c k = Some t -> find_type c' k = Some (point k t).
  Proof.
    intros F. rewrite type_lookup. destruct final_ok as (A & _ & _). rewrite A.
    destruct (find _ entries) as [j|] eqn:X; [|now rewrite F].
    apply find_some in X as [J E]. apply String.eqb_eq in E. subst k. apply entries_in, copy_new in J as (N & _).
    exfalso. apply N. left. congruence.
  Qed.
  Lemma type_copy k t : In k keys -> find_type c k = Some t -> find_type c' (input_name k) = Some (point (input_name k) t).
  Proof.
    intros K F. rewrite type_lookup. destruct final_ok as (A & _ & _). rewrite A.
    destruct (find _ entries) as [j|] eqn:X.
    - apply find_some in X as [J E]. apply String.eqb_eq in E. apply input_name_inj in E. subst j. now rewrite F.
    - exfalso. assert (Y := find_none _ _ X k). cbn in Y. rewrite String.eqb_refl in Y. apply entries_in in K. specialize (Y K). discriminate.
  Qed.
  Lemma type_from x t' : find_type c' x = Some t' ->
    exists k t, find_type c k = Some t /\ t' = point x t /\ (x = k \/ x = input_name k /\ In k keys).
  Proof.
    rewrite type_lookup. destruct final_ok as (A & _ & _). rewrite A.
    destruct (find _ entries) as [j|] eqn:X.
    - apply find_some in X as [J E]. apply String.eqb_eq in E. destruct (find_type c j) as [t|] eqn:F; [|discriminate].
      cbn. intros H. injection H as <-. exists j, t. refine (conj F (conj eq_refl _)). right. split; [auto|]. now apply entries_in.
    - destruct (find_type c x) as [t|] eqn:F; [|discriminate]. cbn. intros H. injection H as <-. exists x, t. auto.
  Qed.

  Lemma point_output k ty : In k O -> point_type keys (ss_inputs final) (ss_outputs final) k ty = ty.
  Proof.
    intros H. unfold point_type. destruct (smem (type_name ty) keys); [|auto].
    destruct final_ok as (_ & _ & C). apply C in H. apply smem_In in H. rewrite H. apply with_own_name.
  Qed.
  Definition input_side (ty : typ) : typ :=
    if smem (type_name ty) keys then with_name (input_name (type_name ty)) ty else ty.
  Lemma point_input k ty : ~ In k O -> (In k I /\ ~ In k keys) \/ (exists j, In j keys /\ k = input_name j) ->
    point_type keys (ss_inputs final) (ss_outputs final) k ty = input_side ty.
  Proof.
    intros N H. unfold point_type, input_side. destruct (smem (type_name ty) keys); [|auto].
    destruct final_ok as (_ & B & C). assert (M : smem k (ss_outputs final) = false). { apply smem_false. now rewrite C. }
    rewrite M. apply B in H. apply smem_In in H. now rewrite H.
  Qed.
  Lemma point_typ_cases k ty : point_type keys (ss_inputs final) (ss_outputs final) k ty = ty \/
    In (type_name ty) keys /\ point_type keys (ss_inputs final) (ss_outputs final) k ty = with_name (input_name (type_name ty)) ty.
  Proof.
    unfold point_type. destruct (smem (type_name ty) keys) eqn:M; [|auto]. apply smem_In in M.
    destruct (smem k (ss_outputs final)); [left; apply with_own_name|]. destruct (smem k (ss_inputs final)); auto.
  Qed.

  Lemma field_from x t fn f' : In (fn, f') (t_fields (point x t)) ->
    exists f, In (fn, f) (t_fields t) /\ f' = point_field keys (ss_inputs final) (ss_outputs final) x f.
  Proof.
    cbn [t_fields point_gtype]. intros H. apply in_map_iff in H as ([n f] & E & J). cbn in E. injection E as <- <-. eauto.
  Qed.
  Lemma arg_from x f an a' : In (an, a') (f_args (point_field keys (ss_inputs final) (ss_outputs final) x f)) ->
    exists a, In (an, a) (f_args f) /\ a' = point_arg keys a.
  Proof.
    cbn [f_args point_field]. intros H. apply in_map_iff in H as ([n f0] & E & J). cbn in E. injection E as <- <-. eauto.
  Qed.

  Definition on_input_side (n : string) : Prop := (exists k, In k keys /\ n = input_name k) \/ (InputUse c n /\ ~ In n keys).

  Lemma input_side_of n : InputUse c n -> on_input_side (if smem n keys then input_name n else n).
  Proof.
    intros U. destruct (smem n keys) eqn:M.
    - apply smem_In in M. left. eauto.
    - apply smem_false in M. right. auto.
  Qed.

  Lemma input_uses n : InputUse c' n -> on_input_side n.
  Proof.
    induction 1 as [m (x & t' & fn & f' & an & a' & F & J & K & ->)|n m U IH H].
    - apply type_from in F as (k & t & F & -> & _). apply field_from in J as (f & J & ->). apply arg_from in K as (a & K & ->).
      assert (Ua : InputUse c (type_name (arg_type a))). { apply InputUse_arg. exists k, t, fn, f, an, a. auto. }
      apply input_side_of in Ua. cbn [arg_type point_arg]. destruct (smem (type_name (arg_type a)) keys); [|auto].
      now rewrite type_name_with.
    - inversion H as [? u ? Un M|? t' fn f' F J]; subst.
      + exfalso. rewrite union_same in Un. destruct IH as [(k & K & ->)|[Ui _]].
        * apply copy_new in K as (D & _). apply D. right. right. congruence.
        * apply NU in Ui. congruence.
      + apply type_from in F as (k & t & F & -> & X). apply field_from in J as (f & J & ->). cbn [f_type point_field].
        assert (Y : InputUse c k /\ point_type keys (ss_inputs final) (ss_outputs final) n (f_type f) = input_side (f_type f)).
        { destruct IH as [(j & Kj & ->)|[Ui Nk]].
          - destruct X as [<-|[E Kk]].
            + exfalso. apply copy_new in Kj as (D & _). apply D. left. congruence.
            + apply input_name_inj in E. subst j. split; [now apply keys_sound|]. apply point_input; [|eauto].
              intros Oi. destruct (output_types_ok c T _ _ EO) as [O1 _]. apply copy_new in Kk as (_ & _ & N). apply N. now apply O1.
          - destruct X as [<-|[-> Kk]].
            + split; [auto|]. destruct (input_types_ok c T _ _ EI) as [I1 I2]. destruct (output_types_ok c T _ _ EO) as [O1 O2].
              assert (Ob : object_type c n). { exists t. split; [auto|]. intros Z. rewrite Z in J. destruct J. }
              apply point_input; [|left; split; [apply I2; auto; now left|auto]].
              intros Oi. apply Nk. apply keys_complete; auto. now apply O1.
            + exfalso. apply copy_new in Kk as (_ & N & _). auto. }
        destruct Y as [Uk ->]. assert (Uf : InputUse c (type_name (f_type f))).
        { eapply InputUse_inside; [exact Uk|]. eapply Holds_field; eauto. }
        apply input_side_of in Uf. unfold input_side. destruct (smem (type_name (f_type f)) keys); [|auto]. now rewrite type_name_with.
  Qed.

  Lemma output_field n t fn f : OutputUse c n -> find_type c n = Some t -> In (fn, f) (t_fields t) ->
    point_type keys (ss_inputs final) (ss_outputs final) n (f_type f) = f_type f.
  Proof.
    intros U F J. apply point_output. destruct (output_types_ok c T _ _ EO) as [_ O2]. apply O2; [|auto].
    left. exists t. split; [auto|]. intros Z. rewrite Z in J. destruct J.
  Qed.

  Lemma output_uses n : OutputUse c' n <-> OutputUse c n.
  Proof.
    split.
    - induction 1 as [n Q|n Q|n m U IH H].
      + rewrite schema_same in Q. now apply OutputUse_query.
      + rewrite schema_same in Q. now apply OutputUse_mutation.
      + eapply OutputUse_inside; [exact IH|]. inversion H as [? u ? Un M|? t' fn f' F J]; subst.
        * rewrite union_same in Un. econstructor; eauto.
        * apply type_from in F as (k & t & F & -> & X). apply field_from in J as (f & J & ->). cbn [f_type point_field].
          destruct X as [<-|[-> K]]; [|exfalso; apply copy_new in K as (_ & _ & N); auto].
          erewrite output_field by eauto. eapply Holds_field; eauto.
    - induction 1 as [n Q|n Q|n m U IH H].
      + apply OutputUse_query. now rewrite schema_same.
      + apply OutputUse_mutation. now rewrite schema_same.
      + eapply OutputUse_inside; [exact IH|]. inversion H as [? u ? Un M|? t fn f F J]; subst.
        * apply Holds_member with u; [now rewrite union_same|auto].
        * rewrite <- (output_field n t fn f U F J). apply Holds_field with (t := point n t) (fn := fn)
            (f := point_field keys (ss_inputs final) (ss_outputs final) n f); [now apply type_old|].
          cbn. apply in_map_iff. now exists (fn, f).
  Qed.

  Lemma disjoint n : object_type c' n -> InputUse c' n -> OutputUse c' n -> False.
  Proof.
    intros (t' & F & N) Ui Uo. rewrite output_uses in Uo. apply input_uses in Ui as [(k & K & ->)|[Ui Nk]].
    - apply copy_new in K as (_ & _ & X). auto.
    - apply type_from in F as (k & t & F & -> & X). destruct X as [<-|[-> K]].
      + apply Nk. apply keys_complete; auto. exists t. split; [auto|]. intros Z. apply N. cbn. now rewrite Z.
      + apply copy_new in K as (_ & X & _). auto.
  Qed.

  (** **** Shape *)
  Lemma with_copy n t : copy_of c (type_name t) n -> typ_copy c t (with_name n t).
  Proof. induction t as [m b|t IH b]; cbn; intros H; constructor; auto. Qed.
  Lemma self_copy t : typ_copy c t t.
  Proof. induction t as [m b|t IH b]; constructor; auto. now left. Qed.
  Lemma key_copy n : In n keys -> copy_of c n (input_name n).
  Proof. intros K. right. split; [auto|]. now apply keys_sound in K. Qed.

  Lemma entries_map {V} (R2 : V -> V -> Prop) (g : V -> V) m : (forall x, R2 x (g x)) -> same_entries R2 m (map (fun kv => (fst kv, g (snd kv))) m).
  Proof. intros H. induction m as [|[k v] m IH]; constructor; cbn; auto. Qed.

  Lemma point_copy x t : gtype_copy c t (point x t).
  Proof.
    split; [|repeat split]. cbn [t_fields point_gtype]. apply entries_map. intros f. split.
    - cbn [f_type point_field]. destruct (point_typ_cases x (f_type f)) as [->|[K ->]]; [apply self_copy|].
      apply with_copy, key_copy, K.
    - split; [|repeat split]. cbn [f_args point_field]. apply entries_map. intros a. split; [|repeat split].
      cbn [arg_type point_arg]. destruct (smem (type_name (arg_type a)) keys) eqn:M; [|apply self_copy].
      apply smem_In in M. apply with_copy, key_copy, M.
  Qed.

  Lemma defined_kept n : defined c n -> defined c' n.
  Proof.
    intros [D|[D|D]].
    - left. destruct (find_type c n) as [t|] eqn:F; [|congruence]. rewrite (type_old n t F). discriminate.
    - right. left. now rewrite enum_same.
    - right. right. now rewrite union_same.
  Qed.
  Lemma copy_defined k : In k keys -> defined c' (input_name k).
  Proof.
    intros K. destruct (find_type c k) as [t|] eqn:F; [|now apply keys_sound in K].
    left. rewrite (type_copy k t K F). discriminate.
  Qed.
  Lemma mentioned_kept m : Mentioned c' m -> Mentioned c m \/ defined c' m.
  Proof.
    intros [(n & H)|(x & t' & fn & f' & an & a' & F & J & K & ->)].
    - inversion H as [? u ? Un M|? t' fn f' F J]; subst.
      + rewrite union_same in Un. left. left. exists n. econstructor; eauto.
      + apply type_from in F as (k & t & F & -> & X). apply field_from in J as (f & J & ->). cbn [f_type point_field].
        destruct (point_typ_cases n (f_type f)) as [->|[K ->]].
        * left. left. exists k. eapply Holds_field; eauto.
        * right. rewrite type_name_with. now apply copy_defined.
    - apply type_from in F as (k & t & F & -> & X). apply field_from in J as (f & J & ->). apply arg_from in K as (a & K & ->).
      cbn [arg_type point_arg]. destruct (smem (type_name (arg_type a)) keys) eqn:M.
      + right. rewrite type_name_with. apply copy_defined. now apply smem_In.
      + left. right. exists k, t, fn, f, an, a. auto.
  Qed.
End Split.

(** *** Checking names by computation *)
Definition mentions (c : config) : list string :=
  flat_map (fun nu => u_types (snd nu)) (c_unions c) ++
  flat_map (fun nt => flat_map (fun kf => type_name (f_type (snd kf)) :: map (fun ka => type_name (arg_type (snd ka))) (f_args (snd kf)))
                               (t_fields (snd nt))) (c_types c).
Definition root_names (c : config) : list string := opt_list (r_query (c_schema c)) ++ opt_list (r_mutation (c_schema c)).

Lemma argument_mentioned c m : ArgumentType c m -> In m (mentions c).
Proof.
  intros (n & t & fn & f & an & a & F & J & K & ->). apply oget_in in F; [|exact scmp_order]. unfold mentions. apply in_app_iff. right.
  apply in_flat_map. exists (n, t). split; [auto|]. apply in_flat_map. exists (fn, f). split; [auto|]. right. apply in_map_iff. now exists (an, a).
Qed.
Lemma held_mentioned c n m : Holds c n m -> In m (mentions c).
Proof.
  intros H. unfold mentions. apply in_app_iff. destruct H as [n u m U M|n t fn f F J].
  - left. apply oget_in in U; [|exact scmp_order]. apply in_flat_map. now exists (n, u).
  - right. apply oget_in in F; [|exact scmp_order]. apply in_flat_map. exists (n, t). split; [auto|]. apply in_flat_map.
    exists (fn, f). split; [auto|]. now left.
Qed.
Lemma input_mentioned c n : InputUse c n -> In n (mentions c).
Proof. intros H. destruct H as [m A|n m _ H]; [now apply argument_mentioned|eapply held_mentioned; eauto]. Qed.
Lemma output_mentioned c n : OutputUse c n -> In n (root_names c ++ mentions c).
Proof.
  intros H. apply in_app_iff. unfold root_names. destruct H as [n Q|n Q|n m _ H].
  - left. rewrite Q. now left.
  - left. apply in_app_iff. right. rewrite Q. now left.
  - right. eapply held_mentioned; eauto.
Qed.
Lemma fresh_check c : forallb (fun n => negb (smem (input_name n) (map fst (c_types c) ++ map fst (c_unions c) ++ map fst (c_enums c) ++ root_names c ++ mentions c)))
    (map fst (c_types c)) = true -> inputs_fresh c.
Proof.
  intros H n D. assert (N : In n (map fst (c_types c))).
  { destruct (in_dec string_dec n (map fst (c_types c))) as [I|I]; [auto|]. exfalso. apply D. apply oget_none; [exact scmp_order|auto]. }
  rewrite forallb_forall in H. specialize (H n N). apply negb_true_iff, smem_false in H. cbn zeta. fold (input_name n).
  rewrite !in_app_iff in H. refine (conj _ (conj _ _)).
  - intros X. apply defined_named in X. unfold names_of in X. rewrite !in_app_iff in X. tauto.
  - intros X. apply input_mentioned in X. tauto.
  - intros X. apply output_mentioned in X. apply in_app_iff in X. tauto.
Qed.
