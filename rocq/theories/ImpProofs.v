(** Proofs about names of types made from names of fields (C77). *)
From Coq Require Import String Ascii ZArith Bool Arith List Permutation Lia.
From Verif Require Import Base BaseFacts Ordered OrderedFacts JsonModel TypeModel ConfigModel BuilderModel AmbModel RenameModel RenameSpec RenameProofs ImpModel ImpSpec.
Import ListNotations.
Open Scope string_scope.
Open Scope list_scope.

Lemma oins_new {V} k (v : V) m : oget scmp k m = None -> Permutation (oins scmp k v m) ((k, v) :: m).
Proof.
  induction m as [|[k' v'] m IH]; intros H; [reflexivity|]. cbn in *. destruct (scmp k k') eqn:E; [discriminate|reflexivity|].
  rewrite IH by exact H. apply perm_swap.
Qed.

Section Improve.
  Variables singular pascal lowercase : string -> string.
  Variable c : config.

  Definition listed : list (string * (string * field)) := flat_map (fun kt => map (fun fx => (fst kt, fx)) (t_fields (snd kt))) (c_types c).
  Notation step := (fun acc x => candidate singular lowercase c (fst x) acc (snd x)).
  Lemma generate_flat : generate singular lowercase c = fold_left step listed [].
  Proof.
    unfold generate, listed. generalize (@nil (string * list (string * stats))). induction (c_types c) as [|[k t] l IH]; intros acc; [reflexivity|].
    cbn [fold_left flat_map fst snd]. rewrite fold_left_app, IH. f_equal. generalize acc. induction (t_fields t) as [|fx fs IHf]; intros acc'; [reflexivity|]. cbn. apply IHf.
  Qed.

  Definition frequency (acc : list (string * list (string * stats))) (n s : string) : nat :=
    match oget scmp n acc with Some m => match oget scmp s m with Some (f, _) => f | None => 0 end | None => 0 end.
  Definition counts (n s : string) (fx : string * field) : bool :=
    String.eqb (type_name (f_type (snd fx))) n && String.eqb (singular (fst fx)) s && negb (prefix "GEN__" (fst fx)).

  Record good (acc : list (string * list (string * stats))) : Prop := {
    gd_sorted : osorted scmp acc;
    gd_inner : forall n m, In (n, m) acc -> osorted scmp m /\ is_scalar c n = false /\ forall s st, In (s, st) m -> 1 <= fst st }.

  Lemma good_step acc x : good acc -> good (step acc x).
  Proof.
    intros [S I]. destruct x as [tn [fname f]]. cbn [fst snd candidate]. destruct (is_scalar c (type_name (f_type f)) || prefix "GEN__" fname) eqn:E; [now split|].
    apply orb_false_iff in E. destruct E as [E _]. split; [now apply (osorted_oins scmp scmp_order)|].
    intros n m H. apply (oins_in scmp scmp_order) in H. destruct H as [[-> ->]|H]; [|now apply I].
    assert (G : osorted scmp (match oget scmp (type_name (f_type f)) acc with Some m => m | None => [] end) /\ forall s st, In (s, st) (match oget scmp (type_name (f_type f)) acc with Some m => m | None => [] end) -> 1 <= fst st).
    { destruct (oget scmp (type_name (f_type f)) acc) as [m|] eqn:O; [|split; [constructor|intros s st []]]. apply (oget_in scmp scmp_order) in O. destruct (I _ _ O) as (A & _ & B). auto. }
    destruct G as [G1 G2]. destruct (oget scmp (singular fname) _) as [[fr pr]|] eqn:O.
    - split; [now apply (osorted_oins scmp scmp_order)|]. split; [exact E|]. intros s st H. apply (oins_in scmp scmp_order) in H. destruct H as [[-> ->]|H]; [ cbn; lia|now apply (G2 s)].
    - split; [now apply (osorted_oins scmp scmp_order)|]. split; [exact E|]. intros s st H. apply (oins_in scmp scmp_order) in H. destruct H as [[-> ->]|H]; [ cbn; lia|now apply (G2 s)].
  Qed.
  Lemma good_all l : forall acc, good acc -> good (fold_left step l acc).
  Proof. induction l as [|x l IH]; intros acc G; [exact G|]. cbn [fold_left]. apply IH. now apply good_step. Qed.
  Lemma generate_good : good (generate singular lowercase c).
  Proof. rewrite generate_flat. apply good_all. split; [constructor|intros n m []]. Qed.

  Lemma frequency_step acc x n s : is_scalar c n = false ->
    frequency (step acc x) n s = frequency acc n s + (if counts n s (snd x) then 1 else 0).
  Proof.
    intros Sc. destruct x as [tn [fname f]]. unfold counts. cbn [fst snd candidate]. set (n' := type_name (f_type f)).
    destruct (is_scalar c n' || prefix "GEN__" fname) eqn:E.
    - destruct (String.eqb_spec n' n) as [D|D]; cbn [andb]; [|lia]. rewrite D, Sc in E. cbn in E. rewrite E. cbn. rewrite andb_false_r. lia.
    - apply orb_false_iff in E. destruct E as [_ E]. rewrite E. cbn [negb]. rewrite andb_true_r. unfold frequency at 1.
      destruct (String.eqb_spec n' n) as [D|D]; cbn [andb].
      + rewrite <- D. rewrite (oget_oins_same scmp scmp_order). unfold frequency. fold n'. destruct (oget scmp n' acc) as [m|].
        * destruct (oget scmp (singular fname) m) as [[fr pr]|] eqn:O.
          -- destruct (String.eqb_spec (singular fname) s) as [F|F]; [rewrite F in *; rewrite (oget_oins_same scmp scmp_order), O; lia|]. rewrite (oget_oins_other scmp scmp_order) by congruence. lia.
          -- destruct (String.eqb_spec (singular fname) s) as [F|F]; [rewrite F in *; rewrite (oget_oins_same scmp scmp_order), O; lia|]. rewrite (oget_oins_other scmp scmp_order) by congruence. lia.
        * cbn [oget].
          destruct (String.eqb_spec (singular fname) s) as [F|F]; [rewrite F; now rewrite (oget_oins_same scmp scmp_order)|]. rewrite (oget_oins_other scmp scmp_order) by congruence. reflexivity.
      + rewrite (oget_oins_other scmp scmp_order) by congruence. unfold frequency. lia.
  Qed.
  Lemma frequency_all n s : is_scalar c n = false -> forall l acc,
    frequency (fold_left step l acc) n s = frequency acc n s + length (filter (counts n s) (map snd l)).
  Proof.
    intros Sc. induction l as [|x l IH]; intros acc; [cbn; lia|]. cbn [fold_left map filter]. rewrite IH, frequency_step by exact Sc. destruct (counts n s (snd x)); cbn [length]; lia.
  Qed.
  Lemma listed_fields : map snd listed = flat_map (fun kt => t_fields (snd kt)) (c_types c).
  Proof.
    unfold listed. induction (c_types c) as [|[k t] l IH]; [reflexivity|]. cbn [flat_map]. rewrite map_app, IH. f_equal. cbn [fst snd]. rewrite map_map. cbn. apply map_id.
  Qed.
  Lemma generate_frequency n s : is_scalar c n = false -> frequency (generate singular lowercase c) n s = uses singular c n s.
  Proof. intros Sc. rewrite generate_flat, (frequency_all n s Sc), listed_fields. reflexivity. Qed.

  (** ** Priorities *)
  Definition priority_of (acc : list (string * list (string * stats))) (n s : string) : option nat :=
    match oget scmp n acc with Some m => match oget scmp s m with Some (_, p) => Some p | None => None end | None => None end.
  Definition rank (x : string * (string * field)) : nat := if is_root_operation_type lowercase c (fst x) then 0 else 1.
  Lemma priority_step acc x n s : is_scalar c n = false ->
    priority_of (step acc x) n s = match priority_of acc n s with Some p => Some p | None => if counts n s (snd x) then Some (rank x) else None end.
  Proof.
    intros Sc. destruct x as [tn [fname f]]. unfold counts, rank. cbn [fst snd candidate]. set (n' := type_name (f_type f)).
    destruct (is_scalar c n' || prefix "GEN__" fname) eqn:E.
    - destruct (String.eqb_spec n' n) as [D|D]; cbn [andb]; [|now destruct (priority_of acc n s)]. rewrite D, Sc in E. cbn in E. rewrite E. cbn. rewrite andb_false_r. now destruct (priority_of acc n s).
    - apply orb_false_iff in E. destruct E as [_ E]. rewrite E. cbn [negb]. rewrite andb_true_r. unfold priority_of at 1.
      destruct (String.eqb_spec n' n) as [D|D]; cbn [andb].
      + rewrite <- D. rewrite (oget_oins_same scmp scmp_order). unfold priority_of. fold n'. destruct (oget scmp n' acc) as [m|].
        * destruct (oget scmp (singular fname) m) as [[fr pr]|] eqn:O; destruct (String.eqb_spec (singular fname) s) as [F|F].
          -- rewrite F in *. rewrite (oget_oins_same scmp scmp_order), O. reflexivity.
          -- rewrite (oget_oins_other scmp scmp_order) by congruence. destruct (oget scmp s m) as [[]|]; reflexivity.
          -- rewrite F in *. rewrite (oget_oins_same scmp scmp_order), O. reflexivity.
          -- rewrite (oget_oins_other scmp scmp_order) by congruence. destruct (oget scmp s m) as [[]|]; reflexivity.
        * cbn [oget]. destruct (String.eqb_spec (singular fname) s) as [F|F]; [rewrite F; now rewrite (oget_oins_same scmp scmp_order)|]. rewrite (oget_oins_other scmp scmp_order) by congruence. reflexivity.
      + rewrite (oget_oins_other scmp scmp_order) by congruence. fold (priority_of acc n s). now destruct (priority_of acc n s).
  Qed.
  Lemma priority_all n s : is_scalar c n = false -> forall l acc,
    priority_of (fold_left step l acc) n s = match priority_of acc n s with Some p => Some p | None => option_map rank (find (fun x => counts n s (snd x)) l) end.
  Proof.
    intros Sc. induction l as [|x l IH]; intros acc; [cbn; now destruct (priority_of acc n s)|]. cbn [fold_left find]. rewrite IH, priority_step by exact Sc.
    destruct (priority_of acc n s); [reflexivity|]. now destruct (counts n s (snd x)).
  Qed.
  Lemma generate_priority n s p : is_scalar c n = false -> priority_of (generate singular lowercase c) n s = Some p -> p = if first_in_root singular lowercase c n s then 0 else 1.
  Proof.
    intros Sc. rewrite generate_flat, (priority_all n s Sc). change (priority_of [] n s) with (@None nat). cbv iota. unfold first_in_root, listed. unfold counts.
    destruct (find _ _) as [[k fx]|]; [|discriminate]. cbn [option_map]. intros H. injection H as <-. unfold rank, is_root_operation_type. cbn [fst existsb]. rewrite orb_false_r, orb_assoc. reflexivity.
  Qed.

  Lemma scalar_composite n : is_scalar c n = false <-> composite c n.
  Proof.
    unfold is_scalar, composite, gtype_scalar. destruct (find_type c n) as [t|]; [|tauto]. destruct (t_fields t); split; congruence.
  Qed.

  (** ** The greatest *)
  Lemma nat_order : total_order Nat.compare.
  Proof.
    split; [apply Nat.compare_eq_iff|intros x y; apply Nat.compare_antisym|]. intros x y z A B. apply Nat.compare_lt_iff in A, B. apply Nat.compare_lt_iff. lia.
  Qed.
  Definition key (x : string * stats) : nat * (nat * string) := (fst (snd x), (snd (snd x), fst x)).
  Notation kcmp := (cmp_pair Nat.compare (cmp_pair Nat.compare scmp)).
  Lemma kcmp_order : total_order kcmp.
  Proof. apply cmp_pair_order; [exact nat_order|]. apply cmp_pair_order; [exact nat_order|exact scmp_order]. Qed.
  Lemma less_key x y : less x y = true <-> kcmp (key x) (key y) = Lt.
  Proof.
    unfold less, cmp_pair, key. cbn [fst snd]. destruct (Nat.compare (fst (snd x)) (fst (snd y))); [|intuition congruence|intuition congruence].
    destruct (Nat.compare (snd (snd x)) (snd (snd y))); [|intuition congruence|intuition congruence]. destruct (scmp (fst x) (fst y)); intuition congruence.
  Qed.
  Definition not_above (x b : string * stats) : Prop := kcmp (key b) (key x) <> Lt.
  Lemma not_above_trans x y z : not_above x y -> not_above y z -> not_above x z.
  Proof.
    unfold not_above. intros A B C. destruct (kcmp (key y) (key z)) eqn:E.
    - apply (to_eq _ kcmp_order) in E. rewrite E in A. contradiction.
    - apply A. exact (to_trans _ kcmp_order _ _ _ E C).
    - apply (to_gt _ _ _ kcmp_order) in E. contradiction.
  Qed.
  Lemma not_above_refl x : not_above x x.
  Proof. unfold not_above. rewrite (to_refl _ _ kcmp_order). discriminate. Qed.
  Lemma less_not_above x y : if less x y then not_above x y else not_above y x.
  Proof.
    unfold not_above. destruct (less x y) eqn:L; intros H.
    - apply less_key in L. rewrite (to_anti _ kcmp_order (key x) (key y)), L in H. discriminate.
    - apply less_key in H. congruence.
  Qed.
  Lemma greatest_spec l b : greatest l = Some b -> In b l /\ forall x, In x l -> not_above x b.
  Proof.
    unfold greatest.
    assert (G : forall l o, match fold_left (fun best x => match best with Some b => if less x b then Some b else Some x | None => Some x end) l o with
       | Some b => (In b l \/ o = Some b) /\ (forall x, In x l \/ o = Some x -> not_above x b) | None => l = [] /\ o = None end).
    { clear l b. induction l as [|y l IH]; intros o; cbn [fold_left].
      - destruct o as [b|]; [|auto]. split; [auto|]. intros x [[]|H]. injection H as ->. apply not_above_refl.
      - specialize (IH (match o with Some b => if less y b then Some b else Some y | None => Some y end)).
        destruct (fold_left _ l _) as [b|].
        + destruct IH as [A B]. split.
          * destruct A as [A|A]; [left; now right|]. destruct o as [b0|]; [|injection A as <-; left; now left]. destruct (less y b0); [now right|injection A as <-; left; now left].
          * intros x [[<-|H]|H].
            -- destruct o as [b0|]; [|apply B; now right]. pose proof (less_not_above y b0) as X. destruct (less y b0); [|apply B; now right]. specialize (B b0 (or_intror eq_refl)). eapply not_above_trans; eauto.
            -- apply B. now left.
            -- subst o. pose proof (less_not_above y x) as X. destruct (less y x); [apply B; now right|]. specialize (B y (or_intror eq_refl)). eapply not_above_trans; eauto.
        + destruct IH as [_ E]. destruct o as [b0|]; [destruct (less y b0); discriminate E|discriminate E]. }
    intros H. specialize (G l None). rewrite H in G. destruct G as [[A|A] B]; [|discriminate A]. split; [exact A|]. intros x I. apply B. now left.
  Qed.
  Lemma greatest_none l : greatest l = None -> l = [].
  Proof.
    unfold greatest. destruct l as [|x l]; [reflexivity|]. cbn [fold_left]. assert (G : forall l b, fold_left (fun best x => match best with Some b => if less x b then Some b else Some x | None => Some x end) l (Some b) <> None).
    { clear. induction l as [|y l IH]; intros b; [discriminate|]. cbn [fold_left]. destruct (less y b); apply IH. }
    intros H. now apply G in H.
  Qed.

  (** ** Convergence *)
  Notation turn := (converge_one pascal c).
  Record fine (cands : list (string * list (string * stats))) (final : list (string * string)) (converged : list string) : Prop := {
    fi_sorted : osorted scmp final;
    fi_values : NoDup (map snd final);
    fi_converged : forall v, In v converged <-> In v (map snd final);
    fi_new : forall v, In v (map snd final) -> find_type c v = None;
    fi_best : forall n v, In (n, v) final -> exists m s st, In (n, m) cands /\ In (s, st) m /\ v = pascal s /\
      forall s' st', In (s', st') m -> ~ not_above (s', st') (s, st) -> find_type c (pascal s') <> None \/ exists n', scmp n' n = Lt /\ In (n', pascal s') final }.

  Lemma turn_fine cands final converged n m : fine cands final converged -> In (n, m) cands -> (forall k, In k (map fst final) -> scmp k n = Lt) ->
    fine cands (fst (turn (final, converged) (n, m))) (snd (turn (final, converged) (n, m))) /\
    forall k, In k (map fst (fst (turn (final, converged) (n, m)))) -> In k (map fst final) \/ k = n.
  Proof.
    intros [S V C N B] I Lt_. cbn [converge_one fst snd]. destruct (greatest _) as [[s st]|] eqn:G; [|split; [now split|auto]].
    apply greatest_spec in G. destruct G as [Gi Gm]. apply filter_In in Gi. destruct Gi as [Is K]. cbn [fst] in K. apply andb_true_iff in K. destruct K as [K1 K2].
    apply negb_true_iff, smem_false in K1. apply negb_true_iff in K2. assert (K3 : find_type c (pascal s) = None) by (destruct (find_type c (pascal s)); [discriminate|reflexivity]).
    cbn [fst snd]. assert (O : oget scmp n final = None).
    { apply (oget_none scmp scmp_order). intros X. apply in_map_iff in X. destruct X as ([k v] & E & X). cbn in E. subst k.
      assert (Z : scmp n n = Lt) by (apply Lt_, in_map_iff; exists (n, v); auto). rewrite (to_refl _ n scmp_order) in Z. discriminate. }
    pose proof (oins_new n (pascal s) final O) as P.
    split; [split|].
    - now apply (osorted_oins scmp scmp_order).
    - eapply Permutation_NoDup; [apply Permutation_map, Permutation_sym, P|]. cbn. constructor; [|exact V]. rewrite <- C. exact K1.
    - intros v. split.
      + intros H. eapply Permutation_in; [apply Permutation_map, Permutation_sym, P|]. cbn. destruct H as [->|H]; [now left|right; now apply C].
      + intros H. eapply Permutation_in in H; [|apply Permutation_map, P]. cbn in H. destruct H as [->|H]; [now left|right; now apply C].
    - intros v H. eapply Permutation_in in H; [|apply Permutation_map, P]. cbn in H. destruct H as [<-|H]; [exact K3|now apply N].
    - intros n' v H. eapply Permutation_in in H; [|exact P]. destruct H as [H|H].
      + injection H as <- <-. exists m, s, st. split; [exact I|]. split; [exact Is|]. split; [reflexivity|]. intros s' st' I' L.
        destruct (find_type c (pascal s')) as [t|] eqn:F; [left; discriminate|]. right.
        destruct (smem (pascal s') converged) eqn:Sm.
        * apply smem_In, C in Sm. apply in_map_iff in Sm. destruct Sm as ([k w] & E & X). cbn in E. subst w. exists k. split; [apply Lt_, in_map_iff; exists (k, pascal s'); auto|].
          eapply Permutation_in; [apply Permutation_sym, P|]. now right.
        * exfalso. apply L. apply Gm, filter_In. split; [exact I'|]. cbn [fst]. now rewrite Sm, F.
      + destruct (B n' v H) as (m' & s' & st' & A1 & A2 & A3 & A4). exists m', s', st'. repeat (split; [assumption|]). intros s2 st2 I2 L2.
        destruct (A4 s2 st2 I2 L2) as [X|(k & X & Y)]; [now left|right]. exists k. split; [exact X|]. eapply Permutation_in; [apply Permutation_sym, P|]. now right.
    - intros k H. eapply Permutation_in in H; [|apply Permutation_map, P]. cbn in H. destruct H as [<-|H]; auto.
  Qed.

  Lemma converge_fine cands : forall l final converged, osorted scmp l -> (forall x, In x l -> In x cands) -> fine cands final converged ->
    (forall k n, In k (map fst final) -> In n (map fst l) -> scmp k n = Lt) ->
    fine cands (fst (fold_left turn l (final, converged))) (snd (fold_left turn l (final, converged))).
  Proof.
    induction l as [|[n m] l IH]; intros final converged S Sub F Lt_; [exact F|]. cbn [fold_left].
    destruct (turn_fine cands final converged n m F (Sub _ (or_introl eq_refl)) (fun k H => Lt_ k n H (or_introl eq_refl))) as [F' K].
    destruct (turn (final, converged) (n, m)) as [final' converged']. cbn [fst snd] in *. inversion S as [|? ? ? S1 S2]; subst. apply IH; [exact S2|intros x I; apply Sub; now right|exact F'|].
    intros k n' H1 H2. apply K in H1. destruct H1 as [H1| ->]; [apply Lt_; [exact H1|now right]|]. apply in_map_iff in H2. destruct H2 as ([k v] & <- & H2). exact (S1 k v H2).
  Qed.
  Lemma improved_fine : fine (generate singular lowercase c) (improved_names singular pascal lowercase c) (snd (fold_left turn (generate singular lowercase c) ([], []))).
  Proof.
    unfold improved_names, converge. apply converge_fine; [apply generate_good|auto| |intros k n []].
    split; [constructor|constructor|tauto|intros v []|intros n v []].
  Qed.

  (** Every name comes from a field. *)
  Lemma candidate_field n m s st : In (n, m) (generate singular lowercase c) -> In (s, st) m -> composite c n /\ fst st = uses singular c n s /\ 0 < uses singular c n s /\
    snd st = if first_in_root singular lowercase c n s then 0 else 1.
  Proof.
    intros I J. destruct generate_good as [S G]. destruct (G n m I) as (A & B & D). specialize (D s st J).
    assert (F : frequency (generate singular lowercase c) n s = fst st).
    { unfold frequency. rewrite (in_oget scmp scmp_order n m _ S I), (in_oget scmp scmp_order s st _ A J). now destruct st. }
    rewrite (generate_frequency n s B) in F. split; [now apply scalar_composite|]. split; [now symmetry|]. split; [lia|]. apply (generate_priority n s _ B).
    unfold priority_of. rewrite (in_oget scmp scmp_order n m _ S I), (in_oget scmp scmp_order s st _ A J). now destruct st.
  Qed.
  Lemma used_candidate n s : composite c n -> 0 < uses singular c n s -> exists m st, In (n, m) (generate singular lowercase c) /\ In (s, st) m /\ fst st = uses singular c n s.
  Proof.
    intros Cm L. apply scalar_composite in Cm. pose proof (generate_frequency n s Cm) as F. unfold frequency in F.
    destruct (oget scmp n (generate singular lowercase c)) as [m|] eqn:O; [|lia]. destruct (oget scmp s m) as [[fr pr]|] eqn:O2; [|lia].
    exists m, (fr, pr). split; [now apply (oget_in scmp scmp_order)|]. split; [now apply (oget_in scmp scmp_order)|exact F].
  Qed.
  Lemma uses_field n s : 0 < uses singular c n s -> exists k t f x, In (k, t) (c_types c) /\ In (f, x) (t_fields t) /\ type_name (f_type x) = n /\ singular f = s.
  Proof.
    unfold uses. destruct (filter _ _) as [|[f x] l] eqn:E; [cbn; lia|]. intros _. assert (I : In (f, x) ((f, x) :: l)) by now left. rewrite <- E in I. apply filter_In in I. destruct I as [I K].
    apply in_flat_map in I. destruct I as ([k t] & I & J). cbn [fst snd] in *. apply andb_true_iff in K. destruct K as [K _]. apply andb_true_iff in K. destruct K as [K1 K2]. apply String.eqb_eq in K1, K2. exists k, t, f, x. auto.
  Qed.

  (** ** Types that get no name *)
  Lemma turn_mono st x : (forall k, In k (map fst (fst st)) -> In k (map fst (fst (turn st x)))) /\ (forall v, In v (snd st) -> In v (snd (turn st x))).
  Proof.
    destruct st as [final converged], x as [n m]. cbn [converge_one fst snd]. destruct (greatest _) as [[s stt]|]; [|auto]. cbn [fst snd]. split; [|intros v I; now right].
    intros k I. apply in_map_iff in I. destruct I as ([k' v] & E & I). cbn in E. subst k'. destruct (String.eqb_spec n k) as [->|D].
    - pose proof (oget_oins_same scmp scmp_order k (pascal s) final) as O. apply (oget_in scmp scmp_order) in O. apply in_map_iff. eexists. split; [|exact O]. reflexivity.
    - apply in_map_iff. exists (k, v). split; [reflexivity|]. clear - I D. induction final as [|[k2 v2] f IH]; [destruct I|]. cbn. destruct I as [I|I].
      + injection I as -> ->. destruct (scmp n k) eqn:E; [apply (to_eq _ scmp_order) in E; contradiction|right; now left|now left].
      + destruct (scmp n k2) eqn:E; [now right|right; now right|right; now apply IH].
  Qed.
  Lemma turns_mono l : forall st, (forall k, In k (map fst (fst st)) -> In k (map fst (fst (fold_left turn l st)))) /\ (forall v, In v (snd st) -> In v (snd (fold_left turn l st))).
  Proof.
    induction l as [|x l IH]; intros st; [auto|]. cbn [fold_left]. destruct (IH (turn st x)) as [A B]. destruct (turn_mono st x) as [A' B']. split; [intros k I; apply A, A', I|intros v I; apply B, B', I].
  Qed.
  Lemma unnamed n m s stt : In (s, stt) m -> forall l st, In (n, m) l -> ~ In n (map fst (fst (fold_left turn l st))) ->
    find_type c (pascal s) <> None \/ In (pascal s) (snd (fold_left turn l st)).
  Proof.
    intros Is. induction l as [|x l IH]; intros st I N; [destruct I|]. cbn [fold_left] in *. destruct I as [->|I]; [|now apply IH].
    destruct (turns_mono l (turn st (n, m))) as [A B]. destruct st as [final converged]. cbn [converge_one fst snd] in *.
    destruct (greatest _) as [[s' st']|] eqn:G.
    - exfalso. apply N, A. cbn [fst]. pose proof (oget_oins_same scmp scmp_order n (pascal s') final) as O. apply (oget_in scmp scmp_order) in O. apply in_map_iff. eexists. split; [|exact O]. reflexivity.
    - apply greatest_none in G. destruct (find_type c (pascal s)) as [t|] eqn:F; [left; discriminate|right]. apply B. cbn [snd]. destruct (smem (pascal s) converged) eqn:Sm; [now apply smem_In|].
      exfalso. assert (X : In (s, stt) []); [|destruct X]. rewrite <- G. apply filter_In. split; [exact Is|]. cbn [fst]. now rewrite Sm, F.
  Qed.
End Improve.
