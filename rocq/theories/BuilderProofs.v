(** Proofs for the plan builder (C43). *)
From Coq Require Import String Ascii ZArith NArith Bool Arith Lia Permutation Sorted List.
From Verif Require Import Base BaseFacts JsonModel TypeModel DiscModel PlanModel BuilderModel BuilderSpec.
Import ListNotations.
Open Scope string_scope.
Open Scope list_scope.
Open Scope nat_scope.

Fixpoint between (a b : nat) (l : list nat) : Prop :=
  match l with [] => a <= b | x :: t => a <= x /\ between (S x) b t end.

Lemma between_le a b l : between a b l -> a <= b.
Proof. revert a; induction l as [|x t IH]; cbn; intros a H; [auto|]. destruct H as [H1 H2]. apply IH in H2. lia. Qed.

Lemma between_weak a a' b l : a' <= a -> between a b l -> between a' b l.
Proof. destruct l; cbn; [lia|]. intros ? [? ?]; split; [lia|auto]. Qed.

Lemma between_app a b l l' : between a b (l ++ l') <-> exists m, between a m l /\ between m b l'.
Proof.
  revert a; induction l as [|x t IH]; cbn; intros a.
  - split; [intros H; exists a; auto|intros [m [H1 H2]]; eapply between_weak; eauto].
  - rewrite IH. split.
    + intros [H1 [m [H2 H3]]]. exists m; auto.
    + intros [m [[H1 H2] H3]]. split; [auto|]. exists m; auto.
Qed.

Lemma between_lt a b l : between a b l -> forall x, In x l -> a <= x < b.
Proof.
  revert a; induction l as [|y t IH]; cbn; intros a H x; [tauto|].
  destruct H as [H1 H2]. intros [<-|H].
  - apply between_le in H2. lia.
  - apply (IH _ H2) in H. lia.
Qed.

Lemma between_NoDup a b l : between a b l -> NoDup l.
Proof.
  revert a; induction l as [|y t IH]; cbn; intros a H; constructor.
  - destruct H as [_ H]. intros J. apply (between_lt _ _ _ H) in J. lia.
  - eapply IH. apply H.
Qed.

Lemma between_flat_filter {A} (g : A -> list nat) p a b l :
  between a b (flat_map g l) -> between a b (flat_map g (filter p l)).
Proof.
  revert a; induction l as [|x t IH]; cbn; intros a H; [auto|].
  apply between_app in H as [m [H1 H2]]. destruct (p x); cbn.
  - apply between_app. exists m. auto.
  - apply IH. eapply between_weak; [|exact H2]. eapply between_le; eauto.
Qed.

Section Proofs.
  Context {IR : Type}.
  Notation field := (bfield IR).
  Variable ix : index IR.
  Variable frags : list (string * fragment).

  Lemma unnumbered_eq i n o e t c s inc a pf d en sc sel :
    unnumbered (IR := IR) (BField i n o e t c s inc a pf d en sc sel) =
    BField 0 n o e t c s inc a pf d en sc (map unnumbered sel).
  Proof. cbn. f_equal; try (induction sel as [|x l IH]; cbn; [auto|]; now rewrite IH). Qed.

  Lemma numbers_eq (f : field) : numbers f = b_id f :: flat_map numbers (b_sel f).
  Proof. destruct f. cbn. f_equal; try (induction sel as [|x l IH]; cbn; [auto|]; now rewrite IH). Qed.

  Lemma output_unnumbered (f : field) : b_output (unnumbered f) = b_output f.
  Proof. destruct f. reflexivity. Qed.

  Lemma filter_unnumbered p (l : list field) :
    filter (fun g => p (b_output g)) (map unnumbered l) = map unnumbered (filter (fun g => p (b_output g)) l).
  Proof. induction l as [|x l IH]; cbn; [auto|]. rewrite output_unnumbered. destruct (p _); cbn; now rewrite IH. Qed.

  (** *** Sorting *)

  Definition ids_up (l : list field) : Prop := StronglySorted (fun f g => b_id f < b_id g) l.

  Lemma between_ids_up a b l : between a b (flat_map numbers l) -> ids_up l.
  Proof.
    revert a; induction l as [|f l IH]; cbn; intros a H; constructor.
    - apply between_app in H as [m [_ H]]. eapply IH; eauto.
    - apply Forall_forall. intros g G. apply between_app in H as [m [H1 H2]].
      rewrite numbers_eq in H1. pose proof (between_lt _ _ _ H1 (b_id f) (or_introl eq_refl)).
      assert (In (b_id g) (flat_map numbers l)) as J.
      { apply in_flat_map. exists g. split; [auto|]. rewrite numbers_eq. now left. }
      apply (between_lt _ _ _ H2) in J. lia.
  Qed.

  Lemma insert_perm (f : field) l : Permutation (insert_by_id f l) (f :: l).
  Proof.
    induction l as [|g l IH]; cbn; [auto|]. destruct (Nat.leb _ _); [auto|].
    rewrite IH. constructor.
  Qed.

  Lemma sort_perm (l : list field) : Permutation (sort_by_id l) l.
  Proof. induction l as [|f l IH]; cbn; [auto|]. rewrite insert_perm. now constructor. Qed.

  Lemma insert_sorted (f : field) l :
    StronglySorted (fun f g => b_id f <= b_id g) l -> StronglySorted (fun f g => b_id f <= b_id g) (insert_by_id f l).
  Proof.
    induction 1 as [|g l HS IH HF]; cbn; [constructor; constructor|].
    destruct (Nat.leb_spec (b_id f) (b_id g)).
    - constructor; [constructor; auto|]. constructor; [auto|].
      eapply Forall_impl; [|exact HF]. cbn. intros; lia.
    - constructor; [auto|]. apply Forall_forall. intros x Hx.
      apply (Permutation_in _ (insert_perm f l)) in Hx as [<-|Hx]; [lia|].
      rewrite Forall_forall in HF. auto.
  Qed.

  Lemma sort_sorted (l : list field) : StronglySorted (fun f g => b_id f <= b_id g) (sort_by_id l).
  Proof. induction l; cbn; [constructor|]. now apply insert_sorted. Qed.

  Lemma sorted_unique (l : list field) : ids_up l ->
    forall l', StronglySorted (fun f g => b_id f <= b_id g) l' -> Permutation l' l -> l' = l.
  Proof.
    induction 1 as [|f l HS IH HF]; intros l' S' P.
    - apply Permutation_nil. now symmetry.
    - destruct l' as [|g l']; [apply Permutation_nil in P; discriminate|].
      inversion S' as [|g0 l0 S0 F0 E0]; subst.
      rewrite Forall_forall in HF, F0.
      assert (g = f) as ->.
      { pose proof (Permutation_in _ P (or_introl eq_refl)) as [E|G]; [auto|].
        pose proof (Permutation_in _ (Permutation_sym P) (or_introl eq_refl)) as [E|G']; [auto|].
        apply HF in G. apply F0 in G'. lia. }
      f_equal. apply IH; [auto|]. eapply Permutation_cons_inv; eauto.
  Qed.

  Lemma sort_spec (l l' : list field) : ids_up l -> Permutation l' l -> sort_by_id l' = l.
  Proof.
    intros U P. apply sorted_unique; [auto|apply sort_sorted|]. now rewrite sort_perm.
  Qed.

  (** *** Refinement *)

  Definition directs (m : list (bool * field)) : list field := map snd (filter fst m).
  Definition others (m : list (bool * field)) : list field := map snd (filter (fun x => negb (fst x)) m).
  Definition keep (all : list string) (m : list (bool * field)) : list field :=
    map snd (filter (fun x => fst x || negb (smem (b_output (snd x)) all)) m).

  Definition from_fragment (fs : list field) : list (bool * field) := map (fun f => (false, f)) fs.

  Lemma directs_from fs m : directs (from_fragment fs ++ m) = directs m.
  Proof. unfold directs. rewrite filter_app, map_app. replace (filter fst (from_fragment fs)) with (@nil (bool * field)); [auto|].
    induction fs; cbn; auto. Qed.
  Lemma others_from fs m : others (from_fragment fs ++ m) = fs ++ others m.
  Proof.
    unfold others. rewrite filter_app, map_app. f_equal. unfold from_fragment.
    induction fs as [|x l IH]; cbn; [auto|]. now f_equal.
  Qed.
  Lemma keep_from all fs m :
    keep all (from_fragment fs ++ m) = filter (fun f => negb (smem (b_output f) all)) fs ++ keep all m.
  Proof.
    unfold keep. rewrite filter_app, map_app. f_equal. unfold from_fragment.
    induction fs as [|x l IH]; cbn; [auto|].
    destruct (negb _); cbn; [f_equal|]; exact IH.
  Qed.
  Lemma snd_from fs m : map snd (from_fragment fs ++ m) = fs ++ map snd m.
  Proof. rewrite map_app. f_equal. unfold from_fragment. induction fs as [|x l IH]; cbn; [auto|]. now f_equal. Qed.

  Lemma keep_perm all m :
    Permutation (directs m ++ filter (fun f => negb (smem (b_output f) all)) (others m)) (keep all m).
  Proof.
    induction m as [|[b f] m IH]; cbn; [auto|]. destruct b; cbn.
    - now constructor.
    - fold (others m) (directs m) (keep all m).
      unfold directs, others, keep in *. cbn. destruct (negb (smem (b_output f) all)); cbn; [|exact IH].
      rewrite <- Permutation_middle. now constructor.
  Qed.

  Definition good (r : option (list field * nat)) (pf : option string) (items : list selection)
             (cond : string) (n : nat) : Prop :=
    forall fs n', r = Some (fs, n') ->
      Expands ix frags pf cond [] (direct_names items) items (map unnumbered fs) /\
      between n n' (flat_map numbers fs).

  Lemma says_condition name default ds :
    condition_of name default ds =
    match says name ds with
    | Some (QBool b) => if b then CTrue else CFalse
    | Some (QVar v) => CVar v
    | _ => default
    end.
  Proof.
    unfold condition_of. induction ds as [|[d args] rest IH]; [reflexivity|]. cbn.
    destruct (String.eqb d name); [|exact IH]. unfold get_condition. cbn. now destruct (aget "if" args) as [[]|].
  Qed.
  Lemma excluded_eq ds : is_const_skip (skip_of ds) (include_of ds) = always_excluded ds.
  Proof.
    unfold skip_of, include_of, always_excluded. rewrite !says_condition.
    now destruct (says "skip" ds) as [[?| |[]|?|?|?|?|?]|], (says "include" ds) as [[?| |[]|?|?|?|?|?]|].
  Qed.
  Lemma skip_variable ds : cond_variable (skip_of ds) = depends_on "skip" ds.
  Proof. unfold skip_of, depends_on. rewrite says_condition. now destruct (says "skip" ds) as [[?| |[]|?|?|?|?|?]|]. Qed.
  Lemma include_variable ds : cond_variable (include_of ds) = depends_on "include" ds.
  Proof. unfold include_of, depends_on. rewrite says_condition. now destruct (says "include" ds) as [[?| |[]|?|?|?|?|?]|]. Qed.
  Lemma aget_app_last (n : string) (l : list (string * qvalue)) k v :
    aget n (l ++ [(k, v)]) = match aget n l with Some w => Some w | None => if String.eqb n k then Some v else None end.
  Proof. induction l as [|[k' w] l IH]; cbn; [reflexivity|]. now destruct (String.eqb n k'). Qed.
  Lemma last_given_eq n given : aget n (rev given) = last_given n given.
  Proof.
    induction given as [|[k v] l IH]; [reflexivity|]. cbn. rewrite aget_app_last, IH, String.eqb_sym. reflexivity.
  Qed.
  Lemma arguments_eq given schema : build_args given schema = arguments_of given schema.
  Proof.
    induction schema as [|[n f] l IH]; [reflexivity|]. cbn. rewrite last_given_eq. f_equal. exact IH.
  Qed.

  Lemma is_type_implements_spec t t' : is_type_implements ix t t' = true <-> stands_as ix t t'.
  Proof.
    unfold is_type_implements, ix_def. split.
    - destruct (String.eqb_spec t t') as [<-|NE]; [constructor|].
      destruct (aget t (ix_map ix)) as [[[is| | | | |] fs]|] eqn:E; try discriminate.
      destruct (smem t' is) eqn:M; [apply smem_In in M; intros _; eapply as_interface; eauto|].
      destruct (aget t' (ix_map ix)) as [[[| | | | |ts] gs]|] eqn:E'; try discriminate.
      intros K. apply smem_In in K. eapply as_member; eauto.
    - intros [u|u is fs i E I|u is fs w ts gs E E' I].
      + now rewrite String.eqb_refl.
      + destruct (String.eqb u i); [reflexivity|]. rewrite E. apply smem_In in I. now rewrite I.
      + destruct (String.eqb u w); [reflexivity|]. rewrite E, E'. apply smem_In in I. rewrite I. now destruct (smem w is).
  Qed.

  Lemma iter_items_spec rec pf cond :
    (forall pf items cond n, good (rec pf items cond n) pf items cond n) ->
    forall items fields ffields visited n fields' ffields' visited' n',
      iter_items ix frags rec pf cond items fields ffields visited n = Some (fields', ffields', visited', n') ->
      exists m, fields' = fields ++ directs m /\ ffields' = ffields ++ others m /\
        (forall x, In x visited' <-> In x visited \/ In x (direct_names items)) /\
        between n n' (flat_map numbers (map snd m)) /\
        forall all, Expands ix frags pf cond visited all items (map unnumbered (keep all m)).
  Proof.
    intros R. induction items as [|it rest IH]; intros fields ffields visited n fields' ffields' visited' n' H.
    - cbn in H. injection H as <- <- <- <-. exists []. cbn. rewrite !app_nil_r.
      split; [auto|]. split; [auto|]. split; [tauto|]. split; [auto|]. intros. constructor.
    - destruct it as [alias name given ds sel|name ds|c ds sel].
      + cbn in H. destruct (smem (output_of alias name) visited) eqn:V.
        * apply smem_In in V. apply IH in H as [m [E1 [E2 [E3 [E4 E5]]]]].
          exists m. split; [auto|]. split; [auto|]. split.
          { intros x. rewrite E3. cbn. intuition subst; auto. }
          split; [auto|]. intros all. apply X_again; auto.
        * apply smem_false in V.
          rewrite excluded_eq, skip_variable, include_variable in H.
          destruct (always_excluded ds) eqn:C.
          { apply IH in H as [m [E1 [E2 [E3 [E4 E5]]]]].
            exists m. split; [auto|]. split; [auto|]. split; [intros x; rewrite E3; cbn; tauto|].
            split; [auto|]. intros all. apply X_excluded; auto. }
          destruct (get_field ix cond name) as [def|] eqn:G.
          { match type of H with context [rec None sel ?tn (S n)] => destruct (rec None sel tn (S n)) as [[children n1]|] eqn:RE end;
              [|discriminate].
            apply R in RE as [X B].
            apply IH in H as [m [E1 [E2 [E3 [E4 E5]]]]].
            eexists ((true, _) :: m). cbn [directs others filter fst negb map snd].
            fold (directs m) (others m).
            split; [rewrite E1, <- app_assoc; reflexivity|]. split; [exact E2|].
            split; [intros x; rewrite E3; cbn; tauto|]. split.
            - cbn [flat_map]. rewrite numbers_eq. cbn [b_id b_sel app between]. split; [lia|].
              apply between_app. exists n1. auto.
            - intros all. unfold keep. cbn [filter fst orb map snd]. fold (keep all m).
              rewrite unnumbered_eq.
              destruct def as [t r schema|f]; [rewrite arguments_eq|].
              + eapply (X_field ix frags pf cond visited all alias name given ds sel rest _ t r schema); auto.
                constructor; auto.
              + eapply (X_field ix frags pf cond visited all alias name given ds sel rest _ (if_type f) None []); auto.
                now constructor 2. }
          destruct (String.eqb_spec name "__typename") as [->|NE].
          { apply IH in H as [m [E1 [E2 [E3 [E4 E5]]]]].
            eexists ((true, _) :: m). cbn [directs others filter fst negb map snd].
            fold (directs m) (others m).
            split; [rewrite E1, <- app_assoc; reflexivity|]. split; [exact E2|].
            split; [intros x; rewrite E3; cbn; tauto|]. split.
            - cbn [flat_map]. rewrite numbers_eq. cbn [b_id b_sel app between flat_map]. split; [lia|]. exact E4.
            - intros all. unfold keep. cbn [filter fst orb map snd]. fold (keep all m).
              rewrite unnumbered_eq. apply X_typename; auto. }
          { apply IH in H as [m [E1 [E2 [E3 [E4 E5]]]]].
            exists m. split; [auto|]. split; [auto|]. split; [intros x; rewrite E3; cbn; tauto|].
            split; [auto|]. intros all. apply X_unknown; auto. split; auto. }
      + cbn in H. destruct (aget name frags) as [[on sel]|] eqn:F.
        * destruct (rec (Some on) sel on n) as [[gs n1]|] eqn:RE; [|discriminate].
          apply R in RE as [X B]. apply IH in H as [m [E1 [E2 [E3 [E4 E5]]]]].
          exists (from_fragment gs ++ m). rewrite directs_from, others_from, snd_from.
          split; [auto|]. split; [rewrite E2, <- app_assoc; reflexivity|]. split; [auto|]. split.
          { rewrite flat_map_app. apply between_app. exists n1. auto. }
          intros all. rewrite keep_from, map_app, <- (filter_unnumbered (fun o => negb (smem o all))).
          eapply X_spread; eauto.
        * apply IH in H as [m [E1 [E2 [E3 [E4 E5]]]]].
          exists m. split; [auto|]. split; [auto|]. split; [auto|]. split; [auto|].
          intros all. apply X_no_fragment; auto.
      + cbn in H.
        match type of H with context [rec (Some ?on) sel ?on n] => destruct (rec (Some on) sel on n) as [[gs n1]|] eqn:RE end;
          [|discriminate].
        apply R in RE as [X B]. apply IH in H as [m [E1 [E2 [E3 [E4 E5]]]]].
        exists (from_fragment gs ++ m). rewrite directs_from, others_from, snd_from.
        split; [auto|]. split; [rewrite E2, <- app_assoc; reflexivity|]. split; [auto|]. split.
        { rewrite flat_map_app. apply between_app. exists n1. auto. }
        intros all. rewrite keep_from, map_app, <- (filter_unnumbered (fun o => negb (smem o all))).
        apply X_inline; auto.
  Qed.

  Lemma smem_ext l l' x : (forall x, In x l <-> In x l') -> smem x l = smem x l'.
  Proof.
    intros H. destruct (smem x l') eqn:E.
    - apply smem_In. apply H. now apply smem_In.
    - apply smem_false. rewrite H. now apply smem_false.
  Qed.

  Lemma iter_good fuel : forall pf items cond n, good (iter ix frags fuel pf items cond n) pf items cond n.
  Proof.
    induction fuel as [|fuel IH]; intros pf items cond n fs n' H; [discriminate|].
    cbn in H. unfold iter_set in H.
    destruct (iter_items _ _ _ _ _ _ _ _ _ _) as [[[[fields ffields] visited] n1]|] eqn:E; [|discriminate].
    injection H as <- <-.
    apply iter_items_spec in E as [m [E1 [E2 [E3 [E4 E5]]]]]; [|exact IH].
    cbn in E1, E2. subst fields ffields.
    assert (forall x, In x visited <-> In x (direct_names items)) as EV.
    { intros x. rewrite E3. cbn. tauto. }
    assert (sort_by_id (directs m ++ filter (fun f => negb (smem (b_output f) visited)) (others m))
            = keep (direct_names items) m) as ->.
    { apply sort_spec.
      - unfold keep. apply (between_ids_up n n1).
        assert (flat_map numbers (map snd (filter (fun x => fst x || negb (smem (b_output (snd x)) (direct_names items))) m)) =
                flat_map (fun x => numbers (snd x)) (filter (fun x => fst x || negb (smem (b_output (snd x)) (direct_names items))) m)) as ->.
        { rewrite !flat_map_concat_map, map_map. reflexivity. }
        apply between_flat_filter. rewrite !flat_map_concat_map, map_map in E4. now rewrite flat_map_concat_map.
      - erewrite filter_ext; [apply keep_perm|]. intros f. cbn. f_equal. now apply smem_ext. }
    split; [apply E5|].
    unfold keep.
    assert (flat_map numbers (map snd (filter (fun x => fst x || negb (smem (b_output (snd x)) (direct_names items))) m)) =
                flat_map (fun x => numbers (snd x)) (filter (fun x => fst x || negb (smem (b_output (snd x)) (direct_names items))) m)) as ->.
    { rewrite !flat_map_concat_map, map_map. reflexivity. }
    apply between_flat_filter. rewrite !flat_map_concat_map, map_map in E4. now rewrite flat_map_concat_map.
  Qed.

  Lemma iter_expands fuel pf items cond n fs n' :
    iter ix frags fuel pf items cond n = Some (fs, n') ->
    Expands ix frags pf cond [] (direct_names items) items (map unnumbered fs).
  Proof. intros H. now apply iter_good in H. Qed.

  Lemma iter_numbers fuel pf items cond n fs n' :
    iter ix frags fuel pf items cond n = Some (fs, n') ->
    between n n' (flat_map numbers fs).
  Proof. intros H. now apply iter_good in H. Qed.
End Proofs.
