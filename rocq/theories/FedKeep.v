(** What a merge of configurations keeps. *)
From Coq Require Import String Ascii ZArith NArith Bool Arith Lia List.
From Verif Require Import Base BaseFacts Ordered OrderedFacts JsonModel TypeModel ConfigModel MergeModel MergeProofs RenameSpec FedModel FedSpec FedProofs.
Import ListNotations.
Open Scope string_scope.
Open Scope list_scope.

Lemma unify_definitions_get {V} (one : string -> V -> V -> valid V) a b r :
  osorted scmp a -> osorted scmp b -> unify_definitions one a b = Ok r ->
  osorted scmp r /\
  forall n, match oget scmp n a, oget scmp n b with
            | None, y => oget scmp n r = y
            | Some x, None => oget scmp n r = Some x
            | Some x, Some y => exists m, one n x y = Ok m /\ oget scmp n r = Some m
            end.
Proof.
  intros Sa Sb E. unfold unify_definitions in E. apply rmap_ok in E as (merged & E & ->). apply viter_ok in E.
  set (f := fun nb : string * V => match aget (fst nb) a with
                                   | Some x => rmap (fun m : V => (fst nb, m)) (one (fst nb) x (snd nb))
                                   | None => Ok nb
                                   end) in *.
  change (Forall2 (fun a b => f a = Ok b) b merged) in E.
  assert (K : map fst merged = map fst b).
  { eapply (forall2_keys f tt); [|exact E]. unfold f. intros [k v] q H. cbn in *. destruct (aget k a); [apply rmap_ok in H as (m & _ & ->); auto|injection H as <-; auto]. }
  assert (N : NoDup (map fst merged)) by (rewrite K; apply (osorted_nodup _ scmp_order); auto).
  split; [apply insert_all_sorted, filter_sorted, Sa|]. intros n. rewrite insert_all by auto.
  rewrite (oget_filter (fun k => negb (amem k b))). rewrite amem_oget.
  assert (G : forall y, oget scmp n b = Some y -> exists z, oget scmp n merged = Some z /\ f (n, y) = Ok (n, z)).
  { intros y G. apply (oget_in scmp scmp_order) in G. clear - E G N K. revert G. induction E as [|[k v] [k' z] l l' E0 E IH]; intros G; [destruct G|].
    cbn [map fst] in K, N. injection K as -> K. inversion N as [|? ? N1 N2]; subst. destruct G as [G|G].
    - injection G as -> ->. exists z. split; [|auto]. cbn [oget]. now rewrite (to_refl _ _ scmp_order).
    - destruct (IH K N2 G) as (w & W1 & W2). exists w. split; [|auto]. cbn [oget]. destruct (scmp n k) eqn:C; auto.
      apply (to_eq _ scmp_order) in C. subst k. exfalso. apply N1. rewrite K. apply in_map_iff. exists (n, y); auto. }
  destruct (oget scmp n b) as [y|] eqn:B.
  - destruct (G y eq_refl) as (z & Z & F). rewrite Z. unfold f in F. cbn [fst snd] in F. rewrite aget_oget in F.
    destruct (oget scmp n a) as [x|]; [|injection F as ->; auto]. apply rmap_ok in F as (m & F & H). injection H as ->. eauto.
  - assert (Z : oget scmp n merged = None).
    { apply oget_none; [exact scmp_order|]. rewrite K. now apply (oget_none _ scmp_order). }
    rewrite Z. cbn. destruct (oget scmp n a); auto.
Qed.

(** The definition of a name before and after: none comes from nowhere, a lone one is
    taken over. *)
Definition joined {V} (x y z : option V) : Prop :=
  match x, y with None, _ => z = y | Some _, None => z = x | Some _, Some _ => z <> None end.
Lemma joined_list {A V} (get : A -> option V) (P : A -> Prop) (step : A -> A -> option A) : forall l a r,
  (forall a b c, P a -> P b -> step a b = Some c -> P c /\ joined (get a) (get b) (get c)) ->
  P a -> (forall b, In b l -> P b) ->
  fold_left (fun acc b => match acc with Some a => step a b | None => None end) l (Some a) = Some r ->
  (get r <> None <-> exists b, In b (a :: l) /\ get b <> None) /\
  (forall l1 b l2, a :: l = l1 ++ b :: l2 -> (forall b', In b' (l1 ++ l2) -> get b' = None) -> get r = get b).
Proof.
  induction l as [|x l IH]; intros a r J Pa Pl; cbn [fold_left].
  - intros E. injection E as <-. split.
    + split; [intros H; exists a; cbn; auto|intros (b & [<-|[]] & H); auto].
    + intros [|y l1] b l2 E H; cbn in E; [injection E as <- <-; auto|]. injection E as <- E. destruct l1; discriminate.
  - destruct (step a x) as [c|] eqn:Sx.
    2: { clear. intros E. exfalso. induction l; cbn in E; [discriminate|auto]. }
    intros E. pose proof (J a x c Pa (Pl x (or_introl eq_refl)) Sx) as [Pc J']. destruct (IH c r J Pc (fun b I => Pl b (or_intror I)) E) as [Q B].
    clear J. rename J' into J. split.
    + rewrite Q. split.
      * intros (b & [<-|I] & H).
        { unfold joined in J. destruct (get a) eqn:Ga; [exists a; cbn; split; [auto|congruence]|]. exists x. cbn. split; [auto|congruence]. }
        exists b. cbn. auto.
      * intros (b & [<-|[<-|I]] & H).
        { exists c. split; [now left|]. unfold joined in J. destruct (get a), (get x); congruence. }
        { exists c. split; [now left|]. unfold joined in J. destruct (get a), (get x); congruence. }
        exists b. cbn. auto.
    + intros l1 b l2 El H. destruct l1 as [|y l1]; cbn in El; injection El as <- El.
      * rewrite (B [] c l eq_refl).
        { assert (X : get x = None) by (apply H; rewrite <- El; cbn; auto). rewrite X in J. unfold joined in J. destruct (get a); auto. }
        intros b' I. apply H. rewrite <- El. cbn. auto.
      * assert (Xa : get a = None) by (apply H; cbn; auto). rewrite Xa in J. cbn in J. destruct l1 as [|y l1]; cbn in El; injection El as <- El.
        { rewrite <- J. apply (B [] c l eq_refl). intros b' I. apply H. cbn. right. now rewrite <- El. }
        apply (B (c :: l1) b l2); [cbn; congruence|]. intros b' [<-|I]; [rewrite J; apply H; cbn; auto|]. apply H. cbn. auto.
Qed.
Lemma unify_all_fold : forall ks k r, unify_all k ks = Ok r ->
  fold_left (fun acc b => match acc with Some a => match unify a b with Ok c => Some c | Err _ => None end | None => None end) ks (Some k) = Some r.
Proof.
  unfold unify_all. intros ks k. change (Ok k) with (Ok (E:=list string) k).
  induction ks as [|b ks IH] using rev_ind; intros r E.
  - cbn in *. congruence.
  - rewrite fold_left_app in *. cbn [fold_left] in *. unfold rbind in E at 1. destruct (fold_left _ ks (Ok k)) as [q|] eqn:F; [|discriminate].
    rewrite (IH q eq_refl). now rewrite E.
Qed.

Definition sorted_maps (c : config) : Prop := osorted scmp (c_types c) /\ osorted scmp (c_enums c) /\ osorted scmp (c_unions c).
Lemma unify_keeps k1 k2 k : sorted_maps (k_config k1) -> sorted_maps (k_config k2) -> unify k1 k2 = Ok k ->
  sorted_maps (k_config k) /\
  forall n, joined (find_type (k_config k1) n) (find_type (k_config k2) n) (find_type (k_config k) n) /\
            joined (find_enum (k_config k1) n) (find_enum (k_config k2) n) (find_enum (k_config k) n) /\
            find_union (k_config k) n = m_opt m_gunion (find_union (k_config k1) n) (find_union (k_config k2) n).
Proof.
  intros (T1 & E1 & U1) (T2 & E2 & U2) E. unfold unify in E. apply rmap_ok in E as ([ts es] & E & ->). apply vfuse_ok in E as [A B].
  cbn [fst snd] in *. apply unify_definitions_get in A as [A1 A2]; auto. apply unify_definitions_get in B as [B1 B2]; auto.
  cbn [k_config]. split.
  - split; [auto|]. split; [auto|]. cbn. now apply m_btree_sorted.
  - intros n. unfold find_type, find_enum, find_union, joined. cbn [c_types c_enums c_unions]. specialize (A2 n). specialize (B2 n).
    refine (conj _ (conj _ _)).
    + destruct (oget scmp n (c_types (k_config k1))), (oget scmp n (c_types (k_config k2))); auto. destruct A2 as (m & _ & A2). congruence.
    + destruct (oget scmp n (c_enums (k_config k1))), (oget scmp n (c_enums (k_config k2))); auto. destruct B2 as (m & _ & B2). congruence.
    + apply m_btree_get. apply (osorted_nodup _ scmp_order); auto.
Qed.

Section All.
  Variables (c0 : config) (rest : list config) (k0 : cache) (ks : list cache) (k : cache).
  Let cs := c0 :: rest.
  Hypothesis Wf : forall c, In c cs -> well_formed c.
  Hypothesis Ca : caches cs (k0 :: ks).
  Hypothesis E : unify_all k0 ks = Ok k.

  Lemma caches_configs : map k_config (k0 :: ks) = cs.
  Proof.
    clear E Wf. unfold cs in *. clear cs. unfold caches in Ca.
    enough (X : forall ks cs, Forall2 (fun c k => cache_of (AmbModel.walk_fuel c) c = Some k) cs ks -> map k_config ks = cs) by auto.
    clear. induction 1 as [|c q l l' H F IH]; cbn; [auto|]. f_equal; [|auto].
    unfold cache_of in H. destruct (AmbModel.input_types (AmbModel.walk_fuel c) c), (AmbModel.output_types (AmbModel.walk_fuel c) c); try discriminate. now injection H as <-.
  Qed.
  Lemma sorted_files q : In q (k0 :: ks) -> sorted_maps (k_config q).
  Proof.
    intros I. assert (J : In (k_config q) cs) by (rewrite <- caches_configs; now apply in_map).
    pose proof (Wf _ J) as [[S _ _ _] S1 S2 _ _ _]. repeat split; auto.
  Qed.
  Lemma kept {V} (get : config -> option V) :
    (forall q1 q2 q, sorted_maps (k_config q1) -> sorted_maps (k_config q2) -> unify q1 q2 = Ok q -> joined (get (k_config q1)) (get (k_config q2)) (get (k_config q))) ->
    (get (k_config k) <> None <-> exists c, In c cs /\ get c <> None) /\
    (forall l c r, cs = l ++ c :: r -> (forall c', In c' (l ++ r) -> get c' = None) -> get (k_config k) = get c).
  Proof.
    intros J. pose proof (unify_all_fold ks k0 k E) as F.
    apply (joined_list (fun q => get (k_config q)) (fun q => sorted_maps (k_config q)) (fun a b => match unify a b with Ok c => Some c | Err _ => None end)) in F.
    - destruct F as [A B]. split.
      + rewrite A. rewrite <- caches_configs. split.
        * intros (b & I & H). exists (k_config b). split; [now apply in_map|auto].
        * intros (c & I & H). apply in_map_iff in I as (b & <- & I). eauto.
      + intros l c r Ec H. rewrite <- caches_configs in Ec. apply map_eq_app in Ec as (l1 & l2 & E1 & <- & E2).
        destruct l2 as [|b l2]; [discriminate|]. cbn in E2. injection E2 as <- <-. apply (B l1 b l2); [auto|].
        intros b' I. apply H. rewrite <- map_app. now apply in_map.
    - intros a b c Sa Sb U. destruct (unify a b) as [q|] eqn:Uq; [|discriminate]. injection U as <-.
      split; [apply (unify_keeps a b q Sa Sb Uq)|now apply J].
    - apply sorted_files. now left.
    - intros b I. apply sorted_files. now right.
  Qed.
  Lemma kept_types n :
    (find_type (k_config k) n <> None <-> exists c, In c cs /\ find_type c n <> None) /\
    (forall l c r, cs = l ++ c :: r -> (forall c', In c' (l ++ r) -> find_type c' n = None) -> find_type (k_config k) n = find_type c n).
  Proof. apply (kept (fun c => find_type c n)). intros q1 q2 q S1 S2 U. apply (unify_keeps q1 q2 q S1 S2 U). Qed.
  Lemma kept_enums n :
    (find_enum (k_config k) n <> None <-> exists c, In c cs /\ find_enum c n <> None) /\
    (forall l c r, cs = l ++ c :: r -> (forall c', In c' (l ++ r) -> find_enum c' n = None) -> find_enum (k_config k) n = find_enum c n).
  Proof. apply (kept (fun c => find_enum c n)). intros q1 q2 q S1 S2 U. apply (unify_keeps q1 q2 q S1 S2 U). Qed.
  Lemma kept_unions n :
    (find_union (k_config k) n <> None <-> exists c, In c cs /\ find_union c n <> None) /\
    (forall l c r, cs = l ++ c :: r -> (forall c', In c' (l ++ r) -> find_union c' n = None) -> find_union (k_config k) n = find_union c n).
  Proof.
    apply (kept (fun c => find_union c n)). intros q1 q2 q S1 S2 U. destruct (unify_keeps q1 q2 q S1 S2 U) as (_ & H). destruct (H n) as (_ & _ & ->).
    unfold joined. destruct (find_union (k_config q1) n), (find_union (k_config q2) n); cbn; congruence.
  Qed.
  Lemma kept_members n m : union_member (k_config k) n m <-> exists c, In c cs /\ union_member c n m.
  Proof.
    set (get := fun c => match find_union c n with Some u => if smem m (u_types u) then Some tt else None | None => None end).
    assert (G : forall c, get c <> None <-> union_member c n m).
    { intros c. unfold get, union_member. destruct (find_union c n) as [u|].
      - destruct (smem m (u_types u)) eqn:M; [apply smem_In in M|apply smem_false in M].
        + split; [eauto|congruence].
        + split; [congruence|]. intros (w & H & I). injection H as <-. contradiction.
      - split; [congruence|]. intros (w & H & _). discriminate. }
    assert (Jo : forall q1 q2 q, sorted_maps (k_config q1) -> sorted_maps (k_config q2) -> unify q1 q2 = Ok q -> joined (get (k_config q1)) (get (k_config q2)) (get (k_config q))).
    { intros q1 q2 q S1 S2 U. destruct (unify_keeps q1 q2 q S1 S2 U) as (_ & H). destruct (H n) as (_ & _ & F). unfold get. rewrite F. clear.
    unfold joined. destruct (find_union (k_config q1) n) as [u1|], (find_union (k_config q2) n) as [u2|]; cbn [m_opt]; auto.
    - assert (X : smem m (u_types (m_gunion u1 u2)) = smem m (u_types u1) || smem m (u_types u2)).
      { apply eq_iff_eq_true. rewrite orb_true_iff, !smem_In. cbn. apply m_set_in. exact scmp_order. }
      rewrite X. destruct (smem m (u_types u1)), (smem m (u_types u2)); cbn; congruence.
    - destruct (smem m (u_types u1)); auto. }
    rewrite <- G. rewrite (proj1 (kept get Jo)). split; intros (c & I & H); exists c; split; auto; now apply G.
  Qed.
  Lemma kept_root (root : root_schema -> option string) :
    (forall a b, root (schema_unify a b) = opt_or (root a) (root b)) ->
    forall n, root (c_schema (k_config k)) = Some n <->
    exists l c r, cs = l ++ c :: r /\ (forall c', In c' l -> root (c_schema c') = None) /\ root (c_schema c) = Some n.
  Proof.
    intros J n. pose proof (unify_all_fold ks k0 k E) as F. rewrite <- caches_configs. clear - F J. revert k0 F. induction ks as [|b l IH]; intros a F; cbn [fold_left] in F.
    - injection F as <-. cbn. split.
      + intros H. exists [], (k_config a), []. cbn. firstorder.
      + intros ([|x l1] & c & r & H & N & R); cbn in H; [injection H as <- <-; auto|]. injection H as <- H. destruct l1; discriminate.
    - destruct (unify a b) as [q|] eqn:U.
      2: { exfalso. clear - F. induction l; cbn in F; [discriminate|auto]. }
      rewrite (IH q F). unfold unify in U. apply rmap_ok in U as (te & _ & ->). cbn [map k_config c_schema] in *. clear IH F. split.
      + intros (l1 & c & r & H & N & R). destruct l1 as [|x l1]; cbn in H.
        * injection H as <- <-. cbn in R. rewrite J in R. destruct (root (c_schema (k_config a))) eqn:Ra.
          { exists [], (k_config a), (k_config b :: map k_config l). cbn. split; [auto|]. split; [intros ? []|]. rewrite Ra. exact R. }
          exists [k_config a], (k_config b), (map k_config l). cbn. split; [auto|]. split; [intros c' [<-|[]]; auto|auto].
        * injection H as <- H. pose proof (N _ (or_introl eq_refl)) as N0. cbn in N0. rewrite J in N0.
          destruct (root (c_schema (k_config a))) eqn:Ra; [discriminate|]. cbn in N0.
          exists (k_config a :: k_config b :: l1), c, r. cbn. rewrite H. split; [auto|]. split; [|auto].
          intros c' [<-|[<-|I]]; auto. apply N. now right.
      + intros (l1 & c & r & H & N & R). destruct l1 as [|x l1]; cbn in H.
        * injection H as <- <-. eexists [], _, (map k_config l). cbn. split; [reflexivity|]. split; [intros ? []|]. cbn. rewrite J, R. auto.
        * injection H as <- H. pose proof (N _ (or_introl eq_refl)) as N0. destruct l1 as [|y l1]; cbn in H.
          { injection H as <- <-. eexists [], _, (map k_config l). cbn. split; [reflexivity|]. split; [intros ? []|]. cbn. rewrite J, N0, R. auto. }
          injection H as <- H. eexists (_ :: l1), c, r. cbn. rewrite H. split; [reflexivity|]. split; [|auto].
          intros c' [<-|I]; [cbn; rewrite J, N0; apply N; cbn; auto|apply N; cbn; auto].
  Qed.
  Lemma first_settings : c_server (k_config k) = c_server c0 /\ c_upstream (k_config k) = c_upstream c0 /\
    c_links (k_config k) = c_links c0 /\ c_telemetry (k_config k) = c_telemetry c0.
  Proof.
    pose proof (unify_all_fold ks k0 k E) as F. pose proof caches_configs as M. cbn in M. injection M as <- _. clear - F. revert k0 F.
    induction ks as [|b l IH]; intros a F; cbn [fold_left] in F.
    - injection F as <-. auto.
    - destruct (unify a b) as [q|] eqn:U.
      2: { exfalso. clear - F. induction l; cbn in F; [discriminate|auto]. }
      destruct (IH q F) as (-> & -> & -> & ->). unfold unify in U. apply rmap_ok in U as (te & _ & ->). cbn. auto.
  Qed.
End All.
