(** Proofs about the merging of similar types: a round merges, all rounds merge, and all end. *)
From Coq Require Import String Ascii ZArith Bool Arith List Lia.
From Verif Require Import Base Ordered OrderedFacts JsonModel TypeModel ConfigModel MergeModel RenameModel RenameSpec RenameProofs GraphModel AmbModel DocModel TmModel TmSpec TmProofs Tm2Proofs BaseFacts.
Import ListNotations.
Open Scope string_scope.
Open Scope list_scope.

(** ** Renaming *)
Lemma rename_typ_under mp t : rename_typ mp t = typ_under (looked mp) t.
Proof.
  unfold rename_typ. induction t as [n b|t IH b]; cbn.
  - unfold looked. destruct (aget n mp); reflexivity.
  - rewrite <- IH. destruct (aget (type_name t) mp); reflexivity.
Qed.
Lemma rename_field_under mp x : same_but_type (looked mp) x (rename_field mp x) /\ f_type (rename_field mp x) = typ_under (looked mp) (f_type x).
Proof.
  split; [|apply rename_typ_under]. unfold same_but_type, rename_field. cbn. repeat split. unfold map_values, args_under. apply map_ext. intros [k a]. cbn. unfold rename_arg. now rewrite rename_typ_under.
Qed.
Lemma same_json s x x' : same_but_type s (json_type x) x' -> same_but_type s x x'.
Proof. intros H. exact H. Qed.

(** ** What a configuration is like between rounds *)
Record steady (k : Z) (c : config) : Prop := {
  st_types : osorted scmp (c_types c);
  st_fields : forall n t, find_type c n = Some t -> osorted scmp (t_fields t);
  st_json : find_type c "JSON" = None;
  st_unions : forall n, find_union c n <> None -> find_type c n = None;
  st_fresh : forall j, (k <= j)%Z -> find_type c (merged_name j) = None;
  st_reserved : forall n, reserved n -> find_union c n = None
}.
Lemma ready_steady c : ready c -> steady 1 c.
Proof.
  intros R. split.
  - apply (rd_types _ R).
  - apply (rd_fields _ R).
  - apply (rd_json _ R).
  - apply (rd_unions _ R).
  - intros j _. apply (rd_reserved _ R). eexists. reflexivity.
  - intros n H. exact (proj2 (rd_reserved _ R n H)).
Qed.

(** a type of the new configuration from the types it comes from *)
Definition made_of (ts : list gtype) (t0 : gtype) : Prop :=
  (forall f, match oget scmp f (t_fields t0) with
   | None => forall t, In t ts -> oget scmp f (t_fields t) = None
   | Some x' => (exists x t, In t ts /\ oget scmp f (t_fields t) = Some x /\ (x' = x \/ x' = json_type x)) /\
                (is_json x' = true <-> exists t x, In t ts /\ oget scmp f (t_fields t) = Some x /\ is_json x = true)
   end) /\
  (forall i, In i (t_implements t0) <-> exists t, In t ts /\ In i (t_implements t)) /\ osorted scmp (t_fields t0).
Lemma made_of_one t : osorted scmp (t_fields t) -> made_of [t] t.
Proof.
  intros S. split; [|split; [|exact S]].
  - intros f. destruct (oget scmp f (t_fields t)) as [x|] eqn:E.
    + split; [exists x, t; cbn; auto|]. split; [intros J; exists t, x; cbn; auto|]. intros (u & y & [<-|[]] & Y & J). congruence.
    + intros u [<-|[]]. exact E.
  - intros i. split; [intros I; exists t; cbn; auto|]. intros (u & [<-|[]] & I). exact I.
Qed.
Lemma made_of_all ts : (forall t, In t ts -> osorted scmp (t_fields t)) -> made_of ts (merge_all ts empty_gtype).
Proof.
  intros S. split; [|split].
  - intros f. pose proof (merge_all_field ts S empty_gtype f) as M. destruct (oget scmp f (t_fields (merge_all ts empty_gtype))) as [x'|].
    + destruct M as ((x & [X|(t & I & X)] & E) & J); [discriminate|]. split; [exists x, t; auto|]. rewrite J. split.
      * intros (y & [Y|(u & U & Y)] & Jy); [discriminate|]. exists u, y. auto.
      * intros (u & y & U & Y & Jy). exists y. split; [right; exists u; auto|exact Jy].
    + apply M.
  - intros i. rewrite merge_all_implements. split; [intros [[]|H]; exact H|auto].
  - apply merge_all_sorted. constructor.
Qed.

Section Step.
  Variable c c1 : config.
  Variable k k1 : Z.
  Variable gs : list (list string).
  Hypothesis steady_c : steady k c.
  Hypothesis nodup : NoDup (concat gs).
  Hypothesis fine : forall g, In g gs -> 2 <= length g /\ g <> [] /\ forall n, In n g -> find_type c n <> None.
  Let s := fold_left merge_group gs {| mg_types := c_types c; mg_mapping := []; mg_counter := k |}.
  Let mp := mg_mapping s.
  Hypothesis k1_is : k1 = mg_counter s.
  Hypothesis c1_is : c1 = {| c_server := c_server c; c_upstream := c_upstream c; c_schema := c_schema c;
       c_types := remove_all (map fst mp) (map_values (rename_gtype mp) (mg_types s));
       c_unions := remove_all (map fst mp) (map_values (rename_gunion mp) (c_unions c));
       c_enums := c_enums c; c_links := c_links c; c_telemetry := c_telemetry c |}.

  Lemma fresh_names i : find_type c (name_at k i) = None.
  Proof. apply (st_fresh _ _ steady_c). lia. Qed.
  Lemma is_s : merging_is c k gs s.
  Proof.
    pose proof (merge_groups_is c k fresh_names gs [] {| mg_types := c_types c; mg_mapping := []; mg_counter := k |}) as M. cbn [app] in M. apply M.
    - split; cbn; auto; try discriminate; try (intros i g; destruct i; discriminate). lia.
    - exact nodup.
    - intros g I. destruct (fine g I) as (_ & X). exact X.
  Qed.
  Lemma ok_s : merging_ok c k gs s.
  Proof.
    pose proof (merge_groups_ok c k gs [] _ (start_ok c k (st_types _ _ steady_c))) as M. cbn [app] in M. apply M. intros g I. destruct (fine g I) as (_ & X). exact X.
  Qed.
  Lemma mapped_type n v : aget n mp = Some v -> find_type c n <> None.
  Proof. intros H. destruct (mi_from _ _ _ _ is_s n v H) as (i & g & G & I & _). apply nth_error_In in G. destruct (fine g G) as (_ & _ & X). now apply X. Qed.
  Lemma mapped_name n v : aget n mp = Some v -> exists i, i < length gs /\ v = name_at k i.
  Proof. intros H. destruct (mi_from _ _ _ _ is_s n v H) as (i & g & G & I & ->). exists i. split; [apply nth_error_Some; congruence|reflexivity]. Qed.
  Lemma mapped_key n : smem n (map fst mp) = true <-> aget n mp <> None.
  Proof.
    rewrite smem_In. split.
    - intros I E. apply aget_None in E. contradiction.
    - intros H. destruct (aget n mp) as [v|] eqn:E; [|congruence]. apply aget_In in E. apply in_map_iff. exists (n, v). auto.
  Qed.
  Lemma not_mapped n : find_type c n = None -> looked mp n = n.
  Proof. intros H. unfold looked. destruct (aget n mp) as [v|] eqn:E; [|reflexivity]. apply mapped_type in E. contradiction. Qed.
  Lemma looked_json n : looked mp n = "JSON" <-> n = "JSON".
  Proof.
    split; [|intros ->; apply not_mapped, (st_json _ _ steady_c)]. unfold looked. destruct (aget n mp) as [v|] eqn:E; [|auto]. intros ->. apply mapped_name in E. destruct E as (i & _ & E). discriminate.
  Qed.
  Lemma type_1 n' t' : find_type c1 n' = Some t' <-> aget n' mp = None /\ exists t0, oget scmp n' (mg_types s) = Some t0 /\ t' = rename_gtype mp t0.
  Proof.
    rewrite c1_is. unfold find_type. cbn [c_types]. rewrite remove_all_get, oget_map_values. pose proof (mapped_key n') as K. destruct (smem n' (map fst mp)).
    - split; [discriminate|]. intros (E & _). exfalso. now apply (proj1 K).
    - assert (aget n' mp = None) as -> by (destruct (aget n' mp); [exfalso; assert (false = true) by (apply K; discriminate); discriminate|reflexivity]).
      destruct (oget scmp n' (mg_types s)) as [t0|]; cbn.
      + split; [intros E; injection E as <-; split; [reflexivity|exists t0; auto]|]. intros (_ & t1 & E & ->). injection E as ->. reflexivity.
      + split; [discriminate|]. intros (_ & t1 & E & _). discriminate.
  Qed.
  (** where a type of the new configuration comes from *)
  Lemma comes_from n' t' : find_type c1 n' = Some t' -> exists t0 ts, t' = rename_gtype mp t0 /\ made_of ts t0 /\ ts <> [] /\
    forall t, In t ts <-> exists n, looked mp n = n' /\ find_type c n = Some t.
  Proof.
    intros H. apply type_1 in H. destruct H as (Nm & t0 & T0 & ->).
    destruct (in_dec string_dec n' (map (name_at k) (seq 0 (length gs)))) as [I|I].
    - apply in_map_iff in I. destruct I as (i & <- & I). apply in_seq in I. destruct (nth_error gs i) as [g|] eqn:G; [|apply nth_error_None in G; lia].
      rewrite (mi_new _ _ _ _ is_s i g G) in T0. injection T0 as <-. exists (merge_all (parts (c_types c) g) empty_gtype), (parts (c_types c) g). split; [reflexivity|].
      split; [|split].
      + apply made_of_all. intros t It. apply parts_in in It. destruct It as (n & _ & E). exact (st_fields _ _ steady_c n t E).
      + destruct (fine g (nth_error_In _ _ G)) as (_ & Ne & Ex). destruct g as [|n g]; [congruence|]. specialize (Ex n (or_introl eq_refl)). unfold find_type in Ex.
        destruct (oget scmp n (c_types c)) as [t|] eqn:E; [|congruence]. cbn [parts]. rewrite E. discriminate.
      + intros t. rewrite parts_in. split; intros (n & A & B); exists n; (split; [|exact B]).
        * unfold looked. fold mp. unfold mp. now rewrite (mi_to _ _ _ _ is_s i g n G A).
        * unfold looked in A. destruct (aget n mp) as [v|] eqn:E.
          -- destruct (mi_from _ _ _ _ is_s n v E) as (j & h & Hj & In_h & Ev). rewrite Ev in A. apply name_at_inj in A. subst j. rewrite Hj in G. injection G as <-. exact In_h.
          -- exfalso. unfold find_type in B. subst n. pose proof (fresh_names i) as F. unfold find_type in F. congruence.
    - assert (O : oget scmp n' (mg_types s) = find_type c n') by (apply (mi_old _ _ _ _ is_s); intros i Li ->; apply I, in_map, in_seq; lia).
      rewrite O in T0. exists t0, [t0]. split; [reflexivity|]. split; [apply made_of_one; exact (st_fields _ _ steady_c n' t0 T0)|]. split; [discriminate|].
      intros t. split.
      + intros [<-|[]]. exists n'. split; [unfold looked; now rewrite Nm|exact T0].
      + intros (n & E & F). left. unfold looked in E. destruct (aget n mp) as [v|] eqn:Ev; [|congruence]. exfalso. subst v. apply mapped_name in Ev. destruct Ev as (i & Li & Ev). apply I. rewrite Ev. apply in_map, in_seq. lia.
  Qed.
  Lemma goes_to n : find_type c n <> None -> find_type c1 (looked mp n) <> None.
  Proof.
    intros H. unfold looked. destruct (aget n mp) as [v|] eqn:E.
    - destruct (mi_from _ _ _ _ is_s n v E) as (i & g & G & _ & ->).
      assert (find_type c1 (name_at k i) = Some (rename_gtype mp (merge_all (parts (c_types c) g) empty_gtype))) as ->; [|discriminate].
      apply type_1. split; [|eexists; split; [exact (mi_new _ _ _ _ is_s i g G)|reflexivity]].
      destruct (aget (name_at k i) mp) as [w|] eqn:W; [|reflexivity]. apply mapped_type in W. now rewrite fresh_names in W.
    - destruct (find_type c n) as [t|] eqn:F; [|congruence]. assert (find_type c1 n = Some (rename_gtype mp t)) as ->; [|discriminate].
      apply type_1. split; [exact E|]. exists t. split; [|reflexivity]. rewrite (mi_old _ _ _ _ is_s); [exact F|]. intros i Li ->. now rewrite fresh_names in F.
  Qed.
  Lemma field_of_1 n' f x' : has_field c1 n' f x' -> exists ts t0 x0, x' = rename_field mp x0 /\ made_of ts t0 /\ oget scmp f (t_fields t0) = Some x0 /\
    (forall t, In t ts <-> exists n, looked mp n = n' /\ find_type c n = Some t).
  Proof.
    intros (t' & T' & X'). destruct (comes_from n' t' T') as (t0 & ts & -> & M & _ & I). cbn [rename_gtype t_fields] in X'. rewrite oget_map_values in X'.
    destruct (oget scmp f (t_fields t0)) as [x0|] eqn:X0; [|discriminate]. injection X' as <-. exists ts, t0, x0. auto.
  Qed.
  Lemma json_iff x : type_name (f_type (rename_field mp x)) = "JSON" <-> is_json x = true.
  Proof. destruct (rename_field_under mp x) as [_ ->]. rewrite type_name_under, looked_json. unfold is_json. now rewrite String.eqb_eq. Qed.

  Lemma union_1 u : find_union c1 u = option_map (rename_gunion mp) (find_union c u).
  Proof.
    rewrite c1_is. unfold find_union. cbn [c_unions]. rewrite remove_all_get, oget_map_values. pose proof (mapped_key u) as K. destruct (smem u (map fst mp)); [|reflexivity].
    destruct (oget scmp u (c_unions c)) as [x|] eqn:E; [|reflexivity]. exfalso. destruct (aget u mp) as [v|] eqn:Ev; [|now apply (proj1 K)]. apply mapped_type in Ev. apply Ev. apply (st_unions _ _ steady_c). unfold find_union. congruence.
  Qed.
  Lemma step_merged : merged_by (looked mp) c c1.
  Proof.
    split.
    - exact goes_to.
    - intros n' H. destruct (find_type c1 n') as [t'|] eqn:T'; [|congruence]. destruct (comes_from n' t' T') as (t0 & ts & _ & _ & Ne & I).
      destruct ts as [|t ts]; [congruence|]. destruct (proj1 (I t) (or_introl eq_refl)) as (n & E & F). exists n. split; [congruence|exact E].
    - intros n. destruct (aget n mp) as [v|] eqn:E; [|left; unfold looked; now rewrite E]. right. split; [left; eapply mapped_type; eauto|].
      unfold looked. rewrite E. apply mapped_name in E. destruct E as (i & _ & ->). apply name_reserved.
    - intros n f x (t & T & X). destruct (find_type c1 (looked mp n)) as [t'|] eqn:T'; [|exfalso; revert T'; apply goes_to; congruence].
      destruct (comes_from _ t' T') as (t0 & ts & -> & (M & _) & _ & I). specialize (M f). destruct (oget scmp f (t_fields t0)) as [x0|] eqn:X0.
      + exists (rename_field mp x0). eexists. split; [exact T'|]. cbn. rewrite oget_map_values, X0. reflexivity.
      + exfalso. specialize (M t (proj2 (I t) (ex_intro _ n (conj eq_refl T)))). congruence.
    - intros n' f x' H. destruct (field_of_1 n' f x' H) as (ts & t0 & x0 & -> & (M & _) & X0 & I). specialize (M f). rewrite X0 in M.
      destruct M as ((x & t & It & X & E) & J). apply I in It. destruct It as (n & En & T). exists n, x. split; [exact En|]. split; [exists t; auto|].
      destruct (rename_field_under mp x0) as [S Ty]. destruct E as [-> | ->].
      + split; [exact S|left; exact Ty].
      + split; [exact (same_json _ _ _ S)|]. right. apply json_iff. reflexivity.
    - intros n' f x' H. destruct (field_of_1 n' f x' H) as (ts & t0 & x0 & -> & (M & _) & X0 & I). specialize (M f). rewrite X0 in M. destruct M as (_ & J).
      rewrite json_iff, J. split.
      + intros (t & x & It & X & Jx). apply I in It. destruct It as (n & En & T). exists n, x. split; [exact En|]. split; [exists t; auto|]. unfold is_json in Jx. now apply String.eqb_eq.
      + intros (n & x & En & (t & T & X) & Jx). exists t, x. split; [apply I; exists n; auto|]. split; [exact X|]. unfold is_json. now apply String.eqb_eq.
    - intros n' t' T' i'. destruct (comes_from n' t' T') as (t0 & ts & -> & (_ & M & _) & _ & I). destruct (rename_gtype_ok mp t0) as (_ & (_ & R) & _). rewrite R. split.
      + intros (i & Ii & ->). apply M in Ii. destruct Ii as (t & It & Ii). apply I in It. destruct It as (n & En & T). exists n, t, i. auto.
      + intros (n & t & i & En & T & Ii & <-). exists i. split; [|reflexivity]. apply M. exists t. split; [|exact Ii]. apply I. exists n. auto.
    - intros u. rewrite union_1. destruct (find_union c u) as [x|]; [|exact Logic.I]. cbn [option_map]. split; [|reflexivity].
      destruct (rename_gunion_ok mp x) as ((_ & R) & _).
      + intros v Iv If. apply in_map_iff in Iv. destruct Iv as ([a b] & Eb & Iv). cbn in Eb. subst b. assert (aget v mp <> None) by (intros E; apply aget_None in E; contradiction).
        destruct (aget v mp) as [w|] eqn:W; [|congruence]. apply mapped_type in W. apply W.
        assert (Av : aget a mp = Some v). { apply (NoDup_aget a mp v (mk_nodup _ _ _ _ ok_s) Iv). }
        apply mapped_name in Av. destruct Av as (i & _ & ->). apply fresh_names.
      + intros m'. rewrite R. split; intros (m & A & B); exists m; auto.
    - rewrite c1_is. cbn. repeat split.
  Qed.
  Lemma step_steady : steady k1 c1.
  Proof.
    assert (New : forall n, find_type c1 n <> None -> find_type c n <> None \/ exists i, i < length gs /\ n = name_at k i).
    { intros n H. destruct (find_type c1 n) as [t'|] eqn:T'; [|congruence]. apply type_1 in T'. destruct T' as (_ & t0 & T0 & _).
      destruct (mk_keys _ _ _ _ ok_s n) as [I|I]; [eapply key_oget; eauto| |auto]. left. unfold find_type. destruct (oget_key n _ I) as (y & ->). discriminate. }
    split.
    - rewrite c1_is. cbn [c_types]. apply remove_all_sorted, map_values_sorted, (mk_sorted _ _ _ _ ok_s).
    - intros n t T. destruct (comes_from n t T) as (t0 & ts & -> & (_ & _ & S) & _). cbn. now apply map_values_sorted.
    - destruct (find_type c1 "JSON") eqn:E; [|reflexivity]. destruct (New "JSON") as [X|(i & _ & X)]; [congruence|now rewrite (st_json _ _ steady_c) in X|discriminate].
    - intros n H. rewrite union_1 in H. destruct (find_type c1 n) eqn:E; [|reflexivity]. exfalso. destruct (New n) as [X|(i & _ & X)]; [congruence| |].
      + apply X. apply (st_unions _ _ steady_c). destruct (find_union c n); [discriminate|exact H].
      + subst n. rewrite (st_reserved _ _ steady_c) in H; [now apply H|]. apply name_reserved.
    - intros j Lj. destruct (find_type c1 (merged_name j)) eqn:E; [|reflexivity]. exfalso. rewrite k1_is, (mi_counter _ _ _ _ is_s) in Lj. destruct (New (merged_name j)) as [X|(i & Li & X)]; [congruence| |].
      + apply X, (st_fresh _ _ steady_c). lia.
      + assert (Ej : merged_name j = name_at k (Z.to_nat (j - k))) by (unfold name_at; f_equal; lia). rewrite Ej in X. apply name_at_inj in X. lia.
    - intros n R. rewrite union_1, (st_reserved _ _ steady_c n R). reflexivity.
  Qed.
  (** types of one name were in one group *)
  Lemma step_groups n m : find_type c n <> None -> find_type c m <> None -> looked mp n = looked mp m -> n = m \/ exists g, In g gs /\ In n g /\ In m g.
  Proof.
    intros Hn Hm E. unfold looked in E. destruct (aget n mp) as [v|] eqn:En, (aget m mp) as [w|] eqn:Em.
    - subst w. destruct (mi_from _ _ _ _ is_s n v En) as (i & g & G & In_g & ->). destruct (mi_from _ _ _ _ is_s m _ Em) as (j & h & H & Im & Ej).
      apply name_at_inj in Ej. subst j. right. exists g. split; [eapply nth_error_In; eauto|]. split; [exact In_g|]. congruence.
    - exfalso. apply mapped_name in En. destruct En as (i & _ & ->). subst m. now rewrite fresh_names in Hm.
    - exfalso. apply mapped_name in Em. destruct Em as (i & _ & ->). subst n. now rewrite fresh_names in Hn.
    - auto.
  Qed.
End Step.

(** ** All rounds *)
Lemma rounds_merge walk t : forall rounds k c c', steady k c -> merger rounds walk t k c = Some c' -> exists s, merged_by s c c'.
Proof.
  induction rounds as [|rounds IH]; intros k c c' S H; [discriminate|]. cbn [merger] in H. destruct (merge_round walk t k c) as [[c1|[k1 c1]]|] eqn:R; [|idtac|discriminate].
  - injection H as <-. apply round_stop in R. subst c1. exists (fun n => n). apply merged_refl.
  - apply round_inv in R. destruct R as (m & gs & _ & G & _ & R). cbn zeta in R. destruct R as (Ek & Ec). apply groups_fine in G. destruct G as (N & F).
    pose proof (step_merged c c1 k gs S N F Ec) as M. pose proof (step_steady c c1 k k1 gs S N F Ek Ec) as S1.
    destruct (IH k1 c1 c' S1 H) as (s & M2). exists (fun n => s (looked (mg_mapping (fold_left merge_group gs {| mg_types := c_types c; mg_mapping := []; mg_counter := k |})) n)).
    exact (merged_trans _ _ _ _ _ M M2).
Qed.
Lemma rounds_end walk t : (forall c, walk c <> None) -> forall rounds k c, osorted scmp (c_types c) -> length (c_types c) < rounds -> merger rounds walk t k c <> None.
Proof.
  intros W. induction rounds as [|rounds IH]; intros k c S L; [lia|]. cbn [merger]. destruct (merge_round walk t k c) as [[c1|[k1 c1]]|] eqn:R; [discriminate| |].
  - destruct (round_decreases _ _ _ _ _ _ S R) as (D & S1). apply IH; [exact S1|lia].
  - exfalso. unfold merge_round in R. destruct (walk c) as [m|] eqn:Wc; [|now apply (W c)].
    destruct (group_ends c t m (sort_names (mt_iter m)) (sort_names (mt_iter m)) 0 {| ms_visited := []; ms_cache := [] |}) as (gs & G). rewrite G in R. destruct gs; [discriminate|].
    cbn zeta in R. destruct (mg_mapping _); discriminate.
Qed.
