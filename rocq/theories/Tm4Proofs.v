(** Proofs about the merging of similar types: the end, leaves and paths. *)
From Coq Require Import String Ascii ZArith Bool Arith List Lia.
From Verif Require Import Base Ordered OrderedFacts JsonModel TypeModel ConfigModel MergeModel RenameModel RenameSpec RenameProofs BuilderModel GraphModel AmbModel AmbSpec AmbProofs DocModel DocRound TmModel TmSpec TmProofs Tm2Proofs Tm3Proofs BaseFacts.
Import ListNotations.
Open Scope string_scope.
Open Scope list_scope.

(** ** The end, without interfaces *)
Lemma no_implementors c : osorted scmp (c_types c) -> (forall n t, find_type c n = Some t -> t_implements t = []) -> implementors c = [].
Proof.
  intros S H. unfold implementors. assert (E : forall l, incl l (c_types c) -> fold_left (fun acc kt =>
    fold_left (fun acc i => let s := match oget scmp i acc with Some s => s | None => [] end in oins scmp i (sins scmp (fst kt) s) acc) (t_implements (snd kt)) acc) l ([] : list (string * list string)) = []).
  { induction l as [|[n t] l IH]; intros I; [reflexivity|]. cbn [fold_left snd]. rewrite (H n t); [cbn; apply IH; intros x X; apply I; now right|].
    unfold find_type. apply (in_oget scmp scmp_order); [exact S|]. apply I. now left. }
  apply E. apply incl_refl.
Qed.
Lemma roots_end_at c fuel : tidy c -> walk_fuel c <= fuel -> forall ns s0, exists s1, fold_opt (fun s n => connections fuel c n s) ns s0 = Some s1.
Proof.
  intros T Le. induction ns as [|n ns IH]; intros s0; cbn [fold_opt]; [eauto|].
  destruct (connections_end c (fun n H => proj1 (ti_union c T n H)) (fun n u m => ti_flat c T n u m) fuel n s0) as (s1 & ->); [|apply IH].
  unfold rank, walk_fuel in *. assert (U : unvisited c s0 <= List.length (names_of c)).
  { unfold unvisited. clear. induction (names_of c) as [|a l IH]; cbn; [lia|]. destruct (negb (smem a s0)); cbn; lia. }
  unfold names_of in U. rewrite !app_length, !map_length in U. destruct (smem n s0); [|lia]. destruct (find_union c n); lia.
Qed.
Lemma walk_ends c fuel : tidy c -> (forall n t, find_type c n = Some t -> t_implements t = []) -> walk_fuel c <= fuel -> mergeable_types_new fuel c <> None.
Proof.
  intros T I Le. unfold mergeable_types_new, input_types, output_types. 
  destruct (roots_end_at c fuel T Le (map (fun a => type_name (arg_type a)) (filter (fun a => negb (is_scalar c (type_name (arg_type a)))) (arguments c))) []) as (s1 & ->).
  destruct (roots_end_at c fuel T Le (opt_list (r_query (c_schema c)) ++ opt_list (r_mutation (c_schema c))) []) as (s2 & ->).
  unfold interfaces_types_map. rewrite (no_implementors c (ti_sorted c T) I). discriminate.
Qed.
Lemma not_predefined n : reserved n -> is_predefined n = false.
Proof.
  intros (r & ->). unfold is_predefined. apply orb_false_iff. split; apply smem_false; intros H; cbn in H; repeat (destruct H as [H|H]; [discriminate|]); contradiction.
Qed.
Lemma merged_types s c c1 n : merged_by s c c1 -> find_type c1 n <> None -> find_type c n <> None \/ reserved n.
Proof. intros M H. destruct (mb_no_more _ _ _ M n H) as (m & Hm & <-). destruct (mb_names _ _ _ M m) as [E|[_ R]]; [left; congruence|auto]. Qed.
Lemma merged_tidy s c c1 k : merged_by s c c1 -> steady k c -> osorted scmp (c_types c1) -> tidy c -> tidy c1.
Proof.
  intros M S So T.
  assert (Un : forall n, find_union c1 n <> None -> find_union c n <> None).
  { intros n H. pose proof (mb_unions _ _ _ M n) as U. destruct (find_union c n), (find_union c1 n); congruence || contradiction || auto. }
  split.
  - exact So.
  - intros n H. apply Un in H. destruct (ti_union c T n H) as [A B]. split; [|exact B]. destruct (find_type c1 n) eqn:E; [|reflexivity]. exfalso.
    destruct (merged_types s c c1 n M) as [X|X]; [congruence|congruence|]. now rewrite (st_reserved _ _ S n X) in H.
  - intros n. unfold find_enum. destruct (mb_rest _ _ _ M) as (_ & -> & _). exact (ti_enum c T n).
  - intros n u m' H I. pose proof (mb_unions _ _ _ M n) as U. rewrite H in U. destruct (find_union c n) as [x|] eqn:F; [|contradiction]. destruct U as [U _].
    apply U in I. destruct I as (m & I & <-). destruct (find_union c1 (s m)) eqn:Q; [|reflexivity]. exfalso. assert (X : find_union c (s m) <> None) by (apply Un; congruence).
    destruct (mb_names _ _ _ M m) as [E|[_ R]]; [|now apply X, (st_reserved _ _ S)]. rewrite E in X. apply X. eapply ti_flat; eauto.
Qed.
Lemma merged_plain s c c1 : merged_by s c c1 -> (forall n t, find_type c n = Some t -> t_implements t = []) -> forall n t, find_type c1 n = Some t -> t_implements t = [].
Proof.
  intros M H n t F. destruct (t_implements t) as [|i l] eqn:E; [reflexivity|]. exfalso. assert (I : In i (t_implements t)) by (rewrite E; now left).
  apply (mb_implements _ _ _ M n t F) in I. destruct I as (n0 & t0 & i0 & _ & F0 & I & _). rewrite (H n0 t0 F0) in I. contradiction.
Qed.
Lemma odel_length {V} k (m : list (string * V)) : length (odel scmp k m) <= length m.
Proof. induction m as [|[k' v] m IH]; [cbn; lia|]. cbn. destruct (scmp k k'); cbn; lia. Qed.
Lemma remove_all_length {V} ns : forall (m : list (string * V)), length (remove_all ns m) <= length m.
Proof. induction ns as [|n ns IH]; intros m; [cbn; lia|]. unfold remove_all in *. cbn [fold_left]. pose proof (IH (odel scmp n m)). pose proof (odel_length n m). lia. Qed.
Lemma rounds_end_plain t fuel : forall rounds k c, steady k c -> tidy c -> (forall n x, find_type c n = Some x -> t_implements x = []) -> walk_fuel c <= fuel ->
  length (c_types c) < rounds -> exists c', merger rounds (mergeable_types_new fuel) t k c = Some c'.
Proof.
  induction rounds as [|rounds IH]; intros k c S T Pl Le L; [lia|]. cbn [merger]. destruct (merge_round (mergeable_types_new fuel) t k c) as [[c1|[k1 c1]]|] eqn:R; [eauto| |].
  - destruct (round_decreases _ _ _ _ _ _ (st_types _ _ S) R) as (D & S1). apply round_inv in R. destruct R as (m & gs & _ & G & _ & R). cbn zeta in R. destruct R as (Ek & Ec).
    apply groups_fine in G. destruct G as (N & F). pose proof (step_merged c c1 k gs S N F Ec) as M. pose proof (step_steady c c1 k k1 gs S N F Ek Ec) as St1.
    apply IH; [exact St1|eapply merged_tidy; eauto|eapply merged_plain; eauto| |lia].
    unfold walk_fuel in *. destruct (mb_rest _ _ _ M) as (_ & -> & _).
    assert (length (c_unions c1) <= length (c_unions c)); [|lia]. rewrite Ec. cbn [c_unions]. etransitivity; [apply remove_all_length|]. unfold map_values. rewrite map_length. lia.
  - exfalso. unfold merge_round in R. destruct (mergeable_types_new fuel c) as [m|] eqn:Wc; [|now apply (walk_ends c fuel T Pl Le)].
    destruct (group_ends c t m (sort_names (mt_iter m)) (sort_names (mt_iter m)) 0 {| ms_visited := []; ms_cache := [] |}) as (gs & G). rewrite G in R. destruct gs; [discriminate|].
    cbn zeta in R. destruct (mg_mapping _); discriminate.
Qed.

(** ** Paths *)
Lemma paths_kept s c c' : merged_by s c c' -> agreeing s c -> forall path n m, leads_to c n path m ->
  leads_to c' (s n) path (s m) \/ exists p q, path = p ++ q /\ leads_to c' (s n) p "JSON".
Proof.
  intros M A. induction path as [|f path IH]; intros n m H; cbn [leads_to] in H; [left; cbn; congruence|]. destruct H as (x & Hx & H).
  destruct (mb_kept _ _ _ M n f x Hx) as (x' & Hx'). destruct (mb_field _ _ _ M _ f x' Hx') as (n0 & x0 & En & Hx0 & _ & [T|J]).
  - assert (E : type_name (f_type x') = s (type_name (f_type x))) by (rewrite T, type_name_under; exact (A n0 n f x0 x En Hx0 Hx)).
    destruct (IH _ _ H) as [L|(p & q & -> & L)].
    + left. exists x'. split; [exact Hx'|]. now rewrite E.
    + right. exists (f :: p), q. split; [reflexivity|]. exists x'. split; [exact Hx'|]. now rewrite E.
  - right. exists [f], path. split; [reflexivity|]. exists x'. split; [exact Hx'|]. cbn. congruence.
Qed.

(** ** Leaves *)
Definition leaves_kept (s : string -> string) (c c' : config) : Prop :=
  forall n, leaf c n -> leaf c' (s n) /\ forall f x', has_field c' (s n) f x' -> exists x, has_field c n f x /\
    (type_name (f_type x') = "JSON" \/ (type_name (f_type x') = type_name (f_type x) /\ is_list (f_type x') = is_list (f_type x))).
Lemma leaves_trans s1 s2 c c1 c2 : leaves_kept s1 c c1 -> leaves_kept s2 c1 c2 -> leaves_kept (fun n => s2 (s1 n)) c c2.
Proof.
  intros A B n L. destruct (A n L) as (L1 & F1). destruct (B _ L1) as (L2 & F2). split; [exact L2|]. intros f x'' H. destruct (F2 f x'' H) as (x' & H' & E). destruct (F1 f x' H') as (x & Hx & E').
  exists x. split; [exact Hx|]. destruct E as [E|[E1 E2]]; [auto|]. destruct E' as [E'|[E3 E4]]; [left|right; split]; congruence.
Qed.
Lemma list_under s t : is_list (typ_under s t) = is_list t.
Proof. destruct t; reflexivity. Qed.
Lemma scalar_free c n : no_scalars c -> is_scalar c n = true -> find_type c n = None.
Proof.
  intros Ns H. unfold is_scalar in H. destruct (find_type c n) as [t|] eqn:F; [|reflexivity]. exfalso. apply (Ns n t F). unfold gtype_scalar in H. destruct (t_fields t); [reflexivity|discriminate].
Qed.
Lemma predefined_not_reserved n : is_predefined n = true -> ~ reserved n.
Proof. intros P R. rewrite (not_predefined n R) in P. discriminate. Qed.
Lemma scalar_not_reserved c n : no_scalars c -> is_scalar c n = true -> ~ reserved n.
Proof. intros Ns H. pose proof (scalar_free c n Ns H) as F. unfold is_scalar in H. rewrite F in H. now apply predefined_not_reserved. Qed.

Section LeafStep.
  Variable c c1 : config.
  Variable k : Z.
  Variable m : mergeable_types.
  Variable gs : list (list string).
  Hypothesis steady_c : steady k c.
  Hypothesis plain : no_scalars c.
  Hypothesis grouped : group c exactly m (sort_names (mt_iter m)) (sort_names (mt_iter m)) 0 {| ms_visited := []; ms_cache := [] |} = Some gs.
  Lemma group_agrees g : In g gs -> exists n1, In n1 g /\ (forall n, In n g -> find_type c n <> None) /\ forall n, In n g -> n = n1 \/ agree c n1 n.
  Proof.
    intros I. destruct (group_ok c exactly m (sort_names (mt_iter m)) (cache_ok c) (agree c)) with (l := sort_names (mt_iter m)) (i := 0) (st := {| ms_visited := []; ms_cache := [] |}) (gs := gs) as (_ & _ & G).
    - intros n1 t1 n2 t2 cache v cache' Ok F1 F2 H. assert (E : get_threshold m exactly n1 n2 = exactly) by (unfold get_threshold; destruct (_ || _); reflexivity). rewrite E in H.
      eapply (similarity_leaves c); eauto. exact (st_fields _ _ steady_c).
    - intros a b [].
    - exact grouped.
    - destruct (G g I) as (_ & n1 & _ & In1 & Ex & Al). exists n1. auto.
  Qed.
  (** two types of a group agree as far as JSON is not in the group *)
  Definition near (x y : field) : Prop :=
    (type_name (f_type x) = type_name (f_type y) /\ is_list (f_type x) = is_list (f_type y)) \/ type_name (f_type x) = "JSON" \/ type_name (f_type y) = "JSON".
  Lemma agree_near n1 n2 : agree c n1 n2 -> leaf c n1 \/ leaf c n2 -> find_type c n1 <> None -> find_type c n2 <> None ->
    (leaf c n1 /\ leaf c n2) /\ (forall f x, has_field c n1 f x -> exists y, has_field c n2 f y /\ near x y) /\ (forall f y, has_field c n2 f y -> exists x, has_field c n1 f x /\ near x y).
  Proof.
    intros A L H1 H2. destruct (find_type c n1) as [t1|] eqn:F1; [|congruence]. destruct (find_type c n2) as [t2|] eqn:F2; [|congruence].
    assert (Lt : leaf_type c t1 \/ leaf_type c t2).
    { destruct L as [(_ & L)|(_ & L)]; [left|right]; intros f x X; refine (proj1 (L f x _)); [exists t1|exists t2]; auto. }
    pose proof (A t1 t2 F1 F2 Lt) as FA.
    pose proof (fields_agree_sym c t1 t2 (st_fields _ _ steady_c _ _ F1) (st_fields _ _ steady_c _ _ F2) FA) as FB.
    destruct FA as (_ & FA), FB as (_ & FB).
    assert (Half : forall na nb ta tb, find_type c na = Some ta -> find_type c nb = Some tb -> leaf c na ->
       (forall f x, oget scmp f (t_fields tb) = Some x -> exists y, oget scmp f (t_fields ta) = Some y /\ is_list (f_type x) = is_list (f_type y) /\
          (type_name (f_type x) = type_name (f_type y) \/ (is_scalar c (type_name (f_type x)) = true /\ is_scalar c (type_name (f_type y)) = true /\ (type_name (f_type x) = "JSON" \/ type_name (f_type y) = "JSON")))) -> leaf c nb).
    { intros na nb ta tb Fa Fb (_ & La) X. split; [congruence|]. intros f x (tb' & Fb' & O). rewrite Fb in Fb'. injection Fb' as <-. destruct (X f x O) as (y & Y & _ & [E|(S1 & _)]).
      - rewrite E. apply (La f y). exists ta. auto.
      - split; [now apply scalar_free|eapply scalar_not_reserved; eauto]. }
    split; [|split].
    - destruct L as [L|L]; split; auto; [exact (Half n1 n2 t1 t2 F1 F2 L FB)|exact (Half n2 n1 t2 t1 F2 F1 L FA)].
    - intros f x (t & F & O). rewrite F1 in F. injection F as <-. destruct (FA f x O) as (y & Y & Li & E). exists y. split; [exists t2; auto|].
      destruct E as [E|(_ & _ & E)]; [left; auto|right; exact E].
    - intros f y (t & F & O). rewrite F2 in F. injection F as <-. destruct (FB f y O) as (x & X & Li & E). exists x. split; [exists t1; auto|].
      destruct E as [E|(_ & _ & [E|E])]; [left; auto|right; right; exact E|right; left; exact E].
  Qed.
  Hypothesis c1_is : let s := fold_left merge_group gs {| mg_types := c_types c; mg_mapping := []; mg_counter := k |} in
       c1 = {| c_server := c_server c; c_upstream := c_upstream c; c_schema := c_schema c;
       c_types := remove_all (map fst (mg_mapping s)) (map_values (rename_gtype (mg_mapping s)) (mg_types s));
       c_unions := remove_all (map fst (mg_mapping s)) (map_values (rename_gunion (mg_mapping s)) (c_unions c));
       c_enums := c_enums c; c_links := c_links c; c_telemetry := c_telemetry c |}.
  Let s := looked (mg_mapping (fold_left merge_group gs {| mg_types := c_types c; mg_mapping := []; mg_counter := k |})).
  Lemma merged_s : merged_by s c c1.
  Proof. destruct (groups_fine _ _ _ _ _ _ _ grouped) as (N & F). exact (step_merged c c1 k gs steady_c N F c1_is). Qed.
  Lemma same_s n n0 : find_type c n <> None -> find_type c n0 <> None -> s n = s n0 -> n = n0 \/ exists g, In g gs /\ In n g /\ In n0 g.
  Proof. destruct (groups_fine _ _ _ _ _ _ _ grouped) as (N & F). exact (step_groups c k gs steady_c N F n n0). Qed.
  (** types merged with a leaf *)
  Lemma near_leaf n n0 f x0 x' : leaf c n -> find_type c n0 <> None -> s n = s n0 -> has_field c n0 f x0 -> has_field c1 (s n) f x' ->
    exists x, has_field c n f x /\ (type_name (f_type x') = "JSON" \/ (type_name (f_type x) = type_name (f_type x0) /\ is_list (f_type x) = is_list (f_type x0))) /\ leaf c n0.
  Proof.
    intros L F0 E H0 H'. pose proof merged_s as M.
    assert (Json : forall q y, s q = s n -> has_field c q f y -> type_name (f_type y) = "JSON" -> type_name (f_type x') = "JSON").
    { intros q y Eq Hq J. apply (mb_json _ _ _ M (s n) f x' H'). exists q, y. auto. }
    destruct (same_s n n0 (proj1 L) F0 E) as [<-|(g & Ig & In_g & I0)]; [exists x0; auto|].
    destruct (group_agrees g Ig) as (n1 & I1 & Ex & Al).
    assert (S1 : s n1 = s n).
    { destruct (groups_fine _ _ _ _ _ _ _ grouped) as (N & F). pose proof (is_s c k gs steady_c N F) as Is. apply In_nth_error in Ig. destruct Ig as (i & Gi).
      unfold s, looked. now rewrite (mi_to _ _ _ _ Is i g n1 Gi I1), (mi_to _ _ _ _ Is i g n Gi In_g). }
    (* the anchor *)
    assert (A1 : leaf c n1 /\ forall y1, has_field c n1 f y1 -> exists x, has_field c n f x /\ (near y1 x)).
    { destruct (Al n In_g) as [->|A]; [split; [exact L|]; intros y1 Y; exists y1; split; [exact Y|left; auto]|].
      destruct (agree_near n1 n A (or_intror L) (Ex n1 I1) (Ex n In_g)) as ((L1 & _) & Fw & _). split; [exact L1|]. intros y1 Y. destruct (Fw f y1 Y) as (x & X & Ne). exists x. auto. }
    destruct A1 as (L1 & A1).
    assert (A0 : leaf c n0 /\ exists y1, has_field c n1 f y1 /\ near y1 x0).
    { destruct (Al n0 I0) as [->|A]; [split; [exact L1|]; exists x0; split; [exact H0|left; auto]|].
      destruct (agree_near n1 n0 A (or_introl L1) (Ex n1 I1) (Ex n0 I0)) as ((_ & L0) & _ & Bw). split; [exact L0|]. exact (Bw f x0 H0). }
    destruct A0 as (L0 & y1 & Y1 & N0). destruct (A1 y1 Y1) as (x & X & N1). exists x. split; [exact X|]. split; [|exact L0].
    destruct N0 as [[N0 N0']|[N0|N0]]; [|left; exact (Json n1 y1 S1 Y1 N0)|left; exact (Json n0 x0 (eq_sym E) H0 N0)].
    destruct N1 as [[N1 N1']|[N1|N1]]; [right; split; congruence|left; exact (Json n1 y1 S1 Y1 N1)|left; exact (Json n x eq_refl X N1)].
  Qed.
  Lemma step_leaves : leaves_kept s c c1.
  Proof.
    intros n L. pose proof merged_s as M.
    assert (Field : forall f x', has_field c1 (s n) f x' -> exists x, has_field c n f x /\
      (type_name (f_type x') = "JSON" \/ (type_name (f_type x') = type_name (f_type x) /\ is_list (f_type x') = is_list (f_type x)))).
    { intros f x' H. destruct (mb_field _ _ _ M _ f x' H) as (n0 & x0 & E & H0 & _ & T).
      assert (F0 : find_type c n0 <> None) by (destruct H0 as (t0 & F0 & _); congruence).
      destruct (near_leaf n n0 f x0 x' L F0 (eq_sym E) H0 H) as (x & X & D & L0). exists x. split; [exact X|].
      destruct T as [T|J]; [|auto]. destruct D as [J|[D1 D2]]; [auto|]. right. rewrite T, type_name_under, list_under, D1, D2. split; [|reflexivity].
      destruct (proj2 L0 f x0 H0) as (Fn & Nr). destruct (mb_names _ _ _ M (type_name (f_type x0))) as [E0|[[E0|E0] _]]; [exact E0|contradiction|contradiction]. }
    split; [|exact Field]. split; [apply (mb_types _ _ _ M), L|]. intros f x' H. destruct (Field f x' H) as (x & X & D).
    assert (Q : find_type c (type_name (f_type x')) = None /\ ~ reserved (type_name (f_type x'))).
    { destruct D as [-> |[-> _]]; [|exact (proj2 L f x X)]. split; [apply (st_json _ _ steady_c)|]. intros (r & R). discriminate. }
    split; [|exact (proj2 Q)]. destruct (find_type c1 (type_name (f_type x'))) eqn:F; [|reflexivity]. exfalso. destruct (merged_types s c c1 (type_name (f_type x')) M) as [Y|Y]; [congruence| |]; now apply Q in Y || (apply Y, Q).
  Qed.
End LeafStep.
Lemma merged_plain_types s c c1 : merged_by s c c1 -> no_scalars c -> no_scalars c1.
Proof.
  intros M Ns n' t' F E. destruct (mb_no_more _ _ _ M n') as (n & H & <-); [congruence|]. destruct (find_type c n) as [t|] eqn:T; [|congruence].
  destruct (t_fields t) as [|[f x] l] eqn:Ft; [exact (Ns n t T Ft)|]. destruct (mb_kept _ _ _ M n f x) as (x' & t1 & F1 & O).
  - exists t. split; [exact T|]. rewrite Ft. cbn. now rewrite (to_refl _ f scmp_order).
  - rewrite F in F1. injection F1 as <-. rewrite E in O. discriminate.
Qed.
Lemma rounds_leaves walk : forall rounds k c c', steady k c -> no_scalars c -> merger rounds walk exactly k c = Some c' -> exists s, merged_by s c c' /\ leaves_kept s c c'.
Proof.
  induction rounds as [|rounds IH]; intros k c c' S Ns H; [discriminate|]. cbn [merger] in H. destruct (merge_round walk exactly k c) as [[c1|[k1 c1]]|] eqn:R; [|idtac|discriminate].
  - injection H as <-. apply round_stop in R. subst c1. exists (fun n => n). split; [apply merged_refl|]. intros n L. split; [exact L|]. intros f x H. exists x. auto.
  - apply round_inv in R. destruct R as (m & gs & _ & G & _ & R). cbn zeta in R. destruct R as (Ek & Ec). destruct (groups_fine _ _ _ _ _ _ _ G) as (N & F).
    pose proof (step_merged c c1 k gs S N F Ec) as M. pose proof (step_steady c c1 k k1 gs S N F Ek Ec) as S1. pose proof (step_leaves c c1 k m gs S Ns G Ec) as Lk.
    destruct (IH k1 c1 c' S1 (merged_plain_types _ _ _ M Ns) H) as (s & M2 & L2). eexists. split; [exact (merged_trans _ _ _ _ _ M M2)|exact (leaves_trans _ _ _ _ _ Lk L2)].
Qed.
