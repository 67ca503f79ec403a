(** Proofs about [merge_right]. *)
From Coq Require Import String Ascii ZArith NArith Arith Bool Lia List.
From Verif Require Import Base BaseFacts Ordered OrderedFacts JsonModel JsonProofs TypeModel
  ConfigModel MergeModel MergeSpec.
Import ListNotations.
Open Scope string_scope.
Open Scope list_scope.

(* ---------- a small algebra of partial associative operations ---------- *)

Definition closed {A} (P : A -> Prop) (m : A -> A -> A) : Prop :=
  forall a b, P a -> P b -> P (m a b).
Definition assoc_on {A} (P : A -> Prop) (m : A -> A -> A) : Prop :=
  forall a b c, P a -> P b -> P c -> m (m a b) c = m a (m b c).
Definition opt_on {A} (P : A -> Prop) (o : option A) : Prop :=
  match o with Some a => P a | None => True end.

Lemma m_opt_closed : forall {A} (P : A -> Prop) m, closed P m -> closed (opt_on P) (m_opt m).
Proof. intros A P m C [a|] [b|]; cbn; auto. Qed.

Lemma m_opt_assoc : forall {A} (P : A -> Prop) m, assoc_on P m -> assoc_on (opt_on P) (m_opt m).
Proof. intros A P m C [a|] [b|] [c|]; cbn; intros; f_equal; auto. Qed.

Lemma m_opt_assoc_all : forall {A} (m : A -> A -> A),
  (forall a b c, m (m a b) c = m a (m b c)) ->
  forall a b c, m_opt m (m_opt m a b) c = m_opt m a (m_opt m b c).
Proof. intros A m C [a|] [b|] [c|]; cbn; auto. rewrite C. reflexivity. Qed.

Lemma m_last_assoc : forall {A} (a b c : A), m_last (m_last a b) c = m_last a (m_last b c).
Proof. reflexivity. Qed.

Lemma m_opt_last_assoc : forall {A} (a b c : option A),
  m_opt m_last (m_opt m_last a b) c = m_opt m_last a (m_opt m_last b c).
Proof. intros A [a|] [b|] [c|]; reflexivity. Qed.

Lemma m_vec_assoc : forall {A} (a b c : list A), m_vec (m_vec a b) c = m_vec a (m_vec b c).
Proof. intros. unfold m_vec. symmetry. apply app_assoc. Qed.

Lemma m_opt_none_r : forall {A} (m : A -> A -> A) a, m_opt m a None = a.
Proof. intros A m [a|]; reflexivity. Qed.
Lemma m_opt_none_l : forall {A} (m : A -> A -> A) a, m_opt m None a = a.
Proof. intros A m [a|]; reflexivity. Qed.

(* ---------- sets ---------- *)

Section SetMerge.
  Context {A : Type} (cmp : A -> A -> comparison) (H : total_order cmp).

  Lemma m_set_closed : closed (ssorted cmp) (m_set cmp).
  Proof. intros a b Ha Hb. apply ssorted_sextend; auto. Qed.

  Lemma m_set_assoc : assoc_on (ssorted cmp) (m_set cmp).
  Proof.
    intros a b c Ha Hb Hc. apply (ssorted_ext cmp H).
    - apply ssorted_sextend, ssorted_sextend; auto.
    - apply ssorted_sextend; auto.
    - intros k. unfold m_set. rewrite !(sextend_in cmp H). tauto.
  Qed.

  Lemma m_set_in : forall a b x, In x (m_set cmp a b) <-> In x a \/ In x b.
  Proof. intros. apply sextend_in; auto. Qed.

  Lemma m_set_nil_l : forall a, ssorted cmp a -> m_set cmp [] a = a.
  Proof.
    intros a Ha. apply (ssorted_ext cmp H); auto.
    - apply ssorted_sextend; auto. constructor.
    - intros k. rewrite m_set_in. cbn. tauto.
  Qed.
End SetMerge.

(* ---------- ordered maps ---------- *)

Section MapMerge.
  Context {V : Type} (m : V -> V -> V).

  Lemma m_btree_step_get : forall k kv acc,
    oget scmp k (m_btree_step m acc kv) =
    if String.eqb k (fst kv)
    then m_opt m (oget scmp k acc) (Some (snd kv)) else oget scmp k acc.
  Proof.
    intros k [k' v] acc. unfold m_btree_step. cbn [fst snd].
    destruct (String.eqb_spec k k') as [->|N].
    - destruct (oget scmp k' acc) eqn:E; cbn; rewrite (oget_oins_same _ scmp_order); auto.
    - destruct (oget scmp k' acc) eqn:E; rewrite (oget_oins_other _ scmp_order); auto.
      apply (oget_odel_other _ scmp_order); auto.
  Qed.

  Lemma m_btree_step_sorted : forall kv acc,
    osorted scmp acc -> osorted scmp (m_btree_step m acc kv).
  Proof.
    intros [k v] acc S. unfold m_btree_step. cbn [fst snd].
    destruct (oget scmp k acc); apply (osorted_oins _ scmp_order); auto.
    apply (osorted_odel _ ); auto.
  Qed.

  Lemma m_btree_sorted : forall b a, osorted scmp a -> osorted scmp (m_btree m a b).
  Proof.
    unfold m_btree. induction b as [|kv b IH]; intros a S; cbn [fold_left]; auto.
    apply IH, m_btree_step_sorted, S.
  Qed.

  Lemma m_btree_get : forall b a k, NoDup (map fst b) ->
    oget scmp k (m_btree m a b) = m_opt m (oget scmp k a) (oget scmp k b).
  Proof.
    unfold m_btree. induction b as [|[k' v] b IH]; intros a k ND; cbn [fold_left].
    - cbn. rewrite m_opt_none_r. reflexivity.
    - cbn [map fst] in ND. inv ND. rewrite IH by auto. rewrite m_btree_step_get.
      cbn [fst snd oget].
      destruct (String.eqb_spec k k') as [->|N].
      + rewrite (to_refl _ _ scmp_order).
        rewrite (proj2 (oget_none _ scmp_order k' b)) by auto.
        apply m_opt_none_r.
      + destruct (scmp k k') eqn:E; auto. apply (to_eq _ scmp_order) in E. contradiction.
  Qed.

  Lemma oget_wf : forall (P : V -> Prop) k a, (forall k v, In (k, v) a -> P v) -> opt_on P (oget scmp k a).
  Proof.
    intros P k a W. destruct (oget scmp k a) eqn:E; cbn; auto.
    apply (oget_in _ scmp_order) in E. eauto.
  Qed.

  Lemma m_btree_closed : forall P, closed P m -> closed (wf_map P) (m_btree m).
  Proof.
    intros P C a b [Sa Wa] [Sb Wb]. split.
    - apply m_btree_sorted; auto.
    - intros k v I. apply (in_oget _ scmp_order) in I; [|apply m_btree_sorted; auto].
      rewrite m_btree_get in I by (apply (osorted_nodup _ scmp_order); auto).
      pose proof (m_opt_closed P m C _ _ (oget_wf P k a Wa) (oget_wf P k b Wb)) as X.
      rewrite I in X. exact X.
  Qed.

  Lemma m_btree_assoc : forall P, closed P m -> assoc_on P m -> assoc_on (wf_map P) (m_btree m).
  Proof.
    intros P C A a b c [Sa Wa] [Sb Wb] [Sc Wc].
    apply (osorted_ext _ scmp_order).
    - do 2 apply m_btree_sorted; auto.
    - apply m_btree_sorted; auto.
    - intros k. rewrite !m_btree_get; try (apply (osorted_nodup _ scmp_order); auto).
      + apply (m_opt_assoc P); auto; apply oget_wf; auto.
      + apply m_btree_sorted; auto.
  Qed.

  Lemma m_btree_nil_l : forall b, osorted scmp b -> m_btree m [] b = b.
  Proof.
    intros b S. apply (osorted_ext _ scmp_order); auto.
    - apply m_btree_sorted. constructor.
    - intros k. rewrite m_btree_get by (apply (osorted_nodup _ scmp_order); auto).
      apply m_opt_none_l.
  Qed.

  Lemma m_btree_keys : forall a b k, NoDup (map fst b) ->
    In k (map fst (m_btree m a b)) <-> In k (map fst a) \/ In k (map fst b).
  Proof.
    intros a b k ND.
    assert (X : forall l, In k (map fst l) <-> oget scmp k (l : list (string * V)) <> None).
    { intros l. rewrite (oget_none _ scmp_order).
      destruct (in_dec string_dec k (map fst l)); tauto. }
    rewrite !X, m_btree_get by auto.
    destruct (oget scmp k a), (oget scmp k b); cbn; intuition congruence.
  Qed.
End MapMerge.

(* ---------- resolver sets ---------- *)

Section ResolverInd.
  Variable P : resolver -> Prop.
  Hypothesis Hh : forall k r, P (RHttp k r).
  Hypothesis Hg : forall k r, P (RGrpc k r).
  Hypothesis Hq : forall k r, P (RGraphql k r).
  Hypothesis Hc : forall r, P (RCall r).
  Hypothesis Hj : forall r, P (RJs r).
  Hypothesis He : forall r, P (RExpr r).
  Hypothesis Hn : forall m, Forall (fun kv => P (snd kv)) m -> P (REntity m).
  Hypothesis Hs : P RService.
  Fixpoint resolver_ind' (r : resolver) : P r :=
    match r with
    | RHttp k r => Hh k r
    | RGrpc k r => Hg k r
    | RGraphql k r => Hq k r
    | RCall r => Hc r
    | RJs r => Hj r
    | RExpr r => He r
    | REntity m =>
        Hn m ((fix go (m : list (string * resolver)) : Forall (fun kv => P (snd kv)) m :=
                 match m with
                 | [] => Forall_nil _
                 | x :: t => Forall_cons x (resolver_ind' (snd x)) (go t)
                 end) m)
    | RService => Hs
    end.
End ResolverInd.

Lemma list_eqb_eq : forall {A} (eqb : A -> A -> bool),
  (forall x y, eqb x y = true <-> x = y) ->
  forall x y, list_eqb eqb x y = true <-> x = y.
Proof.
  intros A eqb E. induction x as [|a x IH]; intros [|b y]; cbn; try (split; discriminate || auto).
  - rewrite andb_true_iff, E, IH. intuition congruence.
  - intros X. inv X. rewrite andb_true_iff, E, IH. auto.
Qed.

Lemma resolver_eqb_eq : forall x y, resolver_eqb x y = true <-> x = y.
Proof.
  induction x using resolver_ind'; intros [k' r'|k' r'|b' r'|r'|r'|r'|m'|];
    cbn [resolver_eqb]; try (split; discriminate || auto; fail);
    try (rewrite andb_true_iff, (list_eqb_eq _ String.eqb_eq), String.eqb_eq; intuition congruence);
    try (rewrite String.eqb_eq; intuition congruence).
  - rewrite andb_true_iff, Bool.eqb_true_iff, String.eqb_eq. intuition congruence.
  - transitivity (m = m'); [|intuition congruence].
    revert m'. induction H as [|[k v] t Hv Ht IH]; intros [|[k' v'] t'];
      try (split; discriminate || auto; fail).
    cbn [snd] in Hv. rewrite !andb_true_iff, String.eqb_eq, Hv, IH. intuition congruence.
Qed.

Lemma existsb_resolver : forall r l, existsb (resolver_eqb r) l = true <-> In r l.
Proof.
  intros r l. rewrite existsb_exists. split.
  - intros [x [I E]]. apply resolver_eqb_eq in E. subst. auto.
  - intros I. exists r. split; auto. apply resolver_eqb_eq. reflexivity.
Qed.

Lemma resolver_dec : forall x y : resolver, {x = y} + {x <> y}.
Proof.
  intros x y. destruct (resolver_eqb x y) eqn:E; [left|right].
  - apply resolver_eqb_eq. exact E.
  - intros X. apply resolver_eqb_eq in X. congruence.
Qed.

Lemma m_resolvers_in : forall b a r, In r (m_resolvers a b) <-> In r a \/ In r b.
Proof.
  unfold m_resolvers. induction b as [|x b IH]; intros a r; cbn [fold_left]; [cbn; tauto|].
  rewrite IH. destruct (existsb (resolver_eqb x) a) eqn:E.
  - apply existsb_resolver in E. cbn. intuition congruence.
  - rewrite in_app_iff. cbn. tauto.
Qed.

Lemma m_resolvers_app : forall a b c, m_resolvers a (b ++ c) = m_resolvers (m_resolvers a b) c.
Proof. intros. unfold m_resolvers. apply fold_left_app. Qed.

Lemma m_resolvers_assoc : forall c a b,
  m_resolvers (m_resolvers a b) c = m_resolvers a (m_resolvers b c).
Proof.
  induction c as [|x c IH]; intros a b; [reflexivity|].
  change (m_resolvers (m_resolvers a b) (x :: c)) with
    (m_resolvers (m_resolvers (m_resolvers a b) [x]) c).
  change (m_resolvers b (x :: c)) with (m_resolvers (m_resolvers b [x]) c).
  rewrite <- IH. f_equal.
  unfold m_resolvers at 1 4. cbn [fold_left].
  destruct (existsb (resolver_eqb x) b) eqn:E.
  - assert (existsb (resolver_eqb x) (m_resolvers a b) = true) as ->; auto.
    apply existsb_resolver. apply m_resolvers_in. right. apply existsb_resolver. exact E.
  - rewrite m_resolvers_app. reflexivity.
Qed.

(* ---------- variables ---------- *)

Definition ins_all {V} (a b : list (string * V)) : list (string * V) :=
  fold_left (fun acc kv => oins scmp (fst kv) (snd kv) acc) b a.

Lemma ins_all_sorted : forall {V} (b a : list (string * V)),
  osorted scmp a -> osorted scmp (ins_all a b).
Proof.
  unfold ins_all. induction b as [|[k v] b IH]; intros a S; cbn [fold_left]; auto.
  apply IH, (osorted_oins _ scmp_order), S.
Qed.

Lemma ins_all_get : forall {V} (b a : list (string * V)) k,
  oget scmp k (ins_all a b) =
  match oget scmp k (ins_all [] b) with Some v => Some v | None => oget scmp k a end.
Proof.
  unfold ins_all.
  induction b as [|[k2 v] b IH] using rev_ind; intros a k; [reflexivity|].
  rewrite !fold_left_app. cbn [fold_left fst snd].
  destruct (String.eqb_spec k k2) as [->|N].
  - rewrite !(oget_oins_same _ scmp_order). reflexivity.
  - rewrite !(oget_oins_other _ scmp_order) by auto. apply IH.
Qed.

Lemma m_vars_sorted : forall a b, osorted scmp (m_vars a b).
Proof.
  intros. change (m_vars a b) with (ins_all (ins_all [] a) b).
  do 2 apply ins_all_sorted. constructor.
Qed.

Lemma ins_all_sorted_id : forall {V} (a : list (string * V)),
  osorted scmp a -> ins_all [] a = a.
Proof.
  intros V a S. apply (osorted_ext _ scmp_order); auto.
  - apply ins_all_sorted. constructor.
  - intros k. induction S as [|k' v t L S IH]; [reflexivity|].
    change (ins_all [] ((k', v) :: t)) with (ins_all [(k', v)] t).
    rewrite ins_all_get, IH. cbn.
    destruct (scmp k k') eqn:E; [|destruct (oget scmp k t); auto..].
    apply (to_eq _ scmp_order) in E. subst.
    destruct (oget scmp k' t) eqn:X; auto.
    apply (oget_in _ scmp_order) in X. apply L in X.
    rewrite (to_refl _ _ scmp_order) in X. discriminate.
Qed.

Lemma m_vars_assoc : forall a b c, m_vars (m_vars a b) c = m_vars a (m_vars b c).
Proof.
  intros a b c. apply (osorted_ext _ scmp_order); try apply m_vars_sorted.
  intros k.
  change (m_vars (m_vars a b) c) with (ins_all (ins_all [] (ins_all (ins_all [] a) b)) c).
  change (m_vars a (m_vars b c)) with (ins_all (ins_all [] a) (ins_all (ins_all [] b) c)).
  rewrite (ins_all_sorted_id (ins_all (ins_all [] a) b))
    by (do 2 apply ins_all_sorted; constructor).
  rewrite (ins_all_get (ins_all (ins_all [] b) c)).
  rewrite (ins_all_sorted_id (ins_all (ins_all [] b) c))
    by (do 2 apply ins_all_sorted; constructor).
  rewrite (ins_all_get c (ins_all (ins_all [] a) b)), (ins_all_get c (ins_all [] b)),
    (ins_all_get b (ins_all [] a)).
  destruct (oget scmp k (ins_all [] c)); auto.
Qed.

Lemma m_vars_get : forall a b k,
  oget scmp k (m_vars a b) =
  match oget scmp k (omap_of scmp b) with Some v => Some v | None => oget scmp k (omap_of scmp a) end.
Proof.
  intros. change (m_vars a b) with (ins_all (ins_all [] a) b). rewrite ins_all_get. reflexivity.
Qed.

(* ---------- structs ---------- *)

Lemma congr_app : forall {A B} (f g : A -> B) x y, f = g -> x = y -> f x = g y.
Proof. intros; subst; reflexivity. Qed.

(** Equality of two applications of a record constructor, field by field. *)
Ltac fields_eq :=
  match goal with
  | |- ?x = ?x => reflexivity
  | |- ?f ?x = ?g ?y => apply congr_app; [fields_eq|]
  end.

Local Opaque m_opt m_last m_vec m_set m_btree m_resolvers m_vars.

Lemma m_protected_assoc : forall a b c,
  m_protected (m_protected a b) c = m_protected a (m_protected b c).
Proof.
  intros. unfold m_protected. cbn. fields_eq. apply m_opt_assoc_all. intros. apply m_vec_assoc.
Qed.

Lemma m_field_closed : closed (fun _ => True) m_field.
Proof. intros a b; auto. Qed.
Lemma m_field_assoc : assoc_on (fun _ => True) m_field.
Proof. intros a b c; auto. Qed.

Lemma wf_fields : forall (l : list (string * field)), osorted scmp l -> wf_map (fun _ => True) l.
Proof. intros l S. split; auto. Qed.

Lemma m_gtype_closed : closed wf_gtype m_gtype.
Proof.
  intros a b [Fa Ia] [Fb Ib]. split; cbn.
  - apply m_btree_sorted; auto.
  - apply (m_set_closed scmp scmp_order); auto.
Qed.

Lemma m_gtype_assoc : assoc_on wf_gtype m_gtype.
Proof.
  intros a b c [Fa Ia] [Fb Ib] [Fc Ic]. unfold m_gtype. cbn. fields_eq.
  - apply (m_btree_assoc m_field (fun _ => True) m_field_closed m_field_assoc);
      apply wf_fields; auto.
  - apply m_vec_assoc.
  - apply m_opt_last_assoc.
  - apply (m_set_assoc scmp scmp_order); auto.
  - apply m_opt_last_assoc.
  - apply m_opt_assoc_all, m_protected_assoc.
  - apply m_resolvers_assoc.
  - apply m_vec_assoc.
Qed.

Lemma m_gunion_closed : closed wf_gunion m_gunion.
Proof. intros a b A B. apply (m_set_closed scmp scmp_order); auto. Qed.

Lemma m_gunion_assoc : assoc_on wf_gunion m_gunion.
Proof.
  intros a b c A B C. unfold m_gunion. cbn. fields_eq; [|apply m_opt_last_assoc].
  apply (m_set_assoc scmp scmp_order); auto.
Qed.

Lemma vcmp_order : total_order vcmp.
Proof.
  apply cmp_pair_order; [apply scmp_order|].
  apply cmp_opt_order, cmp_list_order, scmp_order.
Qed.

Lemma m_genum_closed : closed wf_genum m_genum.
Proof. intros a b A B. apply (m_set_closed vcmp vcmp_order); auto. Qed.

Lemma m_genum_assoc : assoc_on wf_genum m_genum.
Proof.
  intros a b c A B C. unfold m_genum. cbn. fields_eq; [|apply m_opt_last_assoc].
  apply (m_set_assoc vcmp vcmp_order); auto.
Qed.

Lemma m_schema_assoc : forall a b c, m_schema (m_schema a b) c = m_schema a (m_schema b c).
Proof. intros. unfold m_schema. cbn. fields_eq; apply m_opt_last_assoc. Qed.

Lemma m_cors_assoc : forall a b c, m_cors (m_cors a b) c = m_cors a (m_cors b c).
Proof.
  intros. unfold m_cors. cbn. fields_eq; solve [apply m_opt_last_assoc | apply m_vec_assoc].
Qed.

Definition wf_headers (h : headers_cfg) : Prop := wf_oset (h_experimental h).

Lemma wf_oset_opt_on : forall o, wf_oset o <-> opt_on (ssorted scmp) o.
Proof. intros [l|]; cbn; tauto. Qed.

Lemma m_headers_closed : closed wf_headers m_headers.
Proof.
  intros a b A B. unfold wf_headers in *. cbn. rewrite wf_oset_opt_on in *.
  apply m_opt_closed; auto. apply m_set_closed, scmp_order.
Qed.

Lemma m_headers_assoc : assoc_on wf_headers m_headers.
Proof.
  intros a b c A B C. unfold wf_headers in *. rewrite wf_oset_opt_on in *.
  unfold m_headers. cbn. fields_eq; try apply m_opt_last_assoc; try apply m_vec_assoc.
  - apply (m_opt_assoc (ssorted scmp)); auto. apply m_set_assoc, scmp_order.
  - apply m_opt_assoc_all, m_cors_assoc.
Qed.

Definition wf_server (s : server) : Prop := opt_on wf_headers (s_headers s).

Lemma m_server_closed : closed wf_server m_server.
Proof. intros a b A B. apply (m_opt_closed _ _ m_headers_closed); auto. Qed.

Lemma m_server_assoc : assoc_on wf_server m_server.
Proof.
  intros a b c A B C. unfold m_server. cbn. fields_eq; try apply m_opt_last_assoc.
  - apply (m_opt_assoc _ _ m_headers_assoc); auto.
  - apply m_opt_assoc_all, m_opt_last_assoc.
  - apply m_vars_assoc.
  - apply m_opt_assoc_all. reflexivity.
Qed.

Definition wf_batch_ (b : batch) : Prop := ssorted scmp (b_headers b).

Lemma m_batch_closed : closed wf_batch_ m_batch.
Proof. intros a b A B. apply (m_set_closed scmp scmp_order); auto. Qed.

Lemma m_batch_assoc : assoc_on wf_batch_ m_batch.
Proof.
  intros a b c A B C. unfold m_batch. cbn. fields_eq; try apply m_opt_last_assoc; try apply m_last_assoc.
  apply (m_set_assoc scmp scmp_order); auto.
Qed.

Definition wf_upstream (u : upstream) : Prop :=
  opt_on (ssorted scmp) (up_allowed_headers u) /\ opt_on wf_batch_ (up_batch u).

Lemma m_upstream_closed : closed wf_upstream m_upstream.
Proof.
  intros a b [A1 A2] [B1 B2]. split; cbn.
  - apply m_opt_closed; auto. apply m_set_closed, scmp_order.
  - apply m_opt_closed; auto. apply m_batch_closed.
Qed.

Lemma m_upstream_assoc : assoc_on wf_upstream m_upstream.
Proof.
  intros a b c [A1 A2] [B1 B2] [C1 C2]. unfold m_upstream. cbn.
  fields_eq; try apply m_opt_last_assoc.
  - apply (m_opt_assoc (ssorted scmp)); auto. apply m_set_assoc, scmp_order.
  - apply (m_opt_assoc _ _ m_batch_assoc); auto.
Qed.

Lemma m_telemetry_opt : forall a b,
  m_telemetry a b = {| te_export := m_opt m_last (te_export a) (te_export b);
                       te_headers := m_vec (te_headers a) (te_headers b) |}.
Proof. intros [[e|] h] [[e'|] h']; reflexivity. Qed.

Lemma m_telemetry_assoc : forall a b c,
  m_telemetry (m_telemetry a b) c = m_telemetry a (m_telemetry b c).
Proof.
  intros. rewrite !m_telemetry_opt. cbn. fields_eq; [apply m_opt_last_assoc|apply m_vec_assoc].
Qed.

Lemma wf_config_split : forall c,
  wf_config c <->
  wf_map wf_gtype (c_types c) /\ wf_map wf_gunion (c_unions c) /\ wf_map wf_genum (c_enums c) /\
  wf_upstream (c_upstream c) /\ wf_server (c_server c).
Proof.
  intros c. split.
  - intros [A B C D E F]. split; [|split; [|split; [|split]]]; auto.
    split; [apply wf_oset_opt_on; auto|].
    destruct (up_batch (c_upstream c)); cbn; auto.
  - intros (A & B & C & [D E] & F). split; auto.
Qed.

Lemma m_config_closed : forall a b, wf_config a -> wf_config b -> wf_config (m_config a b).
Proof.
  intros a b. rewrite !wf_config_split.
  intros (A1 & A2 & A3 & A4 & A5) (B1 & B2 & B3 & B4 & B5). cbn.
  split; [|split; [|split; [|split]]].
  - apply m_btree_closed; auto. apply m_gtype_closed.
  - apply m_btree_closed; auto. apply m_gunion_closed.
  - apply m_btree_closed; auto. apply m_genum_closed.
  - apply m_upstream_closed; auto.
  - apply m_server_closed; auto.
Qed.

Lemma m_config_assoc : forall a b c, wf_config a -> wf_config b -> wf_config c ->
  m_config (m_config a b) c = m_config a (m_config b c).
Proof.
  intros a b c. rewrite !wf_config_split.
  intros (A1 & A2 & A3 & A4 & A5) (B1 & B2 & B3 & B4 & B5) (C1 & C2 & C3 & C4 & C5).
  unfold m_config. cbn. fields_eq.
  - apply m_server_assoc; auto.
  - apply m_upstream_assoc; auto.
  - apply m_schema_assoc.
  - apply (m_btree_assoc _ _ m_gtype_closed m_gtype_assoc); auto.
  - apply (m_btree_assoc _ _ m_gunion_closed m_gunion_assoc); auto.
  - apply (m_btree_assoc _ _ m_genum_closed m_genum_assoc); auto.
  - apply m_vec_assoc.
  - apply m_telemetry_assoc.
Qed.

Local Transparent m_opt m_last m_vec m_set m_btree m_resolvers m_vars.

(* ---------- neutral element ---------- *)

Lemma m_config_empty_r : forall c, m_config c empty_config = vars_in_order c.
Proof.
  intros [s u sc ty un en li te]. unfold m_config, vars_in_order, with_server, with_vars. cbn.
  fields_eq.
  - destruct s. unfold m_server. cbn. rewrite !m_opt_none_r. reflexivity.
  - destruct u. unfold m_upstream. cbn. rewrite !m_opt_none_r. reflexivity.
  - destruct sc. unfold m_schema. cbn. rewrite !m_opt_none_r. reflexivity.
  - reflexivity.
  - reflexivity.
  - reflexivity.
  - apply app_nil_r.
  - destruct te as [[e|] h]; unfold m_telemetry; cbn; rewrite app_nil_r; reflexivity.
Qed.

Lemma m_config_empty_l : forall c, wf_config c -> m_config empty_config c = vars_in_order c.
Proof.
  intros c. rewrite wf_config_split. intros ([A1 _] & [A2 _] & [A3 _] & _ & _).
  destruct c as [s u sc ty un en li te]. unfold m_config, vars_in_order, with_server, with_vars. cbn in *.
  fields_eq.
  - destruct s. unfold m_server. cbn -[m_opt]. rewrite !m_opt_none_l. reflexivity.
  - destruct u. unfold m_upstream. cbn -[m_opt]. rewrite !m_opt_none_l. reflexivity.
  - destruct sc. unfold m_schema. cbn -[m_opt]. rewrite !m_opt_none_l. reflexivity.
  - apply m_btree_nil_l; auto.
  - apply m_btree_nil_l; auto.
  - apply m_btree_nil_l; auto.
  - reflexivity.
  - destruct te as [[e|] h]; reflexivity.
Qed.

Lemma vars_in_order_vars : forall c, get_vars (c_server (vars_in_order c)) = get_vars (c_server c).
Proof.
  intros c. unfold vars_in_order, get_vars. cbn.
  apply (ins_all_sorted_id (omap_of scmp (s_vars (c_server c)))).
  apply (osorted_omap_of _ scmp_order).
Qed.

(* ---------- setting by setting ---------- *)

Lemma m_opt_last_spec : forall {A} (l r : option A),
  m_opt m_last l r = match r with Some v => Some v | None => l end.
Proof. intros A [l|] [r|]; reflexivity. Qed.

Lemma through_m_opt : forall {A B} (m : A -> A -> A) (p : A -> option B) l r,
  (forall a b, p (m a b) = match p b with Some v => Some v | None => p a end) ->
  through (m_opt m l r) p =
  match through r p with Some v => Some v | None => through l p end.
Proof. intros A B m p [l|] [r|] H; cbn; auto. destruct (p r); auto. Qed.

Lemma through_list_m_opt : forall {A B} (m : A -> A -> A) (p : A -> list B) l r,
  (forall a b, p (m a b) = p a ++ p b) ->
  through_list (m_opt m l r) p = through_list l p ++ through_list r p.
Proof. intros A B m p [l|] [r|] H; cbn; auto. rewrite app_nil_r. auto. Qed.

Lemma through_set_m_opt : forall {A B} (m : A -> A -> A) (p : A -> list B) l r x,
  (forall a b, In x (p (m a b)) <-> In x (p a) \/ In x (p b)) ->
  In x (through_list (m_opt m l r) p) <-> In x (through_list l p) \/ In x (through_list r p).
Proof. intros A B m p [l|] [r|] x H; cbn; auto; tauto. Qed.

Lemma wf_nodup : forall {V} (P : V -> Prop) m, wf_map P m -> NoDup (map fst m).
Proof. intros V P m [S _]. apply (osorted_nodup _ scmp_order); auto. Qed.

Lemma find_type_merge : forall l r t, wf_config r ->
  find_type (m_config l r) t = m_opt m_gtype (find_type l t) (find_type r t).
Proof. intros. unfold find_type. apply m_btree_get. eapply wf_nodup. apply (wf_types _ H). Qed.
Lemma find_union_merge : forall l r t, wf_config r ->
  find_union (m_config l r) t = m_opt m_gunion (find_union l t) (find_union r t).
Proof. intros. unfold find_union. apply m_btree_get. eapply wf_nodup. apply (wf_unions _ H). Qed.
Lemma find_enum_merge : forall l r t, wf_config r ->
  find_enum (m_config l r) t = m_opt m_genum (find_enum l t) (find_enum r t).
Proof. intros. unfold find_enum. apply m_btree_get. eapply wf_nodup. apply (wf_enums _ H). Qed.

Lemma find_type_wf : forall c t ty, wf_config c -> find_type c t = Some ty -> wf_gtype ty.
Proof.
  intros c t ty W E. apply (oget_in _ scmp_order) in E. apply (proj2 (wf_types _ W)) in E. auto.
Qed.

Lemma single_right_wins : forall A p l r, Single A p -> wf_config l -> wf_config r ->
  p (m_config l r) = match p r with Some v => Some v | None => p l end.
Proof.
  intros A p l r S Wl Wr. destruct S; cbn [m_config c_server c_upstream c_schema c_telemetry];
    try apply m_opt_last_spec;
    try (apply through_m_opt; intros; cbn; apply m_opt_last_spec; fail).
  - apply (through_m_opt m_headers). intros. apply (through_m_opt m_cors).
    intros; apply m_opt_last_spec.
  - apply (through_m_opt m_headers). intros. apply (through_m_opt m_cors).
    intros; apply m_opt_last_spec.
  - apply (through_m_opt m_headers). intros. apply (through_m_opt m_cors).
    intros; apply m_opt_last_spec.
  - unfold get_vars at 1. cbn [m_server s_vars].
    change (omap_of scmp (m_vars (s_vars (c_server l)) (s_vars (c_server r))))
      with (ins_all [] (m_vars (s_vars (c_server l)) (s_vars (c_server r)))).
    rewrite ins_all_sorted_id by apply m_vars_sorted.
    apply m_vars_get.
  - rewrite find_type_merge by auto. apply through_m_opt. intros; apply m_opt_last_spec.
  - rewrite find_type_merge by auto. apply through_m_opt. intros; apply m_opt_last_spec.
  - rewrite find_union_merge by auto. apply through_m_opt. intros; apply m_opt_last_spec.
  - rewrite find_enum_merge by auto. apply through_m_opt. intros; apply m_opt_last_spec.
  - rewrite find_type_merge by auto.
    destruct (find_type l t) as [a|] eqn:El, (find_type r t) as [b|] eqn:Er; cbn; auto.
    + rewrite m_btree_get.
      * change m_field with (@m_last field). apply m_opt_last_spec.
      * apply (osorted_nodup _ scmp_order). apply (find_type_wf _ _ _ Wr Er).
    + destruct (oget scmp f (t_fields b)); auto.
Qed.

Lemma listed_concatenated : forall A p l r, Listed A p -> wf_config l -> wf_config r ->
  p (m_config l r) = p l ++ p r.
Proof.
  intros A p l r S Wl Wr. destruct S; cbn [m_config c_server c_upstream c_links c_telemetry];
    try reflexivity.
  - apply (through_list_m_opt m_headers). reflexivity.
  - apply (through_list_m_opt m_headers). intros. apply (through_list_m_opt m_cors). reflexivity.
  - apply (through_list_m_opt m_headers). intros. apply (through_list_m_opt m_cors). reflexivity.
  - apply (through_list_m_opt m_headers). intros. apply (through_list_m_opt m_cors). reflexivity.
  - apply (through_list_m_opt m_headers). intros. apply (through_list_m_opt m_cors). reflexivity.
  - apply (through_list_m_opt m_headers). intros. apply (through_list_m_opt m_cors). reflexivity.
  - rewrite find_type_merge by auto. apply through_list_m_opt. intros.
    apply (through_list_m_opt m_protected). intros.
    apply (through_list_m_opt m_vec). reflexivity.
  - rewrite find_type_merge by auto. apply through_list_m_opt. reflexivity.
  - rewrite find_type_merge by auto. apply through_list_m_opt. reflexivity.
Qed.

Lemma collected_united : forall A p l r x, Collected A p -> wf_config l -> wf_config r ->
  (In x (p (m_config l r)) <-> In x (p l) \/ In x (p r)).
Proof.
  intros A p l r x S Wl Wr. revert x.
  destruct S; intros x; cbn [m_config c_server c_upstream c_types c_unions c_enums].
  - apply (through_set_m_opt (m_set scmp)). intros. apply (m_set_in _ scmp_order).
  - apply (through_set_m_opt m_batch). intros. apply (m_set_in _ scmp_order).
  - apply (through_set_m_opt m_headers). intros.
    apply (through_set_m_opt (m_set scmp)). intros. apply (m_set_in _ scmp_order).
  - rewrite find_type_merge by auto. apply through_set_m_opt. intros.
    apply (m_set_in _ scmp_order).
  - rewrite find_union_merge by auto. apply through_set_m_opt. intros.
    apply (m_set_in _ scmp_order).
  - rewrite find_enum_merge by auto. apply through_set_m_opt. intros.
    apply (m_set_in _ vcmp_order).
  - rewrite find_type_merge by auto. apply through_set_m_opt. intros.
    apply m_resolvers_in.
  - apply m_btree_keys. eapply wf_nodup. apply (wf_types _ Wr).
  - apply m_btree_keys. eapply wf_nodup. apply (wf_unions _ Wr).
  - apply m_btree_keys. eapply wf_nodup. apply (wf_enums _ Wr).
Qed.

(* ---------- insertion-ordered maps and JSON ---------- *)

Section IndexMerge.
  Context {V : Type} (m : V -> V -> V).

  Definition m_index_step (acc : list (string * V)) (kv : string * V) :=
    match aget (fst kv) acc with
    | Some v => aset (fst kv) (m v (snd kv)) acc
    | None => aset (fst kv) (snd kv) acc
    end.

  Lemma m_index_step_get : forall acc kv k,
    aget k (m_index_step acc kv) =
    if String.eqb k (fst kv) then m_opt m (aget k acc) (Some (snd kv)) else aget k acc.
  Proof.
    intros acc [k' v] k. unfold m_index_step. cbn [fst snd].
    destruct (String.eqb_spec k k') as [->|N].
    - destruct (aget k' acc) eqn:E; rewrite aget_aset_same; reflexivity.
    - destruct (aget k' acc) eqn:E; rewrite aget_aset_other; auto.
  Qed.

  Lemma m_index_get : forall b a k, NoDup (akeys b) ->
    aget k (m_index m a b) = m_opt m (aget k a) (aget k b).
  Proof.
    change (m_index m) with (fun a b => fold_left m_index_step b a).
    induction b as [|[k' v] b IH]; intros a k ND; cbn [fold_left].
    - cbn. rewrite m_opt_none_r. reflexivity.
    - inv ND. rewrite IH by auto. rewrite m_index_step_get. cbn [fst snd aget].
      destruct (String.eqb_spec k k') as [->|N]; auto.
      rewrite (proj2 (aget_None k' b)) by auto. apply m_opt_none_r.
  Qed.

  Lemma m_index_step_keys : forall acc kv,
    akeys (m_index_step acc kv) =
    if smem (fst kv) (akeys acc) then akeys acc else akeys acc ++ [fst kv].
  Proof.
    intros acc [k v]. unfold m_index_step. cbn [fst snd].
    destruct (aget k acc) eqn:E.
    - assert (I : In k (akeys acc)) by (eapply aget_Some_key; eauto).
      rewrite (proj2 (smem_In _ _) I). apply akeys_aset_in. auto.
    - assert (I : ~ In k (akeys acc)) by (apply aget_None; auto).
      rewrite (proj2 (smem_false _ _) I). apply akeys_aset_notin. auto.
  Qed.

  Definition add_keys (a b : list string) : list string :=
    fold_left (fun acc k => if smem k acc then acc else acc ++ [k]) b a.

  Lemma m_index_keys : forall b a, akeys (m_index m a b) = add_keys (akeys a) (akeys b).
  Proof.
    change (m_index m) with (fun a b => fold_left m_index_step b a).
    induction b as [|kv b IH]; intros a; cbn [fold_left]; auto.
    rewrite IH, m_index_step_keys. reflexivity.
  Qed.

  Lemma add_keys_in : forall b a x, In x (add_keys a b) <-> In x a \/ In x b.
  Proof.
    unfold add_keys. induction b as [|k b IH]; intros a x; cbn [fold_left]; [cbn; tauto|].
    rewrite IH. destruct (smem k a) eqn:E.
    - apply smem_In in E. cbn. intuition congruence.
    - rewrite in_app_iff. cbn. tauto.
  Qed.

  Lemma add_keys_app : forall a b c, add_keys a (b ++ c) = add_keys (add_keys a b) c.
  Proof. intros. unfold add_keys. apply fold_left_app. Qed.

  Lemma add_keys_assoc : forall c a b, add_keys (add_keys a b) c = add_keys a (add_keys b c).
  Proof.
    induction c as [|x c IH]; intros a b; [reflexivity|].
    change (add_keys (add_keys a b) (x :: c)) with (add_keys (add_keys (add_keys a b) [x]) c).
    change (add_keys b (x :: c)) with (add_keys (add_keys b [x]) c).
    rewrite <- IH. f_equal.
    unfold add_keys at 1 4. cbn [fold_left].
    destruct (smem x b) eqn:E.
    - assert (smem x (add_keys a b) = true) as ->; auto.
      apply smem_In, add_keys_in. right. apply smem_In. exact E.
    - rewrite add_keys_app. reflexivity.
  Qed.

  Lemma add_keys_nodup : forall b a, NoDup a -> NoDup (add_keys a b).
  Proof.
    unfold add_keys. induction b as [|k b IH]; intros a N; cbn [fold_left]; auto.
    apply IH. destruct (smem k a) eqn:E; auto. apply smem_false in E.
    clear IH. induction a as [|y a IHa]; cbn; [constructor; [intros []|constructor]|].
    inv N. constructor.
    - rewrite in_app_iff. cbn. intros [X|[X|[]]]; auto. subst. apply E. cbn. auto.
    - apply IHa; auto. intros X. apply E. cbn. auto.
  Qed.
End IndexMerge.

Lemma m_json_obj : forall a b, m_json (VObj a) (VObj b) = VObj (m_index m_json a b).
Proof.
  intros a b. cbn [m_json]. f_equal. revert a. unfold m_index.
  induction b as [|[k w] t IH]; intros a; [reflexivity|]. cbn [fold_left fst snd]. apply IH.
Qed.

Lemma aget_ext : forall {V} (a b : list (string * V)),
  akeys a = akeys b -> NoDup (akeys a) -> (forall k, aget k a = aget k b) -> a = b.
Proof.
  induction a as [|[k v] a IH]; intros [|[k' v'] b] K N E; cbn in K; try discriminate; auto.
  inv K. inv N. pose proof (E k') as X. cbn in X. rewrite String.eqb_refl in X. inv X.
  f_equal. apply IH; auto. intros q. specialize (E q). cbn in E.
  destruct (String.eqb_spec q k') as [Q|D]; auto. rewrite Q in *.
  transitivity (@None V); [apply aget_None; auto|symmetry; apply aget_None].
  unfold akeys in *. congruence.
Qed.

Lemma has_shape_obj : forall m f,
  has_shape (VObj m) (ShObj f) <->
  NoDup (akeys m) /\ forall k v, In (k, v) m -> has_shape v (f k).
Proof.
  intros m f. cbn [has_shape]. split; intros [N A]; split; auto.
  - clear N. induction m as [|[k w] t IH]; cbn; [tauto|].
    destruct A as [A1 A2]. intros k' v [E|E]; [inv E; auto|]. apply IH; auto.
  - clear N. induction m as [|[k w] t IH]; cbn; auto. split.
    + apply A. cbn. auto.
    + apply IH. intros. apply A. cbn. auto.
Qed.

Lemma m_json_shape : forall y x s, has_shape x s -> has_shape y s -> has_shape (m_json x y) s.
Proof.
  induction y as [| | | | |l IHl|m IHm] using value_ind'; intros x sh Hx Hy; destruct sh as [| |f];
    destruct x as [| | | | |lx|m0]; cbn in Hx, Hy; try contradiction; cbn [m_json]; auto.
  change (VObj _) with (m_json (VObj m0) (VObj m)).
  rewrite m_json_obj, has_shape_obj.
  apply (proj1 (has_shape_obj _ _)) in Hx. apply (proj1 (has_shape_obj _ _)) in Hy.
  destruct Hx as [Nx Ax], Hy as [Ny Ay].
  assert (ND : NoDup (akeys (m_index m_json m0 m))).
  { rewrite m_index_keys. apply add_keys_nodup. auto. }
  split; auto. intros k v I. apply (NoDup_aget _ _ _ ND) in I.
  rewrite m_index_get in I by auto.
  destruct (aget k m0) as [a|] eqn:Ea, (aget k m) as [b|] eqn:Eb; cbn in I; inv I.
  - apply aget_In in Eb, Ea. rewrite Forall_forall in IHm.
    apply (IHm (k, b) Eb); auto.
  - apply aget_In in Ea. auto.
  - apply aget_In in Eb. auto.
Qed.

Lemma m_json_assoc : forall z x y s,
  has_shape x s -> has_shape y s -> has_shape z s ->
  m_json (m_json x y) z = m_json x (m_json y z).
Proof.
  induction z as [| | | | |l IHl|m IHm] using value_ind'; intros x y sh Hx Hy Hz; destruct sh as [| |f];
    destruct x as [| | | | |lx|mx]; cbn in Hx; try contradiction;
    destruct y as [| | | | |ly|my]; cbn in Hy; try contradiction;
    cbn in Hz; try contradiction; try reflexivity.
  - cbn [m_json]. rewrite m_vec_assoc. reflexivity.
  - rewrite !m_json_obj. f_equal.
    apply (proj1 (has_shape_obj _ _)) in Hx. apply (proj1 (has_shape_obj _ _)) in Hy.
    apply (proj1 (has_shape_obj _ _)) in Hz.
    destruct Hx as [Nx Ax], Hy as [Ny Ay], Hz as [Nz Az].
    apply aget_ext.
    + rewrite !m_index_keys. apply add_keys_assoc.
    + rewrite !m_index_keys. apply add_keys_nodup, add_keys_nodup, Nx.
    + intros k. rewrite !m_index_get; auto.
      2:{ rewrite m_index_keys. apply add_keys_nodup. auto. }
      destruct (aget k mx) as [a|] eqn:Ea, (aget k my) as [b|] eqn:Eb, (aget k m) as [c|] eqn:Ec;
        cbn; auto.
      apply aget_In in Ea, Eb, Ec. rewrite Forall_forall in IHm. f_equal.
      apply (IHm (k, c) Ec a b (f k)); auto.
Qed.

(** The right document's leaves win, the left one's other members stay. *)
Lemma m_json_members : forall a b k, NoDup (akeys b) ->
  get_key k (m_json (VObj a) (VObj b)) =
  match aget k a, aget k b with
  | Some x, Some y => Some (m_json x y)
  | Some x, None => Some x
  | None, o => o
  end.
Proof.
  intros a b k N. rewrite m_json_obj. cbn [get_key]. rewrite m_index_get by auto.
  destruct (aget k a), (aget k b); reflexivity.
Qed.

(* ---------- computing the invariants of a configuration ---------- *)

Definition wf_configb (c : config) : bool :=
  osortedb scmp (c_types c) &&
  forallb (fun kv => osortedb scmp (t_fields (snd kv)) && ssortedb scmp (t_implements (snd kv)))
    (c_types c) &&
  osortedb scmp (c_unions c) &&
  forallb (fun kv => ssortedb scmp (u_types (snd kv))) (c_unions c) &&
  osortedb scmp (c_enums c) &&
  forallb (fun kv => ssortedb vcmp (e_variants (snd kv))) (c_enums c) &&
  match up_allowed_headers (c_upstream c) with Some l => ssortedb scmp l | None => true end &&
  match up_batch (c_upstream c) with Some b => ssortedb scmp (b_headers b) | None => true end &&
  match s_headers (c_server c) with
  | Some h => match h_experimental h with Some l => ssortedb scmp l | None => true end
  | None => true
  end.

Lemma wf_configb_ok : forall c, wf_configb c = true -> wf_config c.
Proof.
  intros c E. unfold wf_configb in E. rewrite !andb_true_iff, !forallb_forall in E.
  destruct E as ((((((((A1 & A2) & B1) & B2) & C1) & C2) & D) & F) & G).
  split.
  - split; [apply (osortedb_ok _ scmp_order); auto|]. intros k v I. apply A2 in I.
    cbn in I. rewrite andb_true_iff in I. destruct I as [I J].
    split; [apply (osortedb_ok _ scmp_order)|apply (ssortedb_ok _ scmp_order)]; auto.
  - split; [apply (osortedb_ok _ scmp_order); auto|]. intros k v I. apply B2 in I.
    apply (ssortedb_ok _ scmp_order); auto.
  - split; [apply (osortedb_ok _ scmp_order); auto|]. intros k v I. apply C2 in I.
    apply (ssortedb_ok _ vcmp_order); auto.
  - destruct (up_allowed_headers (c_upstream c)); cbn; auto. apply (ssortedb_ok _ scmp_order); auto.
  - destruct (up_batch (c_upstream c)); cbn; auto. apply (ssortedb_ok _ scmp_order); auto.
  - destruct (s_headers (c_server c)) as [h|]; cbn; auto.
    destruct (h_experimental h); cbn; auto. apply (ssortedb_ok _ scmp_order); auto.
Qed.
