(** Proofs about fields with [@expr] (C92). *)
From Coq Require Import String Ascii ZArith NArith Bool Arith Lia List.
From Verif Require Import Base Ordered JsonModel JsonProofs SchemaModel SchemaProofs TypeModel ConfigModel GsModel GsSpec GsProofs MustacheModel CtxModel CallModel CallSpec CallProofs ExModel ExSpec.
Import ListNotations.
Open Scope string_scope.
Open Scope list_scope.

(** ** Constants *)
Lemma constant_list : forall l, constant (VList l) <-> Forall constant l.
Proof.
  intros l. unfold constant. split.
  - intros H. apply Forall_forall. intros v I s segs T. apply (H s segs). econstructor; eauto.
  - intros H s segs T. inversion T; subst. rewrite Forall_forall in H. eapply H; eauto.
Qed.
Lemma constant_object : forall m, constant (VObj m) <-> Forall (fun kv => constant (snd kv)) m.
Proof.
  intros m. unfold constant. split.
  - intros H. apply Forall_forall. intros [k v] I s segs T. apply (H s segs). eapply Ti_object; eauto.
  - intros H s segs T. inversion T; subst. rewrite Forall_forall in H. eapply (H (k, v)); eauto.
Qed.
Lemma dynamic_constant : forall v, dynamic_is_const (dynamic_of v) = true <-> constant v.
Proof.
  induction v as [|b|n|s|s|l IH|l IH] using value_ind'; cbn [dynamic_of].
  1-3, 5: (split; [intros _ t segs T; inversion T|reflexivity]).
  - destruct (mustache_is_const (parse s)) eqn:C; cbn [dynamic_is_const].
    + split; [|reflexivity]. intros _ t segs T Te. inversion T; subst. assert (X : mustache_is_const (parse s) = false) by (apply const_iff; eauto). congruence.
    + rewrite C. split; [discriminate|]. intros H. exfalso. apply const_iff in C as [segs T]. exact (H s segs (Ti_here s) T).
  - rewrite constant_list. cbn [dynamic_is_const]. rewrite forallb_forall, Forall_forall. rewrite Forall_forall in IH. split.
    + intros H v I. apply IH; [exact I|]. apply H. now apply in_map.
    + intros H d I. apply in_map_iff in I as (v & <- & I). apply IH; auto.
  - rewrite constant_object. cbn [dynamic_is_const]. rewrite forallb_forall, Forall_forall. rewrite Forall_forall in IH. split.
    + intros H kv I. apply IH; [exact I|]. apply (H (fst kv, dynamic_of (snd kv))). apply in_map_iff. eauto.
    + intros H d I. apply in_map_iff in I as (kv & <- & I). apply IH; auto.
Qed.
Lemma constant_value : forall v, constant v -> const_value (dynamic_of v) = Ok v.
Proof.
  induction v as [|b|n|s|s|l IH|l IH] using value_ind'; intros C; cbn [dynamic_of]; try reflexivity.
  - destruct (mustache_is_const (parse s)) eqn:M; [reflexivity|]. apply const_iff in M as [segs T]. destruct (C s segs (Ti_here s) T).
  - apply constant_list in C. cbn [const_value].
    assert (E : (fix go (l : list dynamic) : result (list value) string := match l with [] => Ok [] | d :: t => rbind (const_value d) (fun v => rmap (fun r => v :: r) (go t)) end) (map dynamic_of l) = Ok l).
    { induction l as [|v l IHl]; [reflexivity|]. inversion C; subst. inversion IH; subst. cbn [map]. rewrite H3 by assumption. cbn [rbind]. rewrite IHl by assumption. reflexivity. }
    rewrite E. reflexivity.
  - apply constant_object in C. cbn [const_value].
    assert (E : (fix go (l : list (string * dynamic)) : result (list (string * value)) string := match l with [] => Ok [] | (k, d) :: t => rbind (const_value d) (fun v => rmap (fun r => (k, v) :: r) (go t)) end)
       (map (fun kv => (fst kv, dynamic_of (snd kv))) l) = Ok l).
    { induction l as [|[k v] l IHl]; [reflexivity|]. inversion C; subst. inversion IH; subst. cbn [map fst snd]. cbn [snd] in *. rewrite H3 by assumption. cbn [rbind]. rewrite IHl by assumption. reflexivity. }
    rewrite E. reflexivity.
Qed.
Lemma constant_rendered : forall rx ctx v, constant v -> render_value rx (dynamic_of v) ctx = v.
Proof.
  intros rx ctx. induction v as [|b|n|s|s|l IH|l IH] using value_ind'; intros C; cbn [dynamic_of]; try reflexivity.
  - destruct (mustache_is_const (parse s)) eqn:M; [reflexivity|]. apply const_iff in M as [segs T]. destruct (C s segs (Ti_here s) T).
  - apply constant_list in C. cbn [render_value]. f_equal. rewrite map_map. induction l as [|v l IHl]; [reflexivity|]. inversion C; subst. inversion IH; subst. cbn [map]. rewrite H3, IHl by assumption. reflexivity.
  - apply constant_object in C. cbn [render_value]. f_equal. rewrite map_map. induction l as [|[k v] l IHl]; [reflexivity|]. inversion C; subst. inversion IH; subst. cbn [map fst snd]. cbn [snd] in *. rewrite H3 by assumption. apply (f_equal (cons (k, v))). apply IHl; assumption.
Qed.

(** ** Schemas *)
Definition object_ok (c : config) (ty : gtype) (v : value) : Prop := exists kvs, v = VObj kvs /\
  forall k f, In (k, f) (t_fields ty) -> f_resolvers f = [] ->
    (exists v, aget k kvs = Some v /\ roughly c (f_type f) v) \/ (aget k kvs = None /\ may_be_null (f_type f)).
Lemma null_named : forall n b, may_be_null (TNamed n b) <-> b = false.
Proof. intros n b. unfold may_be_null. split; [intros [[m E]|[t E]]; [now injection E|discriminate]|]. intros ->. left. eauto. Qed.
Lemma null_list : forall t b, may_be_null (TList t b) <-> b = false.
Proof. intros t b. unfold may_be_null. split; [intros [[m E]|[t' E]]; [discriminate|now injection E]|]. intros ->. right. eauto. Qed.
Lemma opt_ok : forall s v, validate (SOpt s) v = true <-> v = VNull \/ validate s v = true.
Proof. intros s v. cbn [validate]. destruct v; split; auto; intros [H|H]; try discriminate; auto. Qed.
Section Schemas.
  Variable c : config.
  Definition right (rec : gtype -> option schema) : Prop := forall ty s, rec ty = Some s -> is_optional s = false /\ forall v, validate s v = true <-> object_ok c ty v.
  Lemma scalar_optional : forall n, is_optional (from_scalar_type n) = false.
  Proof. intros n. unfold from_scalar_type. repeat destruct (String.eqb _ _); reflexivity. Qed.
  Lemma scalar_ok : forall n v, oget scmp n (c_types c) = None -> oget scmp n (c_enums c) = None -> (validate (from_scalar_type n) v = true <-> roughly c (TNamed n true) v).
  Proof.
    intros n v T E. unfold from_scalar_type. destruct (String.eqb_spec n "String") as [->|N1].
    { split; [destruct v; try discriminate; intros _; now constructor|]. intros R. inversion R; subst; try congruence; try reflexivity. - apply null_named in H. discriminate. - exfalso. match goal with X : ~ In _ _ |- _ => apply X end. cbn. auto. }
    destruct (String.eqb_spec n "Int") as [->|N2].
    { split; [destruct v; try discriminate; intros _; now constructor|]. intros R. inversion R; subst; try congruence; try reflexivity. - apply null_named in H. discriminate. - exfalso. match goal with X : ~ In _ _ |- _ => apply X end. cbn. auto. }
    destruct (String.eqb_spec n "Boolean") as [->|N3].
    { split; [destruct v; try discriminate; intros _; now constructor|]. intros R. inversion R; subst; try congruence; try reflexivity. - apply null_named in H. discriminate. - exfalso. match goal with X : ~ In _ _ |- _ => apply X end. cbn. auto. }
    destruct (String.eqb_spec n "Empty") as [->|N4].
    { split; [destruct v as [| | | | | |[|]]; cbn [validate]; intros X; try discriminate X; apply Ro_empty; auto|]. intros R. inversion R; subst; try congruence; try reflexivity. - match goal with X : _ \/ _ |- _ => now destruct X as [->| ->] end. - exfalso. match goal with X : ~ In _ _ |- _ => apply X end. cbn. auto 6. }
    split; [intros _; apply Ro_other; auto; cbn; intuition congruence|reflexivity].
  Qed.
  Lemma roughly_named : forall n v, roughly c (TNamed n false) v <-> v = VNull \/ roughly c (TNamed n true) v.
  Proof.
    intros n v. split.
    - intros R. inversion R; subst; auto; right; [eapply Ro_object|eapply Ro_enum|constructor|constructor|constructor|constructor|apply Ro_other]; eauto.
    - intros [->|R]; [apply Ro_null; now apply null_named|]. inversion R; subst; [apply null_named in H; discriminate|eapply Ro_object|eapply Ro_enum|constructor|constructor|constructor|constructor|apply Ro_other]; eauto.
  Qed.
  Lemma typ_right : forall rec, right rec -> forall t s, typ_schema c rec t = Some s -> (is_optional s = true <-> may_be_null t) /\ forall v, validate s v = true <-> roughly c t v.
  Proof.
    intros rec R. induction t as [n b|t IH b]; intros s E; cbn [typ_schema] in E.
    - assert (B : exists s0, s = (if b then s0 else SOpt s0) /\ is_optional s0 = false /\ forall v, validate s0 v = true <-> roughly c (TNamed n true) v).
      { unfold ConfigModel.find_type, ConfigModel.find_enum in E. destruct (oget scmp n (c_types c)) as [ty|] eqn:T.
        - destruct (rec ty) as [s0|] eqn:S; [|discriminate]. injection E as <-. exists s0. destruct (R ty s0 S) as [O V]. split; [reflexivity|]. split; [exact O|]. intros v. rewrite V. split.
          + intros (kvs & -> & H). eapply Ro_object; eauto.
          + intros Q. inversion Q; subst; try congruence; [apply null_named in H; discriminate|]. exists kvs. split; [reflexivity|]. replace ty with ty0 by congruence. assumption.
        - destruct (oget scmp n (c_enums c)) as [e|] eqn:En; injection E as <-.
          + eexists. split; [reflexivity|]. split; [reflexivity|]. intros v. split; [intros _; eapply Ro_enum; eauto|reflexivity].
          + eexists. split; [reflexivity|]. split; [apply scalar_optional|]. intros v. now apply scalar_ok. }
      destruct B as (s0 & -> & O & V). destruct b.
      + rewrite O, null_named. split; [split; discriminate|exact V].
      + rewrite null_named. split; [split; reflexivity|]. intros v. rewrite opt_ok, V, roughly_named. reflexivity.
    - destruct (typ_schema c rec t) as [s0|]; [|discriminate]. injection E as <-. destruct (IH s0 eq_refl) as [_ V].
      assert (A : forall v, validate (SArr s0) v = true <-> roughly c (TList t true) v).
      { intros v. split.
        - destruct v; try discriminate. cbn [validate]. intros F. constructor. rewrite forallb_forall in F. apply Forall_forall. intros x X. apply V. auto.
        - intros Q. inversion Q; subst; [apply null_list in H; discriminate|]. cbn [validate]. apply forallb_forall. intros x X. apply V. rewrite Forall_forall in H2. auto. }
      destruct b.
      + rewrite null_list. split; [split; discriminate|exact A].
      + rewrite null_list. split; [split; reflexivity|]. intros v. rewrite opt_ok, A. split.
        * intros [->|Q]; [apply Ro_null; now apply null_list|]. inversion Q; subst; [apply null_list in H; discriminate|]. now constructor.
        * intros Q. inversion Q; subst; [now left|right; now constructor].
  Qed.
  Lemma object_right : forall fuel, right (object_type_schema c fuel).
  Proof.
    induction fuel as [|fuel IH]; intros ty s E; [discriminate|]. cbn [object_type_schema] in E. destruct (traverse _ _) as [l|] eqn:T; [|discriminate]. injection E as <-. split; [reflexivity|].
    apply traverse_in in T as [T1 T2]. intros v. split.
    - destruct v as [| | | | | |kvs]; try discriminate. rewrite validate_obj. intros H. exists kvs. split; [reflexivity|]. intros k f I F.
      destruct (T1 (k, f)) as ([k' s] & E & I'). { apply filter_In. split; [exact I|]. cbn. now rewrite F. } cbn [fst snd] in E. destruct (typ_schema c _ (f_type f)) as [s'|] eqn:S; [|discriminate]. injection E as <- <-.
      destruct (typ_right _ IH _ _ S) as [O V]. specialize (H k s' I'). destruct (aget k kvs) as [x|]; [left; exists x; split; [reflexivity|now apply V]|right]. split; [reflexivity|]. apply O. unfold is_required in H. now apply negb_false_iff in H.
    - intros (kvs & -> & H). apply validate_obj. intros k s I. destruct (T2 _ I) as ([k' f] & I' & E). apply filter_In in I' as [I' F]. cbn [fst snd] in *. destruct (typ_schema c _ (f_type f)) as [s'|] eqn:S; [|discriminate]. injection E as -> ->.
      destruct (typ_right _ IH _ _ S) as [O V]. assert (F' : f_resolvers f = []) by (destruct (f_resolvers f); [reflexivity|discriminate]). destruct (H k f I' F') as [(x & -> & Q)|[-> Q]]; [now apply V|]. unfold is_required. now rewrite (proj2 O Q).
  Qed.
  Lemma schema_right : forall fuel t s v, to_json_schema c fuel t = Some s -> (validate s v = true <-> roughly c t v).
  Proof. intros fuel t s v E. exact (proj2 (typ_right _ (object_right fuel) _ _ E) v). Qed.

  (** ** Ends *)
  Lemma traverse_all {A B} (f : A -> option B) l : (forall a, In a l -> f a <> None) -> traverse f l <> None.
  Proof.
    induction l as [|a l IH]; intros H; [discriminate|]. cbn. assert (X : f a <> None) by (apply H; now left). destruct (f a); [|contradiction]. assert (Y : traverse f l <> None) by (apply IH; intros x I; apply H; now right).
    destruct (traverse f l); [discriminate|contradiction].
  Qed.
  Lemma typ_ends : forall rec t, (forall ty, oget scmp (leaf t) (c_types c) = Some ty -> rec ty <> None) -> typ_schema c rec t <> None.
  Proof.
    intros rec. induction t as [n b|t IH b]; intros H; cbn [typ_schema].
    - unfold ConfigModel.find_type, ConfigModel.find_enum. cbn [leaf] in H. destruct (oget scmp n (c_types c)) as [ty|]; [|destruct (oget scmp n (c_enums c)); discriminate]. specialize (H ty eq_refl). destruct (rec ty); [discriminate|contradiction].
    - specialize (IH H). destruct (typ_schema c rec t); [discriminate|contradiction].
  Qed.
  Lemma object_ends : forall rank : string -> nat, (forall n ty k f, oget scmp n (c_types c) = Some ty -> In (k, f) (t_fields ty) -> f_resolvers f = [] -> oget scmp (leaf (f_type f)) (c_types c) <> None -> rank (leaf (f_type f)) < rank n) ->
    forall fuel n ty, oget scmp n (c_types c) = Some ty -> rank n < fuel -> object_type_schema c fuel ty <> None.
  Proof.
    intros rank R. induction fuel as [|fuel IH]; intros n ty T L; [lia|]. cbn [object_type_schema]. match goal with |- option_map _ ?x <> None => assert (X : x <> None); [|destruct x; [discriminate|contradiction]] end.
    apply traverse_all. intros [k f] I. apply filter_In in I as [I F]. cbn [fst snd] in *. assert (F' : f_resolvers f = []) by (destruct (f_resolvers f); [reflexivity|discriminate]).
    assert (Y : typ_schema c (object_type_schema c fuel) (f_type f) <> None).
    { apply typ_ends. intros ty' T'. apply (IH (leaf (f_type f)) ty' T'). specialize (R n ty k f T I F'). rewrite T' in R. specialize (R ltac:(discriminate)). lia. }
    destruct (typ_schema c (object_type_schema c fuel) (f_type f)); [discriminate|contradiction].
  Qed.
  Lemma schema_ends : no_cycles c -> forall t, exists fuel, forall more, fuel <= more -> to_json_schema c more t <> None.
  Proof.
    intros [rank R] t. exists (S (rank (leaf t))). intros more L. apply typ_ends. intros ty T. apply (object_ends rank R more (leaf t) ty T). lia.
  Qed.
End Schemas.
(** ** What fits exactly *)
Lemma fits_roughly : forall c t v, fits c t v -> roughly c t v.
Proof.
  fix IH 4. intros c t v F. destruct F as [n|t|t b l L|n b ty kvs T H|n b e s v T E I V|b s T E|b x T E|b x T E|b T E|b T E|n b v T E N].
  - apply Ro_null. now apply null_named.
  - apply Ro_null. now apply null_list.
  - constructor. induction L; constructor; auto.
  - eapply Ro_object; [exact T|]. intros k f I R. destruct (H k f I R) as [(v & G & Q)|[G Q]]; [left; exists v; split; [exact G|now apply IH]|right]. split; [exact G|exact Q].
  - eapply Ro_enum; eauto.
  - now apply Ro_string.
  - now apply Ro_int.
  - now apply Ro_boolean.
  - apply Ro_empty; auto.
  - apply Ro_empty; auto.
  - now apply Ro_other.
Qed.
Lemma roughly_fits : forall c, (forall n, oget scmp n (c_enums c) = None) -> forall t v, roughly c t v -> fits c t v.
Proof.
  intros c N. fix IH 3. intros t v F. destruct F as [t M|t b l L|n b ty kvs T H|n b e v T E|b s T E|b x T E|b x T E|b v T E V|n b v T E O].
  - destruct M as [[n ->]|[t' ->]]; constructor.
  - constructor. induction L; constructor; auto.
  - eapply GsSpec.Fi_object; [exact T|]. intros k f I R. destruct (H k f I R) as [(v & G & Q)|[G Q]]; [left; exists v; split; [exact G|now apply IH]|right]. split; [exact G|exact Q].
  - rewrite N in E. discriminate.
  - now apply GsSpec.Fi_string.
  - now apply GsSpec.Fi_int.
  - now apply GsSpec.Fi_boolean.
  - destruct V as [->| ->]; [now apply GsSpec.Fi_empty|now apply GsSpec.Fi_empty_null].
  - now apply GsSpec.Fi_other.
Qed.
