(** Proofs about the templates of a configuration (C68) and [@http] (C69). *)
From Coq Require Import String Ascii ZArith NArith Arith Bool Lia List.
From Verif Require Import Base Ordered BaseFacts OrderedFacts JsonModel UrlModel HeadersModel RequestModel GqlModel TypeModel ConfigModel
  MustacheModel IrModel ComposeModel CtxModel CtxSpec CtxProofs JsonSpec JsonProofs MustacheSpec MustacheProofs FieldModel CallModel CheckModel CheckSpec.
From Verif Require BuilderModel HttpBatchModel.
Import ListNotations.
Open Scope string_scope.
Open Scope list_scope.

Lemma predefined_iff n : BuilderModel.is_predefined n = true <-> built_in n.
Proof.
  unfold BuilderModel.is_predefined, built_in. rewrite orb_true_iff, !smem_In, <- in_app_iff. reflexivity.
Qed.
Lemma nullable_iff t : is_nullable t = false <-> required t.
Proof. destruct t as [n []|t []]; cbn; split; congruence. Qed.
Lemma is_list_iff t : is_list t = false <-> ~ a_list t.
Proof.
  destruct t as [n b|t b]; cbn; split; try congruence.
  - intros _ (u & b' & E). discriminate.
  - intros H. destruct H. exists t, b. reflexivity.
Qed.

Lemma all_checked_unit {A B} (f : A -> valid B) l :
  (exists r, all_checked f l = Ok r) <-> forall a, In a l -> exists b, f a = Ok b.
Proof.
  induction l as [|a l IH]; cbn.
  - split; [intros _ a []|intros _; eauto].
  - split.
    + intros (r & H). destruct (f a) eqn:E; [|destruct (all_checked f l); discriminate].
      destruct (all_checked f l) eqn:E'; [|discriminate].
      intros x [<-|I]; eauto. apply IH; eauto.
    + intros H. destruct (H a (or_introl eq_refl)) as (b & E). rewrite E.
      destruct (proj2 IH) as (r & E'). { intros x I. apply H; auto. }
      rewrite E'. eauto.
Qed.
Lemma rmap_tt {A} (x : valid A) : (rmap (fun _ => tt) x : valid unit) = Ok tt <-> exists a, x = Ok a.
Proof. destruct x; cbn; split; eauto; try intros (? & ?); discriminate. Qed.
Lemma traced_tt {E} (x : checked unit E) m : traced x m = Ok tt <-> x = Ok tt.
Proof. destruct x as [[]|]; cbn; split; congruence. Qed.
Lemma traced_ex {A E} (x : checked A E) m a : traced x m = Ok a <-> x = Ok a.
Proof. destruct x; cbn; split; congruence. Qed.
Lemma also_tt {A} (x : valid A) (y : valid unit) : also x y = Ok tt <-> (exists a, x = Ok a) /\ y = Ok tt.
Proof. destruct x, y as [[]|]; cbn; split; try intros ((? & ?) & ?); try split; eauto; congruence. Qed.
Lemma unit_ok (x : valid unit) : (exists b, x = Ok b) <-> x = Ok tt.
Proof. split; [intros ([] & H)|]; eauto. Qed.

Section Check.
  Variable c : config.

  Lemma leads_inv t n p gs : leads c t (n :: p) gs ->
    exists f gs', oget scmp n (t_fields t) = Some f /\ gs = f :: gs' /\
      ((p = [] /\ gs' = []) \/ exists t', find_type c (type_name (f_type f)) = Some t' /\ leads c t' p gs').
  Proof. intros H; inversion H; subst; eauto 10. Qed.
  Lemma leads_nil t gs : ~ leads c t [] gs.
  Proof. intros H; inversion H. Qed.
  Lemma last_cons (f : field) fs g gs : fs ++ [g] = f :: gs -> (gs = [] /\ fs = [] /\ g = f) \/ exists fs', fs = f :: fs' /\ gs = fs' ++ [g].
  Proof. destruct fs; cbn; intros E; injection E as -> <-; eauto. Qed.

  Lemma validate_type_ok t parts q : parts <> [] -> forall seen,
    (validate_type c t seen parts q = Ok tt <->
     exists fs f, leads c t parts (fs ++ [f]) /\ built_in (type_name (f_type f)) /\
       (q = false -> Forall (fun g => required (f_type g)) (fs ++ [f]))).
  Proof.
    revert t. induction parts as [|n p IH]; intros t Hp seen; [congruence|]. cbn.
    destruct (oget scmp n (t_fields t)) as [f|] eqn:F.
    2: { split; [discriminate|]. intros (fs & g & L & _). apply leads_inv in L. destruct L as (? & ? & E & _). congruence. }
    assert (N : negb q && is_nullable (f_type f) = false <-> (q = false -> required (f_type f))).
    { destruct q; cbn; [split; auto; discriminate|]. rewrite nullable_iff. tauto. }
    destruct (negb q && is_nullable (f_type f)).
    { split; [discriminate|]. intros (fs & g & L & B & R). exfalso.
      assert (true = false); [|discriminate]. apply N. intros Q. specialize (R Q).
      apply leads_inv in L. destruct L as (f' & gs & E & G & _). rewrite G in R. inversion R; subst. congruence. }
    destruct p as [|n' p].
    - destruct (BuilderModel.is_predefined (type_name (f_type f))) eqn:P; cbn.
      + split; auto. intros _. exists [], f. split; [constructor; auto|]. split; [apply predefined_iff; auto|].
        intros Q. repeat constructor. apply N; auto.
      + split; [discriminate|]. intros (fs & g & L & B & R). exfalso.
        apply predefined_iff in B. apply leads_inv in L. destruct L as (f' & gs & E & G & [(_ & ->)|(t' & _ & L)]).
        * destruct (last_cons _ _ _ _ G) as [(_ & _ & ->)|(fs' & _ & X)]; [congruence|]. destruct fs'; discriminate.
        * apply leads_nil in L. auto.
    - set (rest := n' :: p) in *.
      destruct (find_type c (type_name (f_type f))) as [t'|] eqn:T.
      + rewrite (IH t' ltac:(discriminate)). split.
        * intros (fs & g & L & B & R). exists (f :: fs), g. split; [econstructor; eauto|]. split; auto.
          intros Q. constructor; auto. apply N; auto.
        * intros (fs & g & L & B & R). apply leads_inv in L. destruct L as (f' & gs & E & G & [(X & _)|(t2 & T2 & L)]); [discriminate|].
          assert (f' = f) by congruence. subst f'. assert (t2 = t') by congruence. subst t2.
          destruct (last_cons _ _ _ _ G) as [(-> & _ & _)|(fs' & -> & ->)].
          { inversion L. }
          exists fs', g. split; auto. split; auto. intros Q. specialize (R Q). inversion R; auto.
      + split; [discriminate|]. intros (fs & g & L & B & R). apply leads_inv in L.
        destruct L as (f' & gs & E & G & [(X & _)|(t2 & T2 & L)]); [discriminate|]. congruence.
  Qed.

  Lemma validate_ok t args parts q : validate c t args parts q = Ok tt <-> sensible c t args (negb q) parts.
  Proof.
    unfold validate. destruct parts as [|h [|n rest]].
    { split; [discriminate|intros H; inversion H]. }
    { split; [discriminate|]. intros H; inversion H as [p0 fs f L B R| | | |]; subst. inversion L. }
    destruct (String.eqb_spec h "value"); [subst h|].
    { rewrite validate_type_ok by discriminate. split.
      - intros (fs & f & L & B & R). econstructor; eauto. intros Q. apply R. destruct q; auto; discriminate.
      - intros H. inversion H; subst. exists fs, f. split; auto. split; auto. intros ->; auto. }
    destruct (String.eqb_spec h "args"); [subst h|].
    { destruct (aget n args) as [a|] eqn:A.
      2: { split; [discriminate|intros H; inversion H; subst; congruence]. }
      destruct q; cbn.
      - split; auto. intros _. econstructor; eauto. discriminate.
      - destruct (is_list (arg_type a)) eqn:Li.
        { split; [discriminate|]. intros H; inversion H as [|n9 a0 p9 A0 S0| | |]; subst. assert (a0 = a) by congruence. subst.
          destruct (S0 eq_refl) as (K & _). apply is_list_iff in K. congruence. }
        apply is_list_iff in Li.
        destruct (arg_default a) eqn:D; cbn.
        + split; auto. intros _. econstructor; eauto. intros _. split; auto. left. congruence.
        + destruct (is_nullable (arg_type a)) eqn:N.
          * split; [discriminate|]. intros H; inversion H as [|n9 a0 p9 A0 S0| | |]; subst. assert (a0 = a) by congruence. subst.
            destruct (S0 eq_refl) as (_ & [K|K]); [congruence|]. apply nullable_iff in K. congruence.
          * split; auto. intros _. econstructor; eauto. intros _. split; auto. right. apply nullable_iff; auto. }
    destruct (String.eqb_spec h "vars"); [subst h|].
    { destruct (existsb _ _) eqn:E.
      - apply existsb_exists in E. destruct E as ((k & v) & I & E). cbn in E. apply String.eqb_eq in E. subst k.
        split; auto. intros _. econstructor; eauto.
      - split; [discriminate|]. intros H; inversion H; subst.
        assert (X : existsb (fun kv => fst kv =? n) (s_vars (c_server c)) = true); [|congruence].
        apply existsb_exists. exists (n, v). split; auto. apply String.eqb_refl. }
    destruct (String.eqb_spec h "headers"); [subst h|].
    { cbn. split; auto. intros _. constructor. }
    destruct (String.eqb_spec h "env"); [subst h|]; cbn.
    { split; auto. intros _. constructor. }
    split; [discriminate|]. intros H; inversion H; congruence.
  Qed.

  Lemma in_expressions p m : In p (expression_segments m) <-> In (Expression p) m.
  Proof.
    unfold expression_segments. rewrite in_flat_map. split.
    - intros ([s|q] & I & J); [destruct J|]. destruct J as [->|[]]. auto.
    - intros I. exists (Expression p). cbn. auto.
  Qed.
  Lemma validate_template_ok t args m q name :
    validate_template c t args m q name = Ok tt <-> forall p, In (Expression p) m -> sensible c t args (negb q) p.
  Proof.
    unfold validate_template. rewrite rmap_tt, all_checked_unit. split.
    - intros H p I. apply in_expressions in I. destruct (H p I) as ([] & E). apply traced_tt in E. apply validate_ok; auto.
    - intros H p I. apply in_expressions in I. exists tt. apply traced_tt. apply validate_ok. auto.
  Qed.
  Lemma validate_templates_ok t args l name :
    validate_templates c t args l name = Ok tt <->
    forall m p, In m l -> In (Expression p) m -> sensible c t args false p.
  Proof.
    unfold validate_templates. rewrite rmap_tt, all_checked_unit. split.
    - intros H m p I J. destruct (H m I) as ([] & E). rewrite validate_template_ok in E. apply (E p); auto.
    - intros H m I. exists tt. apply validate_template_ok. intros p J. apply (H m); auto.
  Qed.

  Lemma in_map_snd {A B} (b : B) (l : list (A * B)) : In b (map snd l) <-> exists a, In (a, b) l.
  Proof.
    rewrite in_map_iff. split; [intros ((a & b') & <- & I); eauto|intros (a & I); exists (a, b); auto].
  Qed.
  Lemma and_then_tt {A} (x : valid A) (k : A -> valid unit) :
    and_then x k = Ok tt <-> exists a, x = Ok a /\ k a = Ok tt.
  Proof.
    destruct x; cbn; split; eauto; try (intros (? & ? & ?); congruence). discriminate.
  Qed.

  Section Ind.
    Variable P : ir io -> Prop.
    Hypothesis step : forall e, (forall l, e = IMerge l -> forall x, In x l -> P x) -> P e.
    Fixpoint merge_ind (e : ir io) : P e.
    Proof.
      apply step. destruct e as [| | | | | | | |l| | |]; intros l' E; try discriminate.
      assert (A : Forall P l).
      { clear E. induction l as [|x l IH]; constructor; [apply merge_ind|apply IH]. }
      injection E as <-. apply Forall_forall. exact A.
    Qed.
  End Ind.

  Lemma validate_resolver_ok t args : forall e,
    validate_resolver c t args e = Ok tt <->
    forall s m p, template_in e s m -> In (Expression p) m -> sensible c t args s p.
  Proof.
    apply merge_ind. intros e IH. destruct e as [|i| | | | | | |l| | |]; cbn [validate_resolver];
      try (split; auto; intros _ s1 m1 p1 H1; inversion H1; fail).
    - destruct i as [r g l d|r|r|n].
      + rewrite traced_tt, also_tt, unit_ok, validate_template_ok, validate_templates_ok. split.
        * intros (A & B) s m p T I. inversion T; subst; [apply A; auto|].
          apply (B (qy_value q)); auto. apply in_map. auto.
        * intros H. split.
          -- intros p I. apply (H true (t_root r)); auto. constructor.
          -- intros m p I J. apply in_map_iff in I. destruct I as (q & <- & I). apply (H false (qy_value q)); auto. constructor; auto.
      + rewrite traced_tt, and_then_tt. split.
        * intros ([] & A & B) s m p T I. rewrite validate_templates_ok in A. inversion T; subst.
          -- apply (A m); auto. apply in_map_snd. eauto.
          -- match goal with X : gt_args r = Some _ |- _ => rewrite X in B end. rewrite validate_templates_ok in B. apply (B m); auto. apply in_map_snd. eauto.
        * intros H. exists tt. split.
          -- apply validate_templates_ok. intros m p I J. apply in_map_snd in I. destruct I as (n & I).
             apply (H false m); auto. econstructor; eauto.
          -- destruct (gt_args r) as [l|] eqn:G; auto. apply validate_templates_ok. intros m p I J.
             apply in_map_snd in I. destruct I as (n & I). apply (H false m); auto. eapply in_graphql_arg; eauto.
      + rewrite traced_tt, and_then_tt. split.
        * intros ([] & A & B) s m p T I. rewrite also_tt, unit_ok in A. destruct A as (A1 & A2).
          rewrite validate_template_ok in A1. rewrite validate_templates_ok in A2. inversion T; subst.
          -- apply A1; auto.
          -- apply (A2 m); auto. apply in_map_snd. eauto.
          -- match goal with X : g_body r = Some _ |- _ => rewrite X in B end. rewrite validate_template_ok in B. apply (B p); auto.
        * intros H. exists tt. split.
          -- rewrite also_tt, unit_ok. split.
             ++ apply validate_template_ok. intros p I. apply (H true (g_url r)); auto. constructor.
             ++ apply validate_templates_ok. intros m p I J. apply in_map_snd in I. destruct I as (n & I).
                apply (H false m); auto. econstructor; eauto.
          -- destruct (g_body r) as [m|] eqn:G; auto. apply validate_template_ok. intros p I. apply (H false m); auto. constructor; auto.
      + split; auto. intros _ s m p H; inversion H.
    - etransitivity; [apply (rmap_tt (A := list unit))|].
      assert (X : forall k, (forall x, In x k -> In x l) ->
        ((exists r, (fix go (l0 : list (ir io)) : valid (list unit) :=
                match l0 with
                | [] => Ok []
                | e :: rest =>
                    match validate_resolver c t args e, go rest with
                    | Ok b, Ok bs => Ok (b :: bs)
                    | Ok _, Err e => Err e
                    | Err e, Ok _ => Err e
                    | Err e, Err e' => Err (e ++ e')
                    end
                end) k = Ok r) <->
         forall x, In x k -> forall s m p, template_in x s m -> In (Expression p) m -> sensible c t args s p)).
      { induction k as [|x k IHk]; intros Hk.
        - split; [intros _ x []|intros _; eauto].
        - specialize (IHk (fun y I => Hk y (or_intror I))).
          pose proof (IH l eq_refl x (Hk x (or_introl eq_refl))) as IHx.
          split.
          + intros (r & E). destruct (validate_resolver c t args x) as [[]|] eqn:V.
            2: { match goal with H : match ?g with _ => _ end = Ok r |- _ => destruct g; discriminate end. }
            match type of E with match ?g with _ => _ end = _ => destruct g eqn:G; [|discriminate] end.
            intros y [<-|I]; [apply IHx; auto|]. apply IHk; eauto.
          + intros H. rewrite (proj2 IHx) by (apply H; left; auto).
            destruct (proj2 IHk) as (r & ->). { intros y I. apply H. right; auto. } eauto. }
      etransitivity; [apply (X l (fun _ I => I))|]. split.
      + intros H s m p T I. inversion T; subst. apply (H e) with (m := m); auto.
      + intros H x I s m p T J. apply (H s m p); auto. econstructor; eauto.
  Qed.
  Lemma validate_field_ok t d : validate_field c t d = Ok tt <->
    forall e s m p, d_resolver d = Some e -> template_in e s m -> In (Expression p) m -> sensible c t (d_args d) s p.
  Proof.
    unfold validate_field. destruct (d_resolver d) as [e|] eqn:E.
    - rewrite validate_resolver_ok. split.
      + intros H e' s m p E'. injection E' as <-. apply H.
      + intros H s m p. apply (H e s m p eq_refl).
    - split; auto. intros _ e s m p X. discriminate.
  Qed.
End Check.

(** * At run time *)
Section Run.
  Variable c : config.

  Lemma fits_type n t v : find_type c n = Some t -> t_fields t <> [] -> fits c (TNamed n true) v ->
    exists m, v = VObj m /\
      (forall k f w, oget scmp k (t_fields t) = Some f -> f_resolvers f = [] -> aget k m = Some w -> fits c (f_type f) w) /\
      (forall k f, oget scmp k (t_fields t) = Some f -> f_resolvers f = [] -> required (f_type f) -> aget k m <> None).
  Proof.
    intros T N H. inversion H as [t1 Q| | | | |]; subst; try congruence.
    all: try (destruct Q; reflexivity).
    exists m. assert (t0 = t) by congruence. subst t0. auto.
  Qed.

  Lemma value_reached t p gs : leads c t p gs -> forall n v,
    find_type c n = Some t -> fits c (TNamed n true) v ->
    (forall g, In g gs -> required (f_type g)) -> (forall g, In g gs -> f_resolvers g = []) ->
    (forall hs f, gs = hs ++ [f] -> forall g, In g hs -> ~ a_list (f_type g)) ->
    forall hs f, gs = hs ++ [f] -> exists w, reaches v p w /\ fits c (f_type f) w.
  Proof.
    induction 1 as [t k f F|t k f t' p fs F T L IH]; intros n v Tn V R O NL hs f' E.
    - assert (hs = [] /\ f' = f) as (-> & ->).
      { destruct hs as [|a [|b hs]]; cbn in E; injection E; auto; intros; discriminate. }
      destruct (fits_type n t v Tn) as (m & -> & A & B); auto. { intros X. rewrite X in F. discriminate. }
      destruct (aget k m) as [w|] eqn:G.
      + exists w. split; [econstructor; eauto; constructor|]. apply (A k f w); auto. apply O. left; auto.
      + exfalso. apply (B k f); auto. apply O; left; auto. apply R; left; auto.
    - destruct (fits_type n t v Tn) as (m & -> & A & B); auto. { intros X. rewrite X in F. discriminate. }
      assert (Ro : f_resolvers f = []) by (apply O; left; auto).
      assert (Rf : required (f_type f)) by (apply R; left; auto).
      destruct (aget k m) as [w|] eqn:G; [|exfalso; apply (B k f); auto].
      destruct hs as [|h hs].
      { injection E as -> ->. inversion L. }
      injection E as <- E.
      assert (Nl : ~ a_list (f_type f)) by (apply (NL (f :: hs) f'); [cbn; congruence|left; auto]).
      assert (W : fits c (f_type f) w) by (apply (A k f w); auto).
      destruct (f_type f) as [fn b|u b] eqn:Ft; [|destruct Nl; exists u, b; auto]. cbn in Rf. subst b. cbn in T.
      destruct (IH fn w) with (hs := hs) (f := f') as (z & Z & Y); auto.
      + intros g I. apply R. right; auto.
      + intros g I. apply O. right; auto.
      + intros hs' g' E' g I. apply (NL (f :: hs') g'); [cbn; congruence|right; auto].
      + exists z. split; auto. econstructor; eauto.
  Qed.

  Lemma fits_required t v : required t -> fits c t v -> v <> VNull.
  Proof. intros R H. inversion H; subst; try congruence; contradiction. Qed.
  Lemma fits_built_in t v s : built_in (type_name t) -> fits c t v -> v <> VEnum s.
  Proof. intros B H. inversion H; subst; cbn in *; try congruence; auto; try contradiction. Qed.
  Lemma has_text rx v : v <> VNull -> exists s, spelled rx v s.
  Proof. destruct v as [|[]| | | | |]; intros H; try congruence; eexists; constructor. Qed.
  Lemma borrowed_text rx v : v <> VNull -> exists s, convert_value rx (Borrowed v) = Some s.
  Proof. destruct v as [|[]| | | | |]; intros H; try congruence; cbn; eauto. Qed.

  Lemma sensible_stands t tn args rx x p : find_type c tn = Some t -> fitting c tn args rx x ->
    sensible c t args true p -> settled c t rx p -> exists s, path_string rx x p = Some s.
  Proof.
    intros T F S D. inversion S as [q fs f L B R|n a q A R|n v q I|n q|n q]; subst.
    - inversion D as [q' O| | | |]; subst.
      specialize (R eq_refl). rewrite Forall_forall in R.
      destruct (has_parent _ _ _ _ _ F) as (v & P).
      destruct (O _ L) as (O1 & O2).
      destruct (value_reached t q (fs ++ [f]) L tn v T (parent_fits _ _ _ _ _ F v P) R O1 O2 fs f eq_refl) as (w & Z & W).
      assert (Rf : required (f_type f)) by (apply R, in_app_iff; right; left; auto).
      destruct (has_text rx w (fits_required _ _ Rf W)) as (s & Sp).
      exists s. apply path_string_complete.
      + eapply stands_value; eauto. econstructor; eauto.
      + intros n De. exfalso. inversion De as [q1 v1 w1 P1 Z1|q1 v1 w1 P1 Z1]; subst.
        assert (v1 = v). { inversion P1; inversion P; congruence. } subst v1.
        apply get_path_value_spec in Z1. apply get_path_value_spec in Z.
        apply (fits_built_in (f_type f) w n B W). congruence.
    - inversion D; subst. destruct (args_fit _ _ _ _ _ F) as (l & Al & A1 & A2). pose proof (own_args _ _ _ _ _ F) as Ov.
      destruct (R eq_refl) as (_ & K).
      destruct (aget n l) as [v|] eqn:G; [|exfalso; apply (A2 n a); auto].
      destruct (A1 n a v A G) as (Fi & Nn).
      assert (NV : v <> VNull). { destruct K; [auto|]. apply (fits_required (arg_type a)); auto. }
      destruct (borrowed_text rx v NV) as (s & E). exists s.
      unfold path_string, to_raw_value. change ("args" =? "value") with false. change ("args" =? "args") with true. cbv iota.
      unfold path_arg. rewrite Ov, Al, G. exact E.
    - destruct (vars_set _ _ _ _ _ F n v I) as (s & E). exists s. unfold path_string. cbn. rewrite E. reflexivity.
    - inversion D as [| | |n1 q1 s X|n1 q1 s X]; subst. exists s. unfold path_string. cbn. rewrite X. reflexivity.
    - inversion D as [| | |n1 q1 s X|n1 q1 s X]; subst. exists s. unfold path_string. cbn. rewrite X. reflexivity.
  Qed.

  Lemma render_completed rx x m : (forall p, In (Expression p) m -> exists s, path_string rx x p = Some s) ->
    completed rx x m (render (path_string rx x) m).
  Proof.
    intros H. assert (R : rendered (path_string rx x) m (render (path_string rx x) m)) by (apply render_rendered; auto).
    revert H. induction R as [|t segs s R IH|p v segs s E R IH|p segs s E R IH]; intros H.
    - constructor.
    - constructor. apply IH. intros p I. apply H. right; auto.
    - constructor; [apply path_string_sound; auto|]. apply IH. intros q I. apply H. right; auto.
    - destruct (H p (or_introl eq_refl)). congruence.
  Qed.
  Lemma urls_completed t tn d e m rx x : find_type c tn = Some t -> validate_field c t d = Ok tt ->
    d_resolver d = Some e -> template_in e true m -> (forall p, In (Expression p) m -> settled c t rx p) ->
    fitting c tn (d_args d) rx x -> completed rx x m (render (path_string rx x) m).
  Proof.
    intros T V E I S F. apply render_completed. intros p J.
    apply (sensible_stands t tn (d_args d)); auto.
    apply (proj1 (validate_field_ok c t d) V e true m p); auto.
  Qed.
End Run.

(** * [@http] *)
Lemma prefix_app p s : prefix p s = true <-> exists t, s = (p ++ t)%string.
Proof.
  revert s. induction p as [|c p IH]; intros s.
  - split; [intros _; now exists s|intros _; now destruct s].
  - destruct s as [|d s]; [split; [discriminate|intros (t & E); discriminate]|].
    change (prefix (String c p) (String d s)) with (if ascii_dec c d then prefix p s else false). destruct (ascii_dec c d) as [->|N].
    + rewrite IH. split; intros (t & E); exists t; cbn in *; congruence.
    + split; [discriminate|]. intros (t & E). cbn in E. congruence.
Qed.
Section Http.
  Variable c : config.

  Lemma path_validator_ok : forall p n, path_validator c p n = Ok tt <-> ends_in_scalar c n p.
  Proof.
    induction p as [|k p IH]; intros n; cbn; destruct (find_type c n) as [t|] eqn:T.
    - split; [discriminate|]. intros H; inversion H; congruence.
    - destruct (BuilderModel.is_predefined n) eqn:P; cbn.
      { split; auto. intros _. constructor; auto. left. apply predefined_iff; auto. }
      destruct (find_enum c n) eqn:E.
      { split; auto. intros _. constructor; auto. right; congruence. }
      split; [discriminate|]. intros H; inversion H; subst; try congruence.
      match goal with B : built_in n \/ _ |- _ => destruct B as [B|B]; [apply predefined_iff in B|]; congruence end.
    - destruct (oget scmp k (t_fields t)) as [f|] eqn:F.
      + rewrite IH. split; [intros H; eapply ends_later; eauto|].
        intros K; inversion K; subst; congruence.
      + split; [discriminate|]. intros H; inversion H; congruence.
    - destruct (BuilderModel.is_predefined n) eqn:P; cbn.
      { split; auto. intros _. constructor; auto. left. apply predefined_iff; auto. }
      destruct (find_enum c n) eqn:E.
      { split; auto. intros _. constructor; auto. right; congruence. }
      split; [discriminate|]. intros H; inversion H; subst; try congruence.
      match goal with B : built_in n \/ _ |- _ => destruct B as [B|B]; [apply predefined_iff in B|]; congruence end.
  Qed.

  Lemma occurs_iff pat s : occurs pat s = true <-> exists a b, s = (a ++ pat ++ b)%string.
  Proof.
    induction s as [|x s IH]; cbn [occurs].
    - rewrite orb_false_r, prefix_app. split.
      + intros (b & E). exists "", b. auto.
      + intros (a & b & E). destruct a; [exists b; auto|discriminate].
    - rewrite orb_true_iff, IH, prefix_app. split.
      + intros [(b & E)|(a & b & ->)]; [exists "", b; auto|exists (String x a), b; auto].
      + intros ([|y a] & b & E); [left; exists b; auto|]. injection E as <- ->. right. eauto.
  Qed.
  Lemma validate_argument_ok m f : validate_argument c m f = Ok tt <->
    forall p, In (Expression p) m -> args_exist c f p.
  Proof.
    unfold validate_argument. rewrite rmap_tt, all_checked_unit. split.
    - intros H p I h rest -> M. specialize (H _ I). cbn in H. rewrite (proj2 (occurs_iff "args" h) M) in H.
      destruct rest as [|n path]; [destruct H; discriminate|].
      destruct (oget scmp n (f_args f)) as [a|] eqn:A.
      + exists n, path, a. split; auto. split; auto. apply path_validator_ok. destruct H as ([] & H). rewrite traced_tt in H. auto.
      + destruct H; discriminate.
    - intros H [s|[|h rest]] I; try (exists tt; reflexivity).
      destruct (occurs "args" h) eqn:O; [|exists tt; reflexivity].
      destruct (H _ I h rest eq_refl (proj1 (occurs_iff _ _) O)) as (n & path & a & -> & A & E).
      rewrite A. exists tt. apply traced_tt. apply path_validator_ok. auto.
  Qed.

  Lemma const_iff m : mustache_is_const m = true <-> ~ exists p, In (Expression p) m.
  Proof.
    induction m as [|[s|p] m IH]; cbn.
    - split; auto. intros _ (p & []).
    - rewrite IH. split; intros H (p & I); apply H; [destruct I; [discriminate|]|]; eauto.
    - split; [discriminate|]. intros H. destruct H. eauto.
  Qed.
  Lemma dynamic_iff s : mustache_is_const (parse s) = false <-> dynamic_text s.
  Proof.
    unfold dynamic_text. destruct (mustache_is_const (parse s)) eqn:E.
    - apply const_iff in E. split; [discriminate|]. intros H; contradiction.
    - split; auto. intros _. clear -E. induction (parse s) as [|[t|p] m IH]; cbn in *; try discriminate.
      + destruct (IH E) as (p & I). eauto.
      + eauto.
  Qed.

  Definition count (l : list string) : nat := length (filter (fun s => negb (mustache_is_const (parse s))) l).
  Lemma count_app a b : count (a ++ b) = count a + count b.
  Proof. unfold count. rewrite filter_app, app_length. reflexivity. Qed.
  Lemma count_flat {A} (f : A -> nat) (g : A -> list string) l :
    (forall a, In a l -> f a = count (g a)) -> list_sum (map f l) = count (flat_map g l).
  Proof.
    induction l as [|a l IH]; intros H; [reflexivity|]. cbn [flat_map map].
    change (list_sum (f a :: map f l)) with (f a + list_sum (map f l)).
    rewrite count_app, (H a) by (left; auto). rewrite IH; auto. intros x I. apply H. right; auto.
  Qed.
  Lemma count_dynamic v : count_dynamic_paths v = count (texts_in v).
  Proof.
    induction v as [| | | s| |l IH|m IH] using value_ind'; cbn [count_dynamic_paths texts_in]; auto.
    - unfold count. cbn. destruct (mustache_is_const (parse s)); auto.
    - apply count_flat. rewrite Forall_forall in IH. auto.
    - apply count_flat. rewrite Forall_forall in IH. auto.
  Qed.
  Lemma count_zero l : count l = 0 <-> forall s, In s l -> ~ dynamic_text s.
  Proof.
    unfold count. induction l as [|a l IH]; cbn.
    - split; auto. 
    - destruct (mustache_is_const (parse a)) eqn:E; cbn.
      + rewrite IH. split; [intros H s [<-|I]; auto; intros D; apply dynamic_iff in D; congruence|auto].
      + split; [discriminate|]. intros H. apply dynamic_iff in E. exfalso. apply (H a); auto.
  Qed.
  Lemma count_one l : count l = 1 <-> exists before s after, l = before ++ s :: after /\ dynamic_text s /\
    forall s', In s' (before ++ after) -> ~ dynamic_text s'.
  Proof.
    split.
    - induction l as [|a l IH]; [discriminate|].
      change (count (a :: l)) with (count ([a] ++ l)). rewrite count_app.
      destruct (mustache_is_const (parse a)) eqn:E.
      + assert (Z : count [a] = 0) by (unfold count; cbn; rewrite E; auto). rewrite Z. cbn. intros H.
        destruct (IH H) as (b & s & d & -> & D & N). exists (a :: b), s, d. split; auto. split; auto.
        cbn. intros s' [<-|I]; auto. intros X. apply dynamic_iff in X. congruence.
      + assert (Z : count [a] = 1) by (unfold count; cbn; rewrite E; auto). rewrite Z. intros H.
        exists [], a, l. split; auto. split; [apply dynamic_iff; auto|]. cbn [app]. apply count_zero. lia.
    - intros (b & s & d & -> & D & N). rewrite count_app. change (count (s :: d)) with (count ([s] ++ d)).
      rewrite count_app. apply dynamic_iff in D.
      assert (Z : count [s] = 1) by (unfold count; cbn; rewrite D; auto). rewrite Z.
      rewrite (proj2 (count_zero b)), (proj2 (count_zero d)); auto; intros s' I; apply N, in_app_iff; auto.
  Qed.

  Variable header_name : string -> option string.
  Variable json_text : value -> string.

  Lemma headers_ok l : (exists hs, to_mustache_headers header_name l = Ok hs) <-> forall k v, In (k, v) l -> header_name k <> None.
  Proof.
    unfold to_mustache_headers. rewrite all_checked_unit. split.
    - intros H k v I. destruct (H _ I) as (b & E). cbn in E. destruct (header_name k); [discriminate|discriminate].
    - intros H (k & v) I. cbn. specialize (H k v I). destruct (header_name k); [eauto|congruence].
  Qed.
  Lemma headers_same l hs : to_mustache_headers header_name l = Ok hs ->
    Forall2 (fun k m => header_name (fst k) = Some (fst m) /\ snd m = parse (snd k)) l hs.
  Proof.
    unfold to_mustache_headers. revert hs. induction l as [|(k & v) l IH]; cbn; intros hs H.
    - injection H as <-. constructor.
    - destruct (header_name k) eqn:K.
      + destruct (all_checked _ l); [|discriminate]. injection H as <-. constructor; auto.
      + cbn in H. destruct (all_checked _ l); discriminate.
  Qed.
  Lemma when_tt e b : when e b = Ok tt <-> b = false.
  Proof. destruct b; unfold when, fail; split; congruence. Qed.

  Lemma batching_iff : ((get_delay c <? 1) || (get_max_size c <? 1))%Z = false <-> batching_on c.
  Proof.
    unfold get_delay, get_max_size, batching_on. destruct (up_batch (c_upstream c)) as [b|].
    - rewrite orb_false_iff, !Z.ltb_ge. destruct (b_max_size b) as [n|] eqn:M.
      + split; [intros (A & B); exists b; split; auto; split; auto; intros n' E; congruence|].
        intros (b' & E & A & B). injection E as <-. split; auto.
      + split; [intros (A & B); exists b; split; auto; split; auto; intros n' E; congruence|].
        intros (b' & E & A & B). injection E as <-. split; auto. lia.
    - cbn. split; [discriminate|]. intros (b' & E & _). discriminate.
  Qed.
  Lemma is_empty_iff {A} (l : list A) : is_empty l = true <-> l = [].
  Proof. destruct l; cbn; split; congruence. Qed.
  Lemma is_none_iff {A} (o : option A) : is_none o = true <-> o = None.
  Proof. destruct o; cbn; split; congruence. Qed.

  Lemma compile_exact h f e : compile_http c header_name json_text h f = Ok e <->
    acceptable c header_name h f /\
    exists hs, to_mustache_headers header_name (ht_headers h) = Ok hs /\
      e = apply_select (IIO (IoHttp (template_of json_text h hs) (group_of h) (is_list (f_type f)) (ht_dedupe h))) (ht_select h).
  Proof.
    unfold compile_http.
    set (Q := traced _ "query").
    assert (HQ : Q = Ok tt <-> forall k v s p, In (k, v, s) (ht_query h) -> In (Expression p) (parse v) -> args_exist c f p).
    { unfold Q. rewrite traced_tt, rmap_tt, all_checked_unit. split.
      - intros H k v s p I. destruct (H _ I) as ([] & E). cbn in E. rewrite validate_argument_ok in E. apply E.
      - intros H ((k & v) & s) I. exists tt. cbn. apply validate_argument_ok. eauto. }
    set (W1 := when _ _). set (W2 := when _ (_ && (_ && _))).
    set (BL := negb (is_empty (ht_batch_key h)) && (negb (is_none (ht_body h)) || negb (ht_method h =? "GET")%string)).
    assert (E1 : is_empty (ht_batch_key h) = true \/ is_empty (ht_batch_key h) = false) by (destruct is_empty; auto).
    assert (X : (acceptable c header_name h f) <->
      (W1 = Ok tt /\ Q = Ok tt /\ W2 = Ok tt /\ (exists hs, to_mustache_headers header_name (ht_headers h) = Ok hs) /\
       (BL = true -> exists b, ht_body h = Some b /\ count_dynamic_paths b = 1))).
    { unfold W1, W2, BL. rewrite !when_tt, HQ, headers_ok.
      assert (O : forall b, count_dynamic_paths b = 1 <-> one_dynamic_text b).
      { intros b. rewrite count_dynamic. apply count_one. }
      destruct (is_empty (ht_batch_key h)) eqn:E; cbn [negb andb].
      - apply is_empty_iff in E. rewrite andb_false_r. split.
        + intros [A B D]. repeat split; auto; discriminate.
        + intros (_ & A & _ & B & _). split; auto. congruence.
      - assert (N : ht_batch_key h <> []). { intros Z. apply is_empty_iff in Z. congruence. }
        rewrite andb_true_r, batching_iff. split.
        + intros [A B D]. destruct (D N) as (D1 & D2 & D3). split; auto. split; auto. split; [|split; auto].
          * apply andb_false_iff. destruct D2 as [D2|D2]; [left; destruct (ht_body h); cbn; congruence|].
            right. destruct (ht_query h); cbn; congruence.
          * intros K. destruct D3 as (b & Eb & Ob).
            { apply orb_true_iff in K. destruct K as [K|K]; [left; destruct (ht_body h); cbn in K; congruence|].
              right. intros Z. rewrite Z in K. discriminate. }
            exists b. split; auto. apply O; auto.
        + intros (A1 & A2 & A3 & A4 & A5). split; auto. intros _. split; auto. split.
          * apply andb_false_iff in A3. destruct A3 as [A3|A3]; [left; destruct (ht_body h); cbn in A3; congruence|].
            right. destruct (ht_query h); cbn in A3; congruence.
          * intros K. destruct A5 as (b & Eb & Ob).
            { apply orb_true_iff. destruct K as [K|K]; [left; destruct (ht_body h); cbn; congruence|].
              right. destruct (String.eqb_spec (ht_method h) "GET"); cbn; congruence. }
            exists b. split; auto. apply O; auto. }
    rewrite X. clear X HQ.
    destruct W1 as [[]|], Q as [[]|], W2 as [[]|]; cbn [also];
      try (split; [destruct (to_mustache_headers header_name (ht_headers h)); discriminate
                  |intros ((A1 & A2 & A3 & _) & _); first [discriminate A1|discriminate A2|discriminate A3]]).
    destruct (to_mustache_headers header_name (ht_headers h)) as [hs|]; cbn [and_then rbind].
    2: { split; [discriminate|intros (_ & ? & ? & _); congruence]. }
    assert (Y : forall x : valid unit,
      (x = Ok tt <-> (BL = true -> exists b, ht_body h = Some b /\ count_dynamic_paths b = 1)) ->
      (and_then x (fun _ => Ok (apply_select (IIO (IoHttp (template_of json_text h hs) (group_of h) (is_list (f_type f)) (ht_dedupe h))) (ht_select h))) = Ok e <->
      (Ok tt = (Ok tt : valid unit) /\ Ok tt = (Ok tt : valid unit) /\ Ok tt = (Ok tt : valid unit) /\
       (exists hs0, Ok hs = (Ok hs0 : valid (list (string * mustache)))) /\ (BL = true -> exists b, ht_body h = Some b /\ count_dynamic_paths b = 1)) /\
      exists hs0, Ok hs = (Ok hs0 : valid (list (string * mustache))) /\
        e = apply_select (IIO (IoHttp (template_of json_text h hs0) (group_of h) (is_list (f_type f)) (ht_dedupe h))) (ht_select h))).
    { intros x Hx. destruct x as [[]|es]; cbn [and_then rbind].
      - split.
        + intros E. injection E as <-. split; [|eauto]. repeat split; eauto. apply Hx; auto.
        + intros (_ & hs0 & E & ->). injection E as <-. reflexivity.
      - split; [discriminate|]. intros ((_ & _ & _ & _ & K) & _). apply Hx in K. discriminate. }
    apply Y. clear Y. fold BL. destruct BL.
    - destruct (ht_body h) as [b|]; cbn.
      + destruct (Nat.eqb_spec (count_dynamic_paths b) 1); cbn.
        * split; eauto.
        * split; [discriminate|]. intros K. destruct (K eq_refl) as (b' & Eb & ?). congruence.
      + split; [discriminate|]. intros K. destruct (K eq_refl) as (b' & Eb & ?). congruence.
    - split; auto. intros _ K. discriminate.
  Qed.

  Lemma template_describes h hs : to_mustache_headers header_name (ht_headers h) = Ok hs ->
    describes header_name json_text h (template_of json_text h hs).
  Proof.
    intros H. split; cbn; auto.
    - induction (ht_query h) as [|((k & v) & s) l IH]; cbn; constructor; auto.
    - apply headers_same; auto.
    - destruct (ht_body h); auto.
  Qed.
End Http.

Section Select.
  Variable rx : req_ext.
  Variable answer : value.
  Variable x : ctx.

  Lemma arg_path p w : reaches answer p w -> to_raw_value rx (with_args answer x) ("args" :: p) = Some (RawValue (Owned w)).
  Proof.
    intros R. apply get_path_value_spec in R.
    assert (P : path_arg (with_args answer x) p = Some (Owned w)). { unfold path_arg. cbn. rewrite R. reflexivity. }
    destruct p as [|k p]; cbn.
    - unfold path_arg in P |- *. cbn in *. injection R as ->. reflexivity.
    - unfold path_arg in P. cbn in P. unfold path_arg. cbn. rewrite P. reflexivity.
  Qed.
  Lemma part_read p w : reaches answer p w -> comes_through rx w ->
    render_value rx (DMustache [Expression ("args" :: p)]) (with_args answer x) = w.
  Proof.
    intros R T. cbn [render_value]. unfold render. cbn [map String.concat].
    assert (X : (match path_string rx (with_args answer x) ("args" :: p) with Some v => v | None => "" end)
                = match convert_value rx (Owned w) with Some v => v | None => "" end).
    { unfold path_string. rewrite (arg_path p w R). reflexivity. }
    rewrite X. clear X.
    destruct w as [|[]|n|s|s|l|m]; cbn [convert_value comes_through] in *; try contradiction; rewrite T; reflexivity.
  Qed.
  Lemma picked s w : picks rx answer s w -> render_value rx (prepend "args" (dynamic_of s)) (with_args answer x) = w.
  Proof.
    revert w. induction s as [|b|n|t|t|l IH|m IH] using value_ind'; intros w P; inversion P as [t1 D|t1 p w1 E R T|l1 l2 F|m1 m2 F| |b1|n1]; subst; try reflexivity.
    - cbn. replace (mustache_is_const (parse t)) with true; [reflexivity|].
      symmetry. apply const_iff. exact D.
    - cbn. rewrite E. cbn. apply (part_read p); auto.
    - cbn. f_equal. clear P. induction F as [|a b l l' Ha F IHF]; cbn; auto.
      inversion IH; subst. f_equal; auto.
    - cbn. f_equal. clear P. induction F as [|[ka a] [kb b] l l' [Hk Ha] F IHF]; cbn; auto.
      inversion IH; subst. cbn in *. subst. f_equal; auto. f_equal. auto.
  Qed.
End Select.

(** * Fields of a configuration *)
From Verif Require Import FieldProofs Field2Proofs.
Section Fields.
  Variable compile : string -> field -> resolver -> valid (option (ir io)).
  Variable m : cmodule.

  Lemma compiled_in object f : forall l rs r e, all_checked (compile object f) l = Ok rs -> In r l ->
    compile object f r = Ok (Some e) -> In (Some e) rs.
  Proof.
    intros l rs r e H. apply all_checked_ok in H. induction H as [|a b l rs Hab H IH]; intros I C; [contradiction|].
    destruct I as [->|I]; [left; congruence|right; auto].
  Qed.
  Lemma composed_in (rs : list (option (ir io))) e s tm : In (Some e) rs -> template_in e s tm ->
    exists e', composed rs = Some e' /\ template_in e' s tm.
  Proof.
    intros I T. destruct rs as [|a [|b rs]]; [contradiction| |].
    - destruct I as [->|[]]. exists e. auto.
    - eexists. split; [reflexivity|]. apply in_merge with e; [|exact T].
      apply in_flat_map. exists (Some e). split; [exact I|now left].
  Qed.
  Lemma accepted_field object t f name d :
    to_field_definition compile (validate_field (m_config m)) m object t f name = Ok d ->
    forall r e s tm p, In r (f_resolvers f) -> compile object f r = Ok (Some e) -> template_in e s tm ->
      In (Expression p) tm -> sensible (m_config m) t (f_args f) s p.
  Proof.
    intros H r e s tm p I C T P. apply define_steps in H. destruct H as (rs & d1 & d2 & d5 & d7 & A & D & V & _).
    pose proof (compiled_in object f _ _ _ _ A I C) as X.
    destruct (composed_in rs e s tm X T) as (e' & E & T').
    assert (G := proj1 (validate_field_ok (m_config m) t d1) V e' s tm p).
    subst d1. cbn in G. auto.
  Qed.
  Lemma accepted_url object t f name d :
    to_field_definition compile (validate_field (m_config m)) m object t f name = Ok d ->
    find_type (m_config m) object = Some t ->
    forall r e tm rx x, In r (f_resolvers f) -> compile object f r = Ok (Some e) -> template_in e true tm ->
      (forall p, In (Expression p) tm -> settled (m_config m) t rx p) ->
      fitting (m_config m) object (f_args f) rx x -> completed rx x tm (render (path_string rx x) tm).
  Proof.
    intros H F r e tm rx x I C T S X. apply render_completed. intros p P.
    eapply sensible_stands; eauto. eapply accepted_field; eauto.
  Qed.
End Fields.

Lemma nothing_named rx x p : path_string rx x p = None -> c_over_value x = None -> c_over_args x = None ->
  forall s, ~ stands_for rx x p s.
Proof. intros N V A s H. apply path_string_complete in H; [congruence|auto]. Qed.

Lemma compile_accepts c header_name json_text h f :
  (exists e, compile_http c header_name json_text h f = Ok e) <-> acceptable c header_name h f.
Proof.
  split.
  - intros (e & H). now apply compile_exact in H.
  - intros A. destruct (proj2 (headers_ok header_name (ht_headers h)) (header_names _ _ _ _ A)) as (hs & E).
    eexists. apply compile_exact. split; [exact A|]. exists hs. auto.
Qed.

Lemma about_iff q : expression_contains (parse (snd (fst q))) "value" = true <-> about_value q.
Proof.
  unfold expression_contains, about_value. rewrite existsb_exists. split.
  - intros (p & I & E). apply existsb_exists in E. destruct E as (n & N & E). apply String.eqb_eq in E. subst n.
    exists p. split; [now apply in_expressions|exact N].
  - intros (p & I & N). exists p. split; [now apply in_expressions|]. apply existsb_exists. exists "value". split; [exact N|reflexivity].
Qed.
Lemma batch_param_spec h : batch_parameter h (batch_param h).
Proof.
  unfold batch_param. destruct (String.eqb_spec (ht_method h) "GET") as [G|G]; [|apply none_about; congruence].
  destruct (find _ (ht_query h)) as [q|] eqn:F; cbn [option_map].
  - assert (exists before after, ht_query h = before ++ q :: after /\ about_value q /\ forall q', In q' before -> ~ about_value q')
      as (b & a & E & A & B).
    { revert F. induction (ht_query h) as [|x l IH]; cbn [find]; [discriminate|].
      destruct (expression_contains (parse (snd (fst x))) "value") eqn:X; intros F.
      - injection F as <-. exists [], l. split; [reflexivity|]. split; [now apply about_iff|]. intros q' [].
      - destruct (IH F) as (b & a & -> & A & B). exists (x :: b), a. split; [reflexivity|]. split; [exact A|].
        intros q' [<-|I]; [|auto]. rewrite <- about_iff. congruence. }
    now apply first_about with b a.
  - apply none_about. intros _ q I A. apply about_iff in A. pose proof (find_none _ _ F q I) as N. cbn in N. congruence.
Qed.

Lemma compile_one_call c header_name json_text h f e :
  compile_http c header_name json_text h f = Ok e ->
  exists r g, describes header_name json_text h r /\
    (g = None <-> ht_batch_key h = []) /\ (forall k, g = Some k -> HttpBatchModel.g_path k = ht_batch_key h /\ batch_parameter h (HttpBatchModel.g_key k)) /\
    forall (F Key St : Type) rx ext req (do_io : io -> ctx -> St -> result value F * St)
      (cache_key : io -> ctx -> option Key) cache_get cache_set x st,
    let call := IoHttp r g (is_list (f_type f)) (ht_dedupe h) in
    let out := eval rx ext req do_io cache_key cache_get cache_set e x st in
    snd out = snd (do_io call x st) /\
    match fst (do_io call x st) with
    | Err er => fst out = Err (EOutside er)
    | Ok answer =>
        (ht_select h = None -> fst out = Ok answer) /\
        (forall sel w, ht_select h = Some sel -> picks rx answer sel w -> fst out = Ok w)
    end.
Proof.
  intros H. apply compile_exact in H. destruct H as (_ & hs & E & ->).
  exists (template_of json_text h hs), (group_of h). split; [now apply template_describes|].
  split; [|split].
  - unfold group_of. destruct (ht_batch_key h); cbn; split; congruence.
  - unfold group_of. destruct (ht_batch_key h); cbn; [discriminate|]. intros k K. injection K as <-. split; [reflexivity|apply batch_param_spec].
  - intros F Key St rx ext req do_io cache_key cache_get cache_set x st call out.
    subst out. destruct (ht_select h) as [sel|]; cbn [apply_select eval]; fold call;
      destruct (do_io call x st) as [[answer|er] st'] eqn:D; cbn; split; auto; split; try discriminate; auto.
    intros sel' w Q P. injection Q as <-. f_equal. now apply picked.
Qed.
