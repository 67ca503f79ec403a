(** What the files say about a member of a merged definition (C49). *)
From Coq Require Import String Ascii Bool List.
From Verif Require Import Base Ordered BaseFacts OrderedFacts JsonModel TypeModel BuilderModel ConfigModel MergeModel MergeProofs RenameSpec AmbModel AmbSpec FedModel FedSpec FedProofs FedKeep.
Import ListNotations.
Open Scope string_scope.
Open Scope list_scope.

(** A statement about definitions that holds of a merged one when it holds of a part. *)
Definition joins {A} (P : A -> Prop) (w : A -> A -> A -> Prop) : Prop := forall a b c, w a b c -> (P c <-> P a \/ P b).

Section Members.
  Variable tp : gtype -> Prop.
  Variable fp : field -> Prop.
  Variable ap : arg -> Prop.
  Hypothesis tp_joins : forall a b fs, tp (gtype_with a b fs) <-> tp a \/ tp b.
  Hypothesis fp_joins : forall a b ty l, fp (field_with a b ty l) <-> fp a \/ fp b.
  Hypothesis ap_joins : forall a b c, arg_shrink a b = Ok c -> (ap c <-> ap a \/ ap b).

  Definition said (done : list config) (k : cache) : Prop :=
    forall n t', find_type (k_config k) n = Some t' ->
      (tp t' <-> exists t, type_in done n t /\ tp t) /\
      (forall fn f', oget scmp fn (t_fields t') = Some f' ->
        (fp f' <-> exists f, field_in done n fn f /\ fp f) /\
        (forall an a', oget scmp an (f_args f') = Some a' -> (ap a' <-> exists a, arg_in done n fn an a /\ ap a))) /\
      (In n (k_inputs k) \/ forall fn, oget scmp fn (t_fields t') = None -> forall f, ~ field_in done n fn f).
  Definition known_types (done : list config) (k : cache) : Prop :=
    forall n, find_type (k_config k) n = None -> forall t, ~ type_in done n t.

  Lemma said_one k : said [k_config k] k /\ known_types [k_config k] k.
  Proof.
    assert (T : forall n t, type_in [k_config k] n t <-> find_type (k_config k) n = Some t).
    { intros n t. unfold type_in. split; [intros (c & [<-|[]] & H); auto|]. intros H. exists (k_config k). split; [now left|auto]. }
    assert (F : forall n t fn f, find_type (k_config k) n = Some t -> field_in [k_config k] n fn f <-> oget scmp fn (t_fields t) = Some f).
    { intros n t fn f H. unfold field_in. split.
      - intros (t0 & I & G). apply T in I. congruence.
      - intros G. exists t. split; [now apply T|auto]. }
    split; [|intros n H t I; apply T in I; congruence].
    intros n t' H. split; [|split].
    - split; [intros P; exists t'; split; [now apply T|auto]|]. intros (t & I & P). apply T in I. congruence.
    - intros fn f' G. split.
      + split; [intros P; exists f'; split; [now apply (F n t')|auto]|]. intros (f & I & P). apply (F n t') in I; congruence.
      + intros an a' Ga. split.
        * intros P. exists a'. split; [|auto]. exists f'. split; [now apply (F n t')|auto].
        * intros (a & (f & I & Gf) & P). apply (F n t') in I; [|auto]. congruence.
    - right. intros fn G f I. apply (F n t') in I; congruence.
  Qed.

  Lemma arg_step x y z : NoDup (map fst y) -> args_shrink x y = Ok z ->
    forall an a, oget scmp an z = Some a -> exists a1 a2, oget scmp an x = Some a1 /\ oget scmp an y = Some a2 /\ arg_shrink a1 a2 = Ok a.
  Proof.
    intros N E an a G. unfold args_shrink in E. apply entries_shrink_ok in E as [_ E]; [|auto]. specialize (E an). rewrite G in E.
    destruct (oget scmp an x) as [a1|], (oget scmp an y) as [a2|]; try (destruct E as [_ E]; discriminate); try discriminate.
    destruct E as (q & E & H). injection H as <-. eauto.
  Qed.

  Lemma said_step done k1 k2 k : well_formed (k_config k2) -> (forall n t, find_type (k_config k1) n = Some t -> osorted scmp (t_fields t)) ->
    said done k1 -> known_types done k1 -> unify k1 k2 = Ok k -> said (done ++ [k_config k2]) k /\ known_types (done ++ [k_config k2]) k.
  Proof.
    intros W S1 Sa Kn E. set (all := done ++ [k_config k2]).
    assert (T : forall n t, type_in all n t <-> type_in done n t \/ find_type (k_config k2) n = Some t).
    { intros n t. unfold type_in, all. split.
      - intros (c & I & H). apply in_app_iff in I as [I|[<-|[]]]; eauto.
      - intros [(c & I & H)|H]; [exists c|exists (k_config k2)]; rewrite in_app_iff; cbn; auto. }
    assert (Fd : forall n fn f, field_in all n fn f <-> field_in done n fn f \/ exists t, find_type (k_config k2) n = Some t /\ oget scmp fn (t_fields t) = Some f).
    { intros n fn f. unfold field_in. split.
      - intros (t & I & G). apply T in I as [I|I]; eauto.
      - intros [(t & I & G)|(t & I & G)]; exists t; rewrite T; auto. }
    destruct (unify_lookup k1 k2 k W E) as (L & _ & _ & Ik & _). split.
    2: { intros n H t I. specialize (L n). apply T in I as [I|I].
         - destruct (find_type (k_config k1) n) eqn:F1; [|exact (Kn n F1 t I)].
           destruct (find_type (k_config k2) n); [destruct L as (z & _ & L)|]; congruence.
         - rewrite I in L. destruct (find_type (k_config k1) n); [destruct L as (z & _ & L)|]; congruence. }
    intros n t' H. specialize (L n). rewrite H in L.
    destruct (find_type (k_config k1) n) as [x|] eqn:F1.
    - destruct (Sa n x F1) as (P1 & P2 & P3). destruct (find_type (k_config k2) n) as [y|] eqn:F2.
      + destruct L as (z & U & Q). injection Q as <-.
        assert (N2 : NoDup (map fst (t_fields y))) by (apply (osorted_nodup scmp scmp_order), (wf_fields _ W n y F2)).
        assert (N1 : NoDup (map fst (t_fields x))) by (apply (osorted_nodup scmp scmp_order), (S1 n x F1)).
        assert (Na : forall fn f, oget scmp fn (t_fields y) = Some f -> NoDup (map fst (f_args f))) by (intros fn f G; eapply args2; eauto).
        assert (Ty : forall u, gtype_with x y u = t' -> (tp t' <-> exists t, type_in all n t /\ tp t)).
        { intros u <-. rewrite tp_joins, P1. split.
          - intros [(t & I & P)|P]; [exists t|exists y]; rewrite T; auto.
          - intros (t & I & P). apply T in I as [I|I]; [left; eauto|right; congruence]. }
        assert (Both : forall fn f1 f2 f', oget scmp fn (t_fields x) = Some f1 -> oget scmp fn (t_fields y) = Some f2 ->
          (exists ty l, f' = field_with f1 f2 ty l /\ args_shrink (f_args f1) (f_args f2) = Ok l) ->
          (fp f' <-> exists f, field_in all n fn f /\ fp f) /\
          (forall an a', oget scmp an (f_args f') = Some a' -> (ap a' <-> exists a, arg_in all n fn an a /\ ap a))).
        { intros fn f1 f2 f' G1 G2 (ty & l & -> & Al). destruct (P2 fn f1 G1) as [Q1 Q2]. split.
          - rewrite fp_joins, Q1. split.
            + intros [(f & I & P)|P]; [exists f|exists f2]; rewrite Fd; eauto.
            + intros (f & I & P). apply Fd in I as [I|(t & I & G)]; [left; eauto|right; congruence].
          - intros an a' Ga. cbn [field_with f_args] in Ga. destruct (arg_step _ _ _ (Na _ _ G2) Al an a' Ga) as (a1 & a2 & A1 & A2 & A3).
            rewrite (ap_joins _ _ _ A3), (Q2 an a1 A1). split.
            + intros [(a & (f & I & G) & P)|P].
              * exists a. split; [|auto]. exists f. rewrite Fd. auto.
              * exists a2. split; [|auto]. exists f2. rewrite Fd. eauto.
            + intros (a & (f & I & G) & P). apply Fd in I as [I|(t & I & G')].
              * left. exists a. split; [|auto]. exists f. auto.
              * right. congruence. }
        destruct (unify_type_how k1 k2 n x y t' U) as [(Sh & In_ & _)|(Ex & NI1 & NI2)].
        * unfold gtype_shrink in Sh. apply rmap_ok in Sh as (l & Sh & ->). split; [now apply (Ty (omap_of scmp l))|].
          apply entries_shrink_ok in Sh as [Nl Sh]; [|auto]. split; [|left; rewrite Ik, in_app_iff; auto].
          intros fn f' G. cbn [gtype_with t_fields] in G. rewrite omap_of_get in G by auto. specialize (Sh fn). rewrite G in Sh.
          destruct (oget scmp fn (t_fields x)) as [f1|] eqn:G1, (oget scmp fn (t_fields y)) as [f2|] eqn:G2;
            try (destruct Sh as [_ Sh]; discriminate); try discriminate.
          destruct Sh as (q & Sh & Q). injection Q as <-. unfold field_shrink in Sh. apply rmap_ok in Sh as ([ty la] & Sh & ->).
          apply vfuse_ok in Sh as [_ Sh]. cbn [fst snd] in *. apply (Both fn f1 f2); auto. eauto.
        * unfold gtype_expand in Ex. apply rmap_ok in Ex as (l & Ex & ->). split; [now apply (Ty (omap_of scmp l))|].
          destruct P3 as [P3|P3]; [contradiction|].
          apply entries_expand_ok in Ex as [Nl Ex]; [|auto|auto]. cbn [gtype_with t_fields]. split.
          -- intros fn f' G. rewrite omap_of_get in G by auto. specialize (Ex fn). rewrite G in Ex.
             destruct (oget scmp fn (t_fields x)) as [f1|] eqn:G1, (oget scmp fn (t_fields y)) as [f2|] eqn:G2; [| | |discriminate].
             ++ destruct Ex as (q & Sh & Q). injection Q as <-. unfold field_expand in Sh. apply rmap_ok in Sh as ([ty la] & Sh & ->).
                apply vfuse_ok in Sh as [_ Sh]. cbn [fst snd] in *. apply (Both fn f1 f2); auto. eauto.
             ++ injection Ex as ->. destruct (P2 fn f1 G1) as [Q1 Q2].
                assert (Same : forall f, field_in all n fn f <-> field_in done n fn f).
                { intros f. rewrite Fd. split; [|auto]. intros [I|(t & I & G')]; [auto|congruence]. }
                split.
                ** rewrite Q1. split; intros (f & I & P); exists f; split; auto; now apply Same.
                ** intros an a' Ga. rewrite (Q2 an a' Ga). split; intros (a & (f & I & G') & P); exists a; split; auto; exists f; split; auto; now apply Same.
             ++ injection Ex as ->.
                assert (Same : forall f, field_in all n fn f <-> f = f2).
                { intros f. rewrite Fd. split; [|intros ->; eauto]. intros [I|(t & I & G')]; [destruct (P3 fn G1 f I)|congruence]. }
                split.
                ** split; [intros P; exists f2; split; [now apply Same|auto]|]. intros (f & I & P). apply Same in I. now subst.
                ** intros an a' Ga. split.
                   --- intros P. exists a'. split; [|auto]. exists f2. split; [now apply Same|auto].
                   --- intros (a & (f & I & G') & P). apply Same in I. congruence.
          -- right. intros fn G f I. rewrite omap_of_get in G by auto. specialize (Ex fn). apply Fd in I as [I|(t & I & G')].
             ++ destruct (oget scmp fn (t_fields x)) as [f1|] eqn:G1; [|exact (P3 fn G1 f I)].
                destruct (oget scmp fn (t_fields y)) as [f2|]; [destruct Ex as (q & _ & Ex)|]; congruence.
             ++ rewrite F2 in I. injection I as <-. rewrite G' in Ex.
                destruct (oget scmp fn (t_fields x)); [destruct Ex as (q & _ & Ex)|]; congruence.
      + injection L as <-.
        assert (Same : forall t, type_in all n t <-> type_in done n t).
        { intros t. rewrite T. split; [|auto]. intros [I|I]; [auto|congruence]. }
        assert (SameF : forall fn f, field_in all n fn f <-> field_in done n fn f).
        { intros fn f. rewrite Fd. split; [|auto]. intros [I|(t & I & _)]; [auto|congruence]. }
        split; [|split].
        * rewrite P1. split; intros (t & I & P); exists t; split; auto; now apply Same.
        * intros fn f' G. destruct (P2 fn f' G) as [Q1 Q2]. split.
          -- rewrite Q1. split; intros (f & I & P); exists f; split; auto; now apply SameF.
          -- intros an a' Ga. rewrite (Q2 an a' Ga). split; intros (a & (f & I & G') & P); exists a; split; auto; exists f; split; auto; now apply SameF.
        * destruct P3 as [P3|P3]; [left; rewrite Ik, in_app_iff; auto|]. right. intros fn G f I. apply SameF in I. exact (P3 fn G f I).
    - destruct (find_type (k_config k2) n) as [y|] eqn:F2; [|discriminate]. injection L as <-.
      assert (Same : forall t, type_in all n t <-> t = t').
      { intros t. rewrite T. split; [|intros ->; auto]. intros [I|I]; [destruct (Kn n F1 t I)|congruence]. }
      assert (SameF : forall fn f, field_in all n fn f <-> oget scmp fn (t_fields t') = Some f).
      { intros fn f. unfold field_in. split; [intros (t & I & G); apply Same in I; now subst|]. intros G. exists t'. split; [now apply Same|auto]. }
      split; [|split].
      + split; [intros P; exists t'; split; [now apply Same|auto]|]. intros (t & I & P). apply Same in I. now subst.
      + intros fn f' G. split.
        * split; [intros P; exists f'; split; [now apply SameF|auto]|]. intros (f & I & P). apply SameF in I. congruence.
        * intros an a' Ga. split.
          -- intros P. exists a'. split; [|auto]. exists f'. split; [now apply SameF|auto].
          -- intros (a & (f & I & G') & P). apply SameF in I. congruence.
      + right. intros fn G f I. apply SameF in I. congruence.
  Qed.

  Lemma said_all : forall ks done k0 k, (forall q, In q ks -> well_formed (k_config q)) ->
    (forall n t, find_type (k_config k0) n = Some t -> osorted scmp (t_fields t)) ->
    said done k0 -> known_types done k0 -> unify_all k0 ks = Ok k -> said (done ++ map k_config ks) k.
  Proof.
    induction ks as [|k2 ks IH]; intros done k0 k W S0 Sa Kn E.
    - cbn in *. injection E as <-. now rewrite app_nil_r.
    - unfold unify_all in E. cbn [fold_left rbind] in E. destruct (unify k0 k2) as [k'|e] eqn:U.
      + assert (W2 : well_formed (k_config k2)) by (apply W; now left).
        destruct (said_step done k0 k2 k' W2 S0 Sa Kn U) as [Sa' Kn'].
        cbn [map]. replace (done ++ k_config k2 :: map k_config ks) with ((done ++ [k_config k2]) ++ map k_config ks) by (now rewrite <- app_assoc).
        apply (IH _ k'); auto; [intros q I; apply W; now right|].
        intros n t F. exact (step_sorted k0 k2 k' W2 S0 U n t F).
      + exfalso. clear - E. enough (X : forall ks, fold_left (fun acc other => rbind acc (fun k => unify k other)) ks (Err e) = Err e) by (rewrite X in E; discriminate).
        clear. induction ks; cbn; auto.
  Qed.

  Lemma said_files c0 rest k0 ks k :
    let cs := c0 :: rest in
    (forall c, In c cs -> well_formed c) -> caches cs (k0 :: ks) -> unify_all k0 ks = Ok k ->
    forall n t', find_type (k_config k) n = Some t' ->
      (tp t' <-> exists t, type_in cs n t /\ tp t) /\
      (forall fn f', oget scmp fn (t_fields t') = Some f' ->
        (fp f' <-> exists f, field_in cs n fn f /\ fp f) /\
        (forall an a', oget scmp an (f_args f') = Some a' -> (ap a' <-> exists a, arg_in cs n fn an a /\ ap a))).
  Proof.
    intros cs W Ca E n t' F. pose proof (caches_configs c0 rest k0 ks Ca) as M.
    assert (Q : forall q, In q (k0 :: ks) -> well_formed (k_config q)).
    { intros q I. apply W. unfold cs. rewrite <- M. now apply in_map. }
    destruct (said_one k0) as [S0 K0].
    pose proof (said_all ks [k_config k0] k0 k (fun q I => Q q (or_intror I)) (fun n t => wf_fields _ (Q k0 (or_introl eq_refl)) n t) S0 K0 E) as Sa.
    cbn [app] in Sa. change (k_config k0 :: map k_config ks) with (map k_config (k0 :: ks)) in Sa. rewrite M in Sa.
    destruct (Sa n t' F) as (A & B & _). split; auto.
  Qed.
End Members.

Lemma m_opt_some {A} (m : A -> A -> A) a b : m_opt m a b <> None <-> a <> None \/ b <> None.
Proof. destruct a, b; cbn; split; try tauto; try (intros; left; discriminate); try (intros; right; discriminate); try discriminate; intros [H|H]; congruence. Qed.
Lemma opt_or_some {A} (a b : option A) : opt_or a b <> None <-> a <> None \/ b <> None.
Proof. destruct a, b; cbn; split; try tauto; try (intros; left; discriminate); try (intros; right; discriminate); try discriminate; intros [H|H]; congruence. Qed.

Lemma m_protected_names p a b : named_by p (m_opt m_protected a b) <-> named_by p a \/ named_by p b.
Proof.
  unfold named_by. destruct a as [x|], b as [y|]; cbn [m_opt].
  - split.
    + intros (g & ids & H & I & J). injection H as <-. cbn in I. destruct (prot_id x) as [l|] eqn:Px, (prot_id y) as [l'|] eqn:Py; cbn in I; try discriminate;
        injection I as <-.
      * apply in_app_iff in J as [J|J]; [left; exists x, l|right; exists y, l']; auto.
      * left. exists x, l. auto.
      * right. exists y, l'. auto.
    + intros [(g & ids & H & I & J)|(g & ids & H & I & J)]; injection H as <-.
      * destruct (prot_id y) as [l'|] eqn:Py; [exists (m_protected x y), (ids ++ l')|exists (m_protected x y), ids]; cbn; rewrite I, Py; cbn; rewrite ?in_app_iff; auto.
      * destruct (prot_id x) as [l'|] eqn:Px; [exists (m_protected x y), (l' ++ ids)|exists (m_protected x y), ids]; cbn; rewrite I, Px; cbn; rewrite ?in_app_iff; auto.
  - split; [auto|]. intros [H|(g & ids & H & _)]; [auto|discriminate].
  - split; [auto|]. intros [(g & ids & H & _)|H]; [discriminate|auto].
  - split; [auto|]. intros [H|H]; auto.
Qed.

Lemma members_kept c0 rest k0 ks k :
  let cs := c0 :: rest in
  (forall c, In c cs -> well_formed c) -> caches cs (k0 :: ks) -> unify_all k0 ks = Ok k ->
  forall n t', find_type (k_config k) n = Some t' ->
    (t_protected t' <> None <-> exists t, type_in cs n t /\ t_protected t <> None) /\
    (forall p, named_by p (t_protected t') <-> exists t, type_in cs n t /\ named_by p (t_protected t)) /\
    (t_cache t' <> None <-> exists t, type_in cs n t /\ t_cache t <> None) /\
    (forall r, In r (t_resolvers t') <-> exists t, type_in cs n t /\ In r (t_resolvers t)) /\
    (forall i, In i (t_implements t') <-> exists t, type_in cs n t /\ In i (t_implements t)) /\
    forall fn f', oget scmp fn (t_fields t') = Some f' ->
      (f_protected f' <> None <-> exists f, field_in cs n fn f /\ f_protected f <> None) /\
      (forall p, named_by p (f_protected f') <-> exists f, field_in cs n fn f /\ named_by p (f_protected f)) /\
      (f_cache f' <> None <-> exists f, field_in cs n fn f /\ f_cache f <> None) /\
      (f_default f' <> None <-> exists f, field_in cs n fn f /\ f_default f <> None) /\
      (f_omit f' = true <-> exists f, field_in cs n fn f /\ f_omit f = true) /\
      (forall r, In r (f_resolvers f') <-> exists f, field_in cs n fn f /\ In r (f_resolvers f)) /\
      forall an a', oget scmp an (f_args f') = Some a' ->
        (arg_default a' <> None <-> exists a, arg_in cs n fn an a /\ arg_default a <> None).
Proof.
  intros cs W Ca E n t' F.
  assert (Ja : forall a b c, arg_shrink a b = Ok c -> (arg_default c <> None <-> arg_default a <> None \/ arg_default b <> None)).
  { intros a b c H. unfold arg_shrink in H. apply rmap_ok in H as (ty & _ & ->). cbn. apply opt_or_some. }
  assert (T : forall tp : gtype -> Prop, (forall a b fs, tp (gtype_with a b fs) <-> tp a \/ tp b) -> (tp t' <-> exists t, type_in cs n t /\ tp t)).
  { intros tp H. refine (proj1 (said_files tp (fun _ => False) (fun _ => False) H _ _ c0 rest k0 ks k W Ca E n t' F)); tauto. }
  assert (Fd : forall fn f', oget scmp fn (t_fields t') = Some f' -> forall fp : field -> Prop, (forall a b ty l, fp (field_with a b ty l) <-> fp a \/ fp b) -> (fp f' <-> exists f, field_in cs n fn f /\ fp f)).
  { intros fn f' G fp H. refine (proj1 (proj2 (said_files (fun _ => False) fp (fun _ => False) _ H _ c0 rest k0 ks k W Ca E n t' F) fn f' G)); tauto. }
  refine (conj _ (conj _ (conj _ (conj _ (conj _ _))))).
  - apply (T (fun t => t_protected t <> None)). intros a b fs. apply m_opt_some.
  - intros p. apply (T (fun t => named_by p (t_protected t))). intros a b fs. apply m_protected_names.
  - apply (T (fun t => t_cache t <> None)). intros a b fs. apply m_opt_some.
  - intros r. apply (T (fun t => In r (t_resolvers t))). intros a b fs. apply m_resolvers_in.
  - intros i. apply (T (fun t => In i (t_implements t))). intros a b fs. apply m_set_in. exact scmp_order.
  - intros fn f' G. specialize (Fd fn f' G). refine (conj _ (conj _ (conj _ (conj _ (conj _ (conj _ _)))))).
    + apply (Fd (fun f => f_protected f <> None)). intros a b ty l. apply m_opt_some.
    + intros p. apply (Fd (fun f => named_by p (f_protected f))). intros a b ty l. apply m_protected_names.
    + apply (Fd (fun f => f_cache f <> None)). intros a b ty l. apply m_opt_some.
    + apply (Fd (fun f => f_default f <> None)). intros a b ty l. apply opt_or_some.
    + apply (Fd (fun f => f_omit f = true)). intros a b ty l. apply orb_true_iff.
    + intros r. apply (Fd (fun f => In r (f_resolvers f))). intros a b ty l. apply m_resolvers_in.
    + intros an a' Ga. refine (proj2 (proj2 (said_files (fun _ => False) (fun _ => False) (fun a => arg_default a <> None) _ _ Ja c0 rest k0 ks k W Ca E n t' F) fn f' G) an a' Ga); tauto.
Qed.
