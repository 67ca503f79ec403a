From Coq Require Import String Ascii ZArith Bool Lia List.
From Verif Require Import Base BaseFacts AuthModel AuthSpec.
Import ListNotations.
Open Scope list_scope.

Lemma ascii_compare_refl : forall c, Ascii.compare c c = Eq.
Proof. intros. unfold Ascii.compare. apply N.compare_refl. Qed.

Lemma error_cmp_refl : forall e, error_cmp e e = Eq.
Proof.
  destruct e; cbn; auto. induction s; cbn; auto. rewrite ascii_compare_refl. auto.
Qed.

Lemma error_cmp_eq : forall a b, error_cmp a b = Eq -> a = b.
Proof.
  destruct a, b; cbn; try discriminate; auto.
  intros H. f_equal. apply String.compare_eq_iff. exact H.
Qed.

Lemma error_cmp_antisym : forall a b, error_cmp a b = CompOpp (error_cmp b a).
Proof. destruct a, b; cbn; auto. apply String.compare_antisym. Qed.

Lemma ascii_compare_trans : forall a b c,
  Ascii.compare a b = Lt -> Ascii.compare b c = Lt -> Ascii.compare a c = Lt.
Proof. unfold Ascii.compare. intros a b c. rewrite !N.compare_lt_iff. lia. Qed.

Lemma ascii_compare_eq : forall a b, Ascii.compare a b = Eq -> a = b.
Proof.
  unfold Ascii.compare. intros a b H. apply N.compare_eq_iff in H.
  rewrite <- (ascii_N_embedding a), <- (ascii_N_embedding b). congruence.
Qed.

Lemma string_compare_trans : forall a b c,
  String.compare a b = Lt -> String.compare b c = Lt -> String.compare a c = Lt.
Proof.
  induction a as [|x a IH]; destruct b as [|y b], c as [|z c]; cbn; try discriminate; auto.
  destruct (Ascii.compare x y) eqn:E1; try discriminate;
    destruct (Ascii.compare y z) eqn:E2; try discriminate; intros.
  - apply ascii_compare_eq in E1, E2. subst. rewrite ascii_compare_refl. eauto.
  - apply ascii_compare_eq in E1. subst. rewrite E2. auto.
  - apply ascii_compare_eq in E2. subst. rewrite E1. auto.
  - rewrite (ascii_compare_trans _ _ _ E1 E2). auto.
Qed.

Lemma error_cmp_trans : forall a b c,
  error_cmp a b = Lt -> error_cmp b c = Lt -> error_cmp a c = Lt.
Proof.
  destruct a, b, c; cbn; try discriminate; auto. apply string_compare_trans.
Qed.

Lemma error_max_comm : forall a b, error_max a b = error_max b a.
Proof.
  intros. unfold error_max. rewrite (error_cmp_antisym b a).
  destruct (error_cmp a b) eqn:E; cbn; auto. apply error_cmp_eq in E. auto.
Qed.

Lemma error_max_idem : forall a, error_max a a = a.
Proof. intros. unfold error_max. destruct (error_cmp a a); auto. Qed.

Lemma error_max_assoc : forall a b c,
  error_max a (error_max b c) = error_max (error_max a b) c.
Proof.
  intros. unfold error_max.
  destruct (error_cmp b c) eqn:E1; destruct (error_cmp a b) eqn:E2;
    try (apply error_cmp_eq in E1; subst); try (apply error_cmp_eq in E2; subst);
    rewrite ?error_cmp_refl; auto; try rewrite E1; try rewrite E2; auto.
  - rewrite (error_cmp_trans a b c); auto.
  - assert (H: error_cmp c a = Lt).
    { apply error_cmp_trans with b; rewrite error_cmp_antisym.
      - rewrite E1; auto.
      - rewrite E2; auto. }
    rewrite error_cmp_antisym, H. auto.
Qed.

Lemma error_max_choice : forall a b, error_max a b = a \/ error_max a b = b.
Proof. intros. unfold error_max. destruct (error_cmp a b); auto. Qed.

Lemma error_max_severity : forall a b,
  severity a <= severity (error_max a b) /\ severity b <= severity (error_max a b).
Proof.
  destruct a, b; cbn; try lia. unfold error_max. destruct (error_cmp _ _); cbn; lia.
Qed.

Lemma vand_assoc : forall a b c, vand a (vand b c) = vand (vand a b) c.
Proof. destruct a; auto. Qed.
Lemma vor_assoc : forall a b c, vor a (vor b c) = vor (vor a b) c.
Proof.
  destruct a, b, c; cbn; auto. rewrite error_max_assoc. auto.
Qed.
Lemma vor_comm : forall a b, vor a b = vor b a.
Proof. destruct a, b; cbn; auto. rewrite error_max_comm. auto. Qed.
Lemma vor_idem : forall a, vor a a = a.
Proof. destruct a; cbn; auto. rewrite error_max_idem. auto. Qed.

Lemma verification_laws : forall a b c,
  vand a (vand b c) = vand (vand a b) c /\ vor a (vor b c) = vor (vor a b) c /\
  vor a b = vor b a /\ vor a a = a /\ vand a a = a /\
  vand Succeed a = a /\ vand a Succeed = a /\ vor Succeed a = Succeed.
Proof.
  intros. repeat split; auto using vand_assoc, vor_assoc, vor_comm, vor_idem;
  destruct a; auto.
Qed.

Lemma vand_succeed : forall a b, vand a b = Succeed <-> a = Succeed /\ b = Succeed.
Proof. destruct a, b; cbn; intuition congruence. Qed.
Lemma vor_succeed : forall a b, vor a b = Succeed <-> a = Succeed \/ b = Succeed.
Proof. destruct a, b; cbn; intuition congruence. Qed.

Lemma verify_grants : forall ext req a,
  verify ext a req = Succeed <-> grants (fun p => verify_provider ext p req = Succeed) a.
Proof.
  induction a; cbn.
  - split; [constructor; auto|]. intros H; inv H; auto.
  - rewrite vand_succeed, IHa1, IHa2. split.
    + intros [? ?]. constructor; auto.
    + intros H; inv H; auto.
  - rewrite vor_succeed, IHa1, IHa2. split.
    + intros [?|?]; [apply G_or_l|apply G_or_r]; auto.
    + intros H; inv H; auto.
Qed.

Lemma verify_error_source : forall ext req a e,
  verify ext a req = Fail e ->
  exists p, In p (providers a) /\ verify_provider ext p req = Fail e.
Proof.
  induction a; cbn; intros e H.
  - eauto.
  - destruct (verify ext a1 req) eqn:E1; cbn in H.
    + destruct (IHa2 _ H) as (p & ? & ?). exists p. rewrite in_app_iff. auto.
    + inv H. destruct (IHa1 _ eq_refl) as (p & ? & ?). exists p. rewrite in_app_iff. auto.
  - destruct (verify ext a1 req) eqn:E1; cbn in H; [discriminate|].
    destruct (verify ext a2 req) eqn:E2; cbn in H; [discriminate|].
    inv H. destruct (error_max_choice e0 e1) as [-> | ->].
    + destruct (IHa1 _ eq_refl) as (p & ? & ?). exists p. rewrite in_app_iff. auto.
    + destruct (IHa2 _ eq_refl) as (p & ? & ?). exists p. rewrite in_app_iff. auto.
Qed.

Lemma only_or_severity : forall ext req a e,
  only_or a -> verify ext a req = Fail e ->
  forall p, In p (providers a) ->
  exists e', verify_provider ext p req = Fail e' /\ severity e' <= severity e.
Proof.
  intros ext req a e H. revert e. induction H; cbn; intros e V q I.
  - destruct I as [<-|[]]. eauto.
  - destruct (verify ext l req) eqn:E1; cbn in V; [discriminate|].
    destruct (verify ext r req) eqn:E2; cbn in V; [discriminate|].
    inv V. destruct (error_max_severity e0 e1).
    apply in_app_iff in I. destruct I as [I|I].
    + destruct (IHonly_or1 _ eq_refl _ I) as (e' & ? & ?). exists e'. split; auto. lia.
    + destruct (IHonly_or2 _ eq_refl _ I) as (e' & ? & ?). exists e'. split; auto. lia.
Qed.

Lemma only_and_first : forall ext req a e,
  only_and a ->
  (verify ext a req = Fail e <->
   exists before p after, providers a = before ++ p :: after /\
     verify_provider ext p req = Fail e /\
     Forall (fun q => verify_provider ext q req = Succeed) before).
Proof.
  intros ext req a e H. revert e. induction H; intros e.
  - cbn. split.
    + intros V. exists [], p, []. auto.
    + intros (b & q & c & E & V & F). destruct b as [|x b]; inv E; auto.
      destruct b; discriminate.
  - assert (AllOk : forall a, only_and a -> (verify ext a req = Succeed <->
        Forall (fun q => verify_provider ext q req = Succeed) (providers a))).
    { clear. induction 1; cbn.
      - split; auto. intros F; inv F; auto.
      - rewrite vand_succeed, Forall_app, IHonly_and1, IHonly_and2. tauto. }
    cbn. split.
    + intros V. destruct (verify ext l req) eqn:E1; cbn in V.
      * apply IHonly_and2 in V. destruct V as (b & p & c & E & V & F).
        exists (providers l ++ b), p, c. rewrite E, <- app_assoc. repeat split; auto.
        apply Forall_app. split; auto. apply AllOk; auto.
      * inv V. destruct (IHonly_and1 e) as [K _]. destruct (K eq_refl) as (b & p & c & E & V & F).
        exists b, p, (c ++ providers r). rewrite E, <- app_assoc. auto.
    + intros (b & p & c & E & V & F).
      destruct (verify ext l req) eqn:E1; cbn.
      * apply AllOk in E1; auto. apply IHonly_and2.
        (* p is not in providers l *)
        assert (exists b', b = providers l ++ b').
        { clear - E E1 V. revert b E. induction (providers l) as [|x t IH]; intros b E.
          - exists b. auto.
          - inv E1. destruct b as [|y b]; cbn in E; inv E.
            + congruence.
            + destruct (IH H2 _ H3) as [b' ->]. exists b'. auto. }
        destruct H1 as [b' ->]. rewrite <- app_assoc in E. apply app_inv_head in E.
        apply Forall_app in F. exists b', p, c. tauto.
      * destruct (IHonly_and1 e0) as [K _]. destruct (K eq_refl) as (b' & p' & c' & E' & V' & F').
        rewrite E' in E. rewrite <- app_assoc in E. cbn in E.
        assert (p = p').
        { clear - E V F V' F'. revert b E F. induction b' as [|x t IH]; intros b E F.
          - destruct b as [|y b]; cbn in E; inv E; auto. inv F. congruence.
          - inv F'. destruct b as [|y b]; cbn in E; inv E; [congruence|].
            inv F. eauto. }
        subst. congruence.
Qed.

Lemma verify_ext : forall ext req a b,
  providers a = providers b -> only_and a -> only_and b ->
  verify ext a req = verify ext b req.
Proof.
  intros. destruct (verify ext a req) eqn:E1, (verify ext b req) eqn:E2; auto.
  - exfalso. apply only_and_first in E2; auto. rewrite <- H in E2.
    apply (only_and_first ext req a) in E2; auto. congruence.
  - exfalso. apply only_and_first in E1; auto. rewrite H in E1.
    apply (only_and_first ext req b) in E1; auto. congruence.
  - apply only_and_first in E1; auto. rewrite H in E1.
    apply (only_and_first ext req b) in E1; auto. congruence.
Qed.

Lemma from_config_grants : forall ext req hs ks a,
  auth_from_config hs ks = Some a ->
  (verify ext a req = Succeed <->
   Forall (fun p => verify_provider ext p req = Succeed) (providers_from_config hs ks)).
Proof.
  intros ext req hs ks a. unfold auth_from_config.
  destruct (providers_from_config hs ks) as [|p l]; cbn; [discriminate|].
  intros E; inv E.
  assert (G : forall l a, verify ext (fold_left AAnd (map AProvider l) a) req = Succeed <->
     verify ext a req = Succeed /\ Forall (fun p => verify_provider ext p req = Succeed) l).
  { clear. induction l; cbn; intros.
    - split; auto. tauto.
    - rewrite IHl. cbn. rewrite vand_succeed. split.
      + intros [[? ?] ?]. auto.
      + intros [? F]. inv F. auto. }
  rewrite G. cbn. split.
  - intros [? ?]. auto.
  - intros F. inv F. auto.
Qed.

Lemma from_config_none : forall hs ks,
  auth_from_config hs ks = None <-> hs = [] /\ ks = [].
Proof.
  intros. unfold auth_from_config, providers_from_config.
  destruct hs, ks; cbn; split; intros; try discriminate; auto; destruct H; discriminate.
Qed.

Lemma and_order_refuted : exists ext req p q,
  verify ext (AAnd (AProvider p) (AProvider q)) req = Fail EMissing /\
  verify ext (AAnd (AProvider q) (AProvider p)) req = Fail EInvalid.
Proof.
  exists {| x_htpasswd := fun _ _ _ => false; x_header_kid := fun _ => None;
            x_key_ok := fun _ => true; x_alg_ok := fun _ => true;
            x_sig_ok := fun _ _ => false; x_claims := fun _ => None |},
    {| r_basic := Ok None; r_bearer := Err tt |},
    (PBasic "x"), (PJwt {| o_issuer := None; o_audiences := []; o_optional_kid := true; o_jwks := [] |}).
  auto.
Qed.

(** ** JWT *)

Lemma find_kid_spec : forall kid ks k,
  find_kid kid ks = Some k <->
  exists before after, ks = before ++ k :: after /\ k_id k = Some kid /\
    (forall k', In k' before -> k_id k' <> Some kid).
Proof.
  induction ks as [|x t IH]; cbn; intros k.
  - split; [discriminate|]. intros (b & a & E & _). destruct b; discriminate.
  - destruct (k_id x) as [i|] eqn:K.
    + destruct (String.eqb_spec i kid) as [->|N].
      * split.
        -- intros E; inv E. exists [], t. cbn. repeat split; auto.
        -- intros (b & a & E & Kk & F). destruct b as [|y b]; inv E; auto.
           exfalso. apply (F y); cbn; auto.
      * rewrite IH. split.
        -- intros (b & a & -> & Kk & F). exists (x :: b), a. repeat split; auto.
           intros k' [<-|I]; auto. congruence.
        -- intros (b & a & E & Kk & F). destruct b as [|y b]; inv E; [congruence|].
           exists b, a. repeat split; auto. intros; apply F; cbn; auto.
    + rewrite IH. split.
      * intros (b & a & -> & Kk & F). exists (x :: b), a. repeat split; auto.
        intros k' [<-|I]; auto. congruence.
      * intros (b & a & E & Kk & F). destruct b as [|y b]; inv E; [congruence|].
        exists b, a. repeat split; auto. intros; apply F; cbn; auto.
Qed.

Lemma decode_with_jwk_spec : forall ext tok k c,
  decode_with_jwk ext tok k = Ok c <-> checked_by ext tok k /\ x_claims ext tok = Some c.
Proof.
  intros. unfold decode_with_jwk, checked_by.
  destruct (x_key_ok ext k); cbn.
  2: { split; [discriminate|]. intros [[? _] _]. discriminate. }
  destruct (k_alg k) as [a|].
  2: { split; [discriminate|]. intros [(_ & _ & x & ? & _) _]. discriminate. }
  destruct (x_alg_ok ext a) eqn:A; cbn.
  2: { split; [discriminate|]. intros [(_ & _ & x & E & X) _]. inv E. congruence. }
  destruct (x_sig_ok ext tok k).
  - destruct (x_claims ext tok); split; intros H.
    + inv H. repeat split; auto. exists a. auto.
    + destruct H as [_ H]. inv H. auto.
    + discriminate.
    + destruct H as [_ H]. discriminate.
  - split; [discriminate|]. intros [(_ & ? & _) _]. discriminate.
Qed.

Lemma try_keys_spec : forall ext tok ks c,
  try_keys ext tok ks = Ok c <->
  (exists k, In k ks /\ checked_by ext tok k) /\ x_claims ext tok = Some c.
Proof.
  induction ks as [|k t IH]; cbn; intros.
  - split; [discriminate|]. intros [(k & [] & _) _].
  - destruct (decode_with_jwk ext tok k) as [c'|] eqn:D.
    + apply decode_with_jwk_spec in D. destruct D as [D1 D2]. split.
      * intros E; inv E. split; auto. exists k. auto.
      * intros [_ E]. congruence.
    + rewrite IH. split.
      * intros [(k' & I & C) E]. split; auto. exists k'. auto.
      * intros [(k' & [<-|I] & C) E].
        -- exfalso. assert (decode_with_jwk ext tok k = Ok c) by (apply decode_with_jwk_spec; auto).
           congruence.
        -- split; eauto.
Qed.

Lemma decode_spec : forall ext o tok c,
  decode ext o tok = Ok c <->
  (exists k, responsible ext o tok k /\ checked_by ext tok k) /\ x_claims ext tok = Some c.
Proof.
  intros. unfold decode, responsible.
  destruct (x_header_kid ext tok) as [[kid|]|] eqn:H.
  - destruct (find_kid kid (o_jwks o)) as [k|] eqn:F.
    + rewrite decode_with_jwk_spec. pose proof F as F'. apply find_kid_spec in F. split.
      * intros [C E]. split; auto. exists k. split; auto. left.
        destruct F as (b & a & ? & ? & ?). exists kid, b, a. auto.
      * intros [(k' & [(kid' & b & a & Hk & R)|(X & _)] & C) E]; [|discriminate].
        inv Hk. assert (F2 : find_kid kid' (o_jwks o) = Some k').
        { apply find_kid_spec. exists b, a. auto. }
        rewrite F2 in F'. inv F'. auto.
    + split; [discriminate|].
      intros [(k' & [(kid' & b & a & Hk & R)|(X & _)] & C) E]; [|discriminate].
      inv Hk. assert (F2 : find_kid kid' (o_jwks o) = Some k').
      { apply find_kid_spec. exists b, a. auto. }
      congruence.
  - destruct (o_optional_kid o) eqn:O; cbn.
    + rewrite try_keys_spec. split.
      * intros [(k & I & C) E]. split; auto. exists k. split; auto.
      * intros [(k & [(? & ? & ? & X & _)|(_ & _ & I)] & C) E]; [discriminate|]. split; eauto.
    + split; [discriminate|].
      intros [(k & [(? & ? & ? & X & _)|(_ & X & I)] & C) E]; discriminate.
  - split; [discriminate|].
    intros [(k & [(? & ? & ? & X & _)|(X & _ & I)] & C) E]; discriminate.
Qed.

Lemma claims_spec : forall o c, validate_claims o c = Succeed <-> permitted o c.
Proof.
  intros. unfold validate_claims, permitted.
  assert (I : validate_iss o c = true <-> forall i, o_issuer o = Some i -> c_iss c = Some i).
  { unfold validate_iss. destruct (o_issuer o) as [i|].
    - destruct (c_iss c) as [j|].
      + rewrite String.eqb_eq. split; [intros -> ? E; inv E; auto|].
        intros H. specialize (H _ eq_refl). congruence.
      + split; [discriminate|]. intros H. specialize (H _ eq_refl). discriminate.
    - split; auto. discriminate. }
  assert (A : validate_aud o c = true <->
     (o_audiences o <> [] -> exists a, token_audience c a /\ In a (o_audiences o))).
  { unfold validate_aud, token_audience. destruct (o_audiences o) as [|x l].
    - split; [|auto]. intros _ K. congruence.
    - destruct (c_aud c) as [[s|auds]|].
      + rewrite smem_In. split.
        * intros K _. exists s. auto.
        * intros K. destruct K as (a & -> & ?); [discriminate|auto].
      + rewrite existsb_exists. split.
        * intros (a & ? & K) _. apply smem_In in K. eauto.
        * intros K. destruct K as (a & ? & ?); [discriminate|]. exists a. rewrite smem_In. auto.
      + split; [discriminate|]. intros K. destruct K as (a & [] & ?). discriminate. }
  rewrite <- I, <- A.
  destruct (validate_iss o c), (validate_aud o c); cbn; intuition congruence.
Qed.

Lemma verify_jwt_spec : forall ext o req,
  verify_jwt ext o req = Succeed <->
  exists tok k c, r_bearer req = Ok (Some tok) /\ responsible ext o tok k /\
    checked_by ext tok k /\ x_claims ext tok = Some c /\ permitted o c.
Proof.
  intros. unfold verify_jwt.
  destruct (r_bearer req) as [[tok|]|].
  - destruct (decode ext o tok) as [c|e] eqn:D.
    + apply decode_spec in D. destruct D as [(k & R & C) E].
      rewrite claims_spec. split.
      * intros P. exists tok, k, c. auto.
      * intros (t & k' & c' & B & _ & _ & E' & P). inv B. congruence.
    + split; [discriminate|].
      intros (t & k & c & B & R & C & E & _). inv B.
      assert (decode ext o t = Ok c) by (apply decode_spec; eauto). congruence.
  - split; [discriminate|]. intros (? & ? & ? & B & _). discriminate.
  - split; [discriminate|]. intros (? & ? & ? & B & _). discriminate.
Qed.

Lemma from_config_jwt : forall hs ks o,
  In (PJwt o) (providers_from_config hs ks) -> forall c, permitted o c.
Proof.
  intros hs ks o I c. unfold providers_from_config in I. apply in_app_iff in I.
  destruct I as [I|I]; apply in_map_iff in I; destruct I as (x & E & _); inv E.
  split; cbn; [discriminate|congruence].
Qed.
