(** Proofs for C82: the resolvers of a federated schema. *)
From Coq Require Import String Ascii ZArith NArith Bool Arith Lia List.
From Verif Require Import Base BaseFacts StringFacts Ordered OrderedFacts JsonModel TypeModel ConfigModel IrModel IrSpec IrProofs CtxModel AuthModel DiscModel ComposeModel ComposeProofs FieldModel FieldSpec Field2Proofs DocSpec EntityModel EntitySpec EntityProofs Entity2Proofs FdModel FdSpec.
Import ListNotations.
Open Scope string_scope.
Open Scope list_scope.

(** ** Values *)
Lemma held_aget (m : list (string * value)) k v : aget k m = Some v -> held m k v.
Proof. intros E. pose proof (aget_held m k) as H. now rewrite E in H. Qed.
Lemma held_get (m : list (string * value)) k v : v <> VNull -> held m k v -> aget k m = Some v.
Proof.
  intros N [(b & a & -> & I)|[_ E]]; [|contradiction]. induction b as [|[j w] b IH]; cbn; [now rewrite String.eqb_refl|].
  destruct (String.eqb_spec k j) as [->|D]; [exfalso; apply I; now left|]. apply IH. intros X. apply I. now right.
Qed.
Lemma held_is (m : list (string * value)) k v : held m k v <-> match aget k m with Some x => x | None => VNull end = v.
Proof.
  split; [|intros <-; apply aget_held]. intros [(b & a & -> & I)|[I ->]].
  - induction b as [|[j w] b IH]; cbn; [now rewrite String.eqb_refl|]. destruct (String.eqb_spec k j) as [->|D]; [exfalso; apply I; now left|]. apply IH. intros X. apply I. now right.
  - destruct (aget k m) eqn:E; [|reflexivity]. exfalso. apply I. apply aget_In in E. apply in_map_iff. eexists; split; [|exact E]. reflexivity.
Qed.
Lemma of_type_is repr n : of_type repr n <-> get_type_name repr = Some n.
Proof.
  unfold of_type, get_type_name, TYPENAME_FIELD. split.
  - intros (m & -> & H). cbn. apply held_get in H; [|discriminate]. now rewrite H.
  - destruct repr as [| | | | | |m]; cbn; try discriminate. intros H. exists m. split; [reflexivity|]. destruct (aget "__typename" m) as [x|] eqn:E; [|discriminate]. destruct x; try discriminate. injection H as ->. now apply held_aget.
Qed.
Lemma labelled_set n v w : set_type_name n v = Ok w -> labelled n v w.
Proof.
  destruct v as [| | | | | |m]; cbn; try discriminate; intros E; injection E as <-; [now left|]. right. exists m, (aset TYPENAME_FIELD (VStr n) m). split; [reflexivity|]. split; [reflexivity|]. split.
  - apply held_aget. apply aget_aset_same.
  - intros k x N. rewrite !held_is, aget_aset_other by exact N. reflexivity.
Qed.
Lemma labelled_some n v w : labelled n v w -> exists w', set_type_name n v = Ok w'.
Proof. intros [[-> _]|(m & m' & -> & _)]; cbn; eauto. Qed.

Section Fed.
  Context {IO : Type}.
  Variable compile : string -> field -> resolver -> valid (option (ir IO)).
  Variable print : list (bdef IO) -> string.

  Lemma entity_table entries e : compile_entity_resolver compile entries = Ok e <->
    exists m, e = IEntity m /\ Forall2 (fun kr ke => fst ke = fst kr /\ entry_ir compile (fst kr) (snd kr) = Ok (snd ke)) entries m.
  Proof.
    unfold compile_entity_resolver. cbn [entry_ir].
    set (go := fix go (m : list (string * resolver)) : valid (list (string * ir IO)) := _).
    assert (G : forall l m, go l = Ok m <-> Forall2 (fun kr ke => fst ke = fst kr /\ entry_ir compile (fst kr) (snd kr) = Ok (snd ke)) l m).
    { induction l as [|[k r] l IH]; intros m; cbn [go].
      - split; [intros E; injection E as <-; constructor|]. intros H. now inversion H.
      - fold go. destruct (entry_ir compile k r) as [e0|er] eqn:E0; destruct (go l) as [l'|er'] eqn:E1.
        + split.
          * intros E. injection E as <-. constructor; [now split|]. now apply IH.
          * intros H. inversion H as [|? [k' e'] ? m' [A B] C]; subst. cbn in A, B. subst k'. rewrite E0 in B. injection B as <-. apply IH in C. now injection C as ->.
        + split; [discriminate|]. intros H. inversion H as [|? ? ? ? [A B] C]; subst. apply IH in C. discriminate.
        + split; [discriminate|]. intros H. inversion H as [|? ? ? ? [A B] C]; subst. cbn in B. congruence.
        + split; [discriminate|]. intros H. inversion H as [|? ? ? ? [A B] C]; subst. cbn in B. congruence. }
    split.
    - intros H. destruct (go entries) as [m|] eqn:E; [|discriminate]. injection H as <-. exists m. split; [reflexivity|]. now apply G.
    - intros (m & -> & H). apply G in H. now rewrite H.
  Qed.

  Lemma entry_plain n r e : has_directive r = true -> (entry_ir compile n r = Ok e <-> compile n (bare n) r = Ok (Some e)).
  Proof.
    intros D. change (bare n) with (fake_field n). destruct r; try discriminate; cbn [entry_ir]; unfold and_then; destruct (compile n (fake_field n) _) as [[x|]|er]; cbn; split; intros H; try discriminate; congruence.
  Qed.

  (** *** Lists with the text that is left *)
  Lemma left_two {A B} (f : string -> A -> valid B * string) : forall l s bs, fst (each_left f s l) = Ok bs -> Forall2 (fun a b => exists s, fst (f s a) = Ok b) l bs.
  Proof.
    induction l as [|a l IH]; intros s bs; cbn.
    - intros E. injection E as <-. constructor.
    - destruct (f s a) as [r s1] eqn:F. specialize (IH s1). destruct (each_left f s1 l) as [rs s2]. cbn in *. destruct r as [b|]; destruct rs as [bs'|]; try discriminate. intros E. injection E as <-. constructor; [|now apply IH]. exists s. now rewrite F.
  Qed.
  Lemma left_some {A B} (f : string -> A -> valid B * string) : forall l s, (forall a s, In a l -> exists b, fst (f s a) = Ok b) -> exists bs, fst (each_left f s l) = Ok bs.
  Proof.
    induction l as [|a l IH]; intros s H; cbn; [eauto|]. destruct (H a s (or_introl eq_refl)) as [b E]. destruct (f s a) as [r s1]. cbn in E. subst r. destruct (IH s1) as [bs E]; [intros; apply H; now right|]. destruct (each_left f s1 l) as [rs s2]. cbn in *. subst rs. eauto.
  Qed.
  Lemma left_at {A B} (f : string -> A -> valid B * string) : forall l1 a l2 s bs, (forall x s, In x l1 -> snd (f s x) = s) ->
    fst (each_left f s (l1 ++ a :: l2)) = Ok bs -> exists b, In b bs /\ fst (f s a) = Ok b.
  Proof.
    induction l1 as [|x l1 IH]; intros a l2 s bs K; cbn.
    - destruct (f s a) as [r s1] eqn:F. destruct (each_left f s1 l2) as [rs s2]. cbn. destruct r as [b|]; destruct rs; try discriminate. intros E. injection E as <-. exists b. split; [now left|]. reflexivity.
    - pose proof (K x s (or_introl eq_refl)) as Kx. destruct (f s x) as [r s1] eqn:F. cbn in Kx. subst s1. specialize (IH a l2 s). destruct (each_left f s (l1 ++ a :: l2)) as [rs s2]. cbn in *. destruct r as [b|]; destruct rs as [bs'|]; try discriminate. intros E. injection E as <-.
      destruct (IH bs') as (b' & I & E'); [intros; apply K; now right|reflexivity|]. exists b'. split; [now right|exact E'].
  Qed.

  (** *** One field *)
  Definition untouched (f : field) : Prop := forall r, In r (f_resolvers f) -> has_directive r = true.
  Lemma not_federation f : untouched f <-> find is_federation (f_resolvers f) = None.
  Proof.
    unfold untouched. split.
    - intros H. destruct (find _ _) as [r|] eqn:E; [|reflexivity]. apply find_some in E. destruct E as [I E]. specialize (H r I). destruct r; discriminate.
    - intros H r I. apply (find_none _ _ H) in I. destruct r; try discriminate; reflexivity.
  Qed.
  Lemma field_same types s d d' : fst (federation_field compile types s d) = Ok d' ->
    same_field d d' /\ exists f, oget scmp (d_name d) types = Some f /\ (untouched f -> d' = d).
  Proof.
    unfold federation_field. destruct (oget scmp (d_name d) types) as [f|]; [|discriminate]. intros H. split.
    - destruct (find is_federation (f_resolvers f)) as [r|]; [destruct r as [| | | | | |m|]|]; cbn -[compile_entity_resolver] in H; try (injection H as <-; now repeat split). destruct (compile_entity_resolver compile m); [|discriminate]. injection H as <-. now repeat split.
    - exists f. split; [reflexivity|]. intros U. apply not_federation in U. rewrite U in H. now injection H as <-.
  Qed.
  Lemma field_left types s d : (forall f, oget scmp (d_name d) types = Some f -> untouched f \/ exists m, f_resolvers f = [REntity m]) -> snd (federation_field compile types s d) = s.
  Proof.
    intros H. unfold federation_field. destruct (oget scmp (d_name d) types) as [f|]; [|reflexivity]. destruct (H f eq_refl) as [U|[m E]].
    - apply not_federation in U. now rewrite U.
    - rewrite E. reflexivity.
  Qed.
  Lemma field_entities types s d d' f m : oget scmp (d_name d) types = Some f -> f_resolvers f = [REntity m] -> fst (federation_field compile types s d) = Ok d' ->
    exists e, compile_entity_resolver compile m = Ok e /\ d' = with_resolver (Some e) d.
  Proof. intros G R. unfold federation_field. rewrite G, R. cbn [find is_federation fst]. destruct (compile_entity_resolver compile m) as [e|]; [|discriminate]. intros H. injection H as <-. eauto. Qed.
  Lemma service_text_is s : service_text s = (s ++ federation_link)%string.
  Proof. unfold service_text. f_equal. Qed.
  Lemma field_service types s d d' f : oget scmp (d_name d) types = Some f -> f_resolvers f = [RService] -> fst (federation_field compile types s d) = Ok d' ->
    d' = with_resolver (Some (IService (s ++ federation_link))) d.
  Proof. intros G R. unfold federation_field. rewrite G, R. cbn. intros H. injection H as <-. now rewrite service_text_is. Qed.
End Fed.

(** ** Asking for entities *)
Section Ask.
  Context {IO F Key St : Type}.
  Variable rx : req_ext.
  Variable ext : auth_ext.
  Variable req : request.
  Variable do_io : IO -> ctx -> St -> result value F * St.
  Variable cache_key : IO -> ctx -> option Key.
  Variable cache_get : Key -> St -> result (option value) F * St.
  Variable cache_set : Key -> value -> Z -> St -> result unit F * St.
  Variable compile : string -> field -> resolver -> valid (option (ir IO)).
  Variable c : config.
  Variable m : list (string * ir IO).
  Local Notation Ev := (Ev rx ext req do_io cache_key cache_get cache_set).
  Local Notation EvEntities := (EvEntities rx ext req do_io cache_key cache_get cache_set).
  Local Notation answered := (answered rx ext req do_io cache_key cache_get cache_set compile c).
  Hypothesis table : forall n e, aget n m = Some e <-> entity compile c n e.

  Lemma entities_answered x : forall l tasks, Resolvers m l tasks -> forall st vs st', EvEntities tasks x st (map Ok vs) st' -> answered x l st vs st'.
  Proof.
    induction 1 as [|repr l n e tasks T A R IH]; intros st vs st' H.
    - inversion H as [? ? E1 E2 E3 E4|]; subst. destruct vs; [constructor|discriminate].
    - inversion H as [|n0 repr0 e0 tasks0 c0 st0 r st1 rs st2 E1 E2]; subst. destruct vs as [|w vs]; [discriminate|]. cbn in *. match goal with X : named n r :: rs = _ |- _ => injection X as En Er | X : _ = named n r :: rs |- _ => injection X as En Er end. subst rs.
      unfold named in En. destruct r as [v|er]; [|discriminate]. destruct (set_type_name n v) as [w'|] eqn:S; [|discriminate]. injection En as ->. apply Answered_more with (n := n) (e := e) (v := v) (st1 := st1); [now apply of_type_is|now apply table|exact E1|now apply labelled_set|now apply IH].
  Qed.
  Lemma answered_entities x : forall l st ws st', answered x l st ws st' -> exists tasks vs, Resolvers m l tasks /\ EvEntities tasks x st (map Ok vs) st'.
  Proof.
    induction 1 as [st|repr l n e v w st st1 ws st2 T A E L R (tasks & vs & IR & IE)].
    - exists [], []. split; constructor.
    - destruct (labelled_some _ _ _ L) as [w' S]. exists ((n, repr, e) :: tasks), (w' :: vs). split.
      + constructor; [now apply of_type_is|now apply table|exact IR].
      + cbn [map]. replace (Ok w') with (named (F := F) n (Ok v)) by (cbn; now rewrite S). now apply EvEntities_cons with st1.
  Qed.
  Lemma unresolvable l repr : In repr l -> (forall n e, of_type repr n -> ~ entity compile c n e) -> exists msg, Unresolvable m l msg.
  Proof.
    intros I N.
    assert (X : (exists tasks, Resolvers m l tasks) \/ exists msg, Unresolvable m l msg).
    { clear. induction l as [|r l IH]; [left; exists []; constructor|]. destruct (get_type_name r) as [n|] eqn:T.
      - destruct (aget n m) as [e|] eqn:A.
        + destruct IH as [[tasks R]|[msg U]]; [left; exists ((n, r, e) :: tasks); now constructor|]. right. destruct U as [good tasks r' rest R T'|good tasks r' rest n' R T' A'].
          * eexists. apply (Un_untyped m (r :: good) ((n, r, e) :: tasks)); [now constructor|exact T'].
          * eexists. apply (Un_unknown m (r :: good) ((n, r, e) :: tasks) r' rest n'); [now constructor|exact T'|exact A'].
        + right. eexists. apply (Un_unknown m [] [] r l n); [constructor|exact T|exact A].
      - right. eexists. apply (Un_untyped m [] [] r l); [constructor|exact T]. }
    destruct X as [[tasks R]|U]; [|exact U]. exfalso. clear -table R I N. induction R as [|r l n e tasks T A R IH]; [destruct I|]. destruct I as [->|I]; [|auto]. apply (N n e); [now apply of_type_is|now apply table].
  Qed.

  Local Notation eval := (eval rx ext req do_io cache_key cache_get cache_set).
  Lemma entities_evaluated x l st r st' : option_map cow_value (path_arg x ["representations"]) = Some (VList l) -> eval (IEntity m) x st = (r, st') ->
    (forall v, r = Ok v -> exists ws, v = VList ws /\ answered x l st ws st') /\
    (forall ws st'', answered x l st ws st'' -> exists ws', r = Ok (VList ws') /\ st' = st'' /\ answered x l st ws' st') /\
    (forall repr, In repr l -> (forall n e, of_type repr n -> ~ entity compile c n e) -> (exists msg, r = Err (EEntity msg)) /\ st' = st).
  Proof.
    intros P H. split; [|split].
    - intros v ->. apply eval_meaning in H. inversion H; subst. match goal with X : option_map cow_value _ = Some (VList ?l'), R : Resolvers m ?l' ?t, E : IrSpec.EvEntities _ _ _ _ _ _ _ _ _ _ (map Ok ?v) _ |- _ => rename X into P', R into R', E into E', v into vs' end. rewrite P in P'. injection P' as <-. exists vs'. split; [reflexivity|]. eapply entities_answered; eauto.
    - intros ws st'' A. destruct (answered_entities x l st ws st'' A) as (tasks & vs & R & E). assert (X : Ev (IEntity m) x st (Ok (VList vs)) st'') by (eapply Ev_entity; eauto). apply eval_meaning in X. rewrite H in X. injection X as -> ->. exists vs. split; [reflexivity|]. split; [reflexivity|]. eapply entities_answered; eauto.
    - intros repr I N. destruct (unresolvable l repr I N) as [msg U]. assert (X : Ev (IEntity m) x st (Err (EEntity msg)) st) by (eapply Ev_entity_unresolvable; eauto). apply eval_meaning in X. rewrite H in X. injection X as -> ->. eauto.
  Qed.
End Ask.
