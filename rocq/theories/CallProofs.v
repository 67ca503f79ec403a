From Coq Require Import String Ascii ZArith NArith Arith Bool Lia List.
From Verif Require Import Base Ordered OrderedFacts BaseFacts JsonModel JsonProofs MustacheModel MustacheSpec MustacheProofs TypeModel ConfigModel AuthModel CtxModel IrModel ComposeModel FieldModel
  FieldSpec FieldProofs Field2Proofs EntityModel EntityProofs CallModel CallSpec.
Import ListNotations.
Open Scope string_scope.
Open Scope list_scope.

Lemma all_checked_two {A B} (f : A -> valid B) l bs : all_checked f l = Ok bs <-> Forall2 (fun a b => f a = Ok b) l bs.
Proof.
  revert bs. induction l as [|a l IH]; intros bs; cbn.
  - split; [intros H; injection H as <-; constructor|]. intros H. now inversion H.
  - split.
    + destruct (f a) as [b|] eqn:E; destruct (all_checked f l) as [r|] eqn:R; try discriminate. intros H. injection H as <-.
      constructor; [exact E|]. now apply IH.
    + intros H. inversion H as [|x y l' bs' FA F2]; subst. rewrite FA. apply IH in F2. now rewrite F2.
Qed.
Lemma all_checked_some {A B} (f : A -> valid B) l : (forall a, In a l -> exists b, f a = Ok b) <-> exists bs, all_checked f l = Ok bs.
Proof.
  induction l as [|a l IH]; cbn.
  - split; [eauto|]. intros _ a [].
  - split.
    + intros H. destruct (H a (or_introl eq_refl)) as [b ->]. destruct (proj1 IH) as [bs ->]; [auto|]. eauto.
    + intros [bs H]. destruct (f a) as [b|] eqn:E; destruct (all_checked f l) as [r|] eqn:R; try discriminate.
      intros x [<- | I]; [eauto|]. apply IH; eauto.
Qed.
Lemma all_checked_bad {A B} (f : A -> valid B) l a es : In a l -> f a = Err es ->
  exists es', all_checked f l = Err es' /\ incl es es'.
Proof.
  induction l as [|x l IH]; intros I E; [contradiction|]. cbn. destruct I as [-> | I].
  - rewrite E. destruct (all_checked f l); eexists; (split; [reflexivity|]); [apply incl_refl|now apply incl_appl].
  - destruct (IH I E) as (es' & -> & J). destruct (f x); eexists; (split; [reflexivity|]); [exact J|now apply incl_appr].
Qed.

Lemma const_iff s : mustache_is_const (parse s) = false <-> exists segs, template s segs.
Proof.
  assert (G : forall l, mustache_is_const l = false <-> exists p, In (Expression p) l).
  { induction l as [|[t|p] l IH]; cbn.
    - split; [discriminate|intros [p []]].
    - rewrite IH. split; [intros [p I]; eauto|intros [p [E | I]]; [discriminate|eauto]].
    - split; eauto. }
  rewrite G. split.
  - intros [p I]. apply in_parse in I. destruct I as (segs & W & I). exists segs. split; eauto.
  - intros (segs & W & p & I). exists p. apply in_parse. eauto.
Qed.
Lemma dynamic_filled rx c v : filled rx c v (render_value rx (dynamic_of v) c).
Proof.
  induction v as [|b|n|s|s|l IH|l IH] using value_ind'; cbn [dynamic_of]; try (apply Fi_other; exact Logic.I).
  - destruct (mustache_is_const (parse s)) eqn:C; cbn [render_value].
    + apply Fi_text. intros segs T. assert (X : mustache_is_const (parse s) = false) by (apply const_iff; eauto). congruence.
    + apply const_iff in C. destruct C as (segs & T). eapply Fi_template; [exact T|]. apply render_rendered. f_equal.
      destruct T as [W (p & I)]. unfold parse. rewrite (parse_segment_complete _ _ W). clear - W.
      assert (G : forall t, In (Literal t) segs -> t <> "").
      { induction W as [|t N B|p s segs rest E W IH|t p s segs rest N B E W IH]; intros t' I.
        - destruct I.
        - destruct I as [I | []]. now injection I as <-.
        - destruct I as [I | I]; [discriminate|auto].
        - destruct I as [I | [I | I]]; [now injection I as <-|discriminate|auto]. }
      clear W. induction segs as [|[t|p] segs IH]; cbn [filter keep_segment]; [reflexivity| |].
      * assert (N : t <> "") by (apply G; now left).
        destruct (String.eqb_spec t "") as [X | _]; [contradiction|]. cbn [negb andb].
        destruct (String.eqb_spec t """") as [-> | NQ]; cbn [negb].
        -- apply IH. intros t' I. apply G. now right.
        -- assert (X : match t with """" => false | _ => true end = true).
           { destruct t as [|a [|]]; try reflexivity; destruct a as [[] [] [] [] [] [] [] []]; try reflexivity. now elim NQ. }
           rewrite X. f_equal. apply IH. intros t' I. apply G. now right.
      * f_equal. apply IH. intros t' I. apply G. now right.
  - cbn [render_value]. rewrite map_map. apply Fi_list. clear -IH. induction IH; cbn; constructor; auto.
  - cbn [render_value]. rewrite map_map. apply Fi_object. clear -IH. induction IH as [|[k v] l H F IH]; cbn; constructor; auto.
Qed.

Section Call.
  Context {IO : Type}.
  Variable valid_templates : gtype -> fdef IO -> valid unit.
  Variable m : cmodule.

  Lemma get_ok s f n t : get_field_and_field_name m s = Ok (f, n, t) <->
    exists type, target s type n /\ find_type (m_config m) type = Some t /\ oget scmp n (t_fields t) = Some f.
  Proof.
    unfold get_field_and_field_name, get_type_and_field, target. split.
    - destruct (s_query s) as [q|].
      + destruct (find_type (m_config m) "Query") as [t'|] eqn:FT; [|discriminate].
        destruct (oget scmp q (t_fields t')) as [f'|] eqn:FF; [|discriminate]. intros H. injection H as -> -> ->. exists "Query". auto.
      + destruct (s_mutation s) as [q|]; [|discriminate]. cbn.
        destruct (find_type (m_config m) "Mutation") as [t'|] eqn:FT; [|discriminate].
        destruct (oget scmp q (t_fields t')) as [f'|] eqn:FF; [|discriminate]. intros H. injection H as -> -> ->. exists "Mutation". auto.
    - intros (type & [[-> ->] | (-> & -> & ->)] & FT & FF); cbn; now rewrite FT, FF.
  Qed.
  Lemma empties_none s f : empties s f = [] <->
    forall k a, In (k, a) (f_args f) -> is_nullable (arg_type a) = false -> In k (map fst (s_args s)).
  Proof.
    unfold empties. induction (f_args f) as [|[k a] l IH]; cbn.
    - split; [intros _ k a []|reflexivity].
    - split.
      + intros H. apply app_eq_nil in H. destruct H as [H1 H2]. intros k' a' [E | I] N.
        * injection E as <- <-. rewrite N in H1. cbn in H1. destruct (smem k (map fst (s_args s))) eqn:SM; [|discriminate].
          now apply smem_In in SM.
        * now apply (proj1 IH H2 k' a').
      + intros H. rewrite (proj2 IH) by (intros k' a' I; apply H; auto). rewrite app_nil_r.
        destruct (is_nullable (arg_type a)) eqn:N; [reflexivity|]. cbn.
        specialize (H k a (or_introl eq_refl) N). apply smem_In in H. now rewrite H.
  Qed.

  Section Steps.
    Variable compile : string -> field -> resolver -> valid (option (ir IO)).
    Variable object : string.
    Local Notation compile_step := (compile_step valid_templates m compile object).
    Local Notation compile_call := (compile_call valid_templates m compile object).
    Local Notation runs_as := (runs_as compile valid_templates m object).

    Definition put (s : step) (e : ir IO) : ir IO :=
      match s_args s with [] => e | _ => IPipe (IDynamic (dynamic_of (VObj (s_args s)))) e end.
    Lemma step_ok s x : compile_step s = Ok x -> exists e, runs_as s e /\ x = put s e.
    Proof.
      unfold CallModel.compile_step. destruct (get_field_and_field_name m s) as [[[f n] t]|] eqn:G; [|discriminate]. cbn [and_then rbind].
      destruct (empties s f) eqn:E; [|discriminate].
      destruct (to_field_definition compile valid_templates m object t f (type_name (f_type f))) as [d|] eqn:D; cbn [and_then rbind];
        [|discriminate].
      destruct (d_resolver d) as [e|] eqn:R; [|discriminate]. cbn [rmap].
      intros H. injection H as <-. exists e. split; [|reflexivity].
      exists t, f, d. split; [|auto]. apply get_ok in G. destruct G as (type & T & FT & FF). exists type, n. split; [exact T|].
      split; [exact FT|]. split; [exact FF|]. now apply empties_none.
    Qed.
    Lemma step_some s : (exists x, compile_step s = Ok x) <-> exists e, runs_as s e.
    Proof.
      split.
      - intros [x H]. apply step_ok in H. destruct H as (e & H & _). eauto.
      - intros (e & t & f & d & (type & n & T & FT & FF & EM) & D & R).
        unfold CallModel.compile_step.
        assert (G : get_field_and_field_name m s = Ok (f, n, t)) by (apply get_ok; eauto).
        rewrite G. cbn [and_then rbind]. rewrite (proj2 (empties_none s f) EM), D. cbn [and_then rbind]. rewrite R. cbn. eauto.
    Qed.
    Lemma call_some steps : (exists e, compile_call steps = Ok e) <->
      steps <> [] /\ forall s, In s steps -> exists e, runs_as s e.
    Proof.
      unfold CallModel.compile_call. split.
      - intros [e H]. destruct (all_checked compile_step steps) as [l|] eqn:A; [|discriminate]. split.
        + intros ->. cbn in A. injection A as <-. discriminate.
        + intros s I. apply step_some. apply (proj2 (all_checked_some compile_step steps)); eauto.
      - intros [NE H]. destruct (proj1 (all_checked_some compile_step steps)) as [l E].
        { intros s I. apply step_some. auto. }
        rewrite E. cbn [and_then rbind]. destruct l as [|e l]; [|eauto]. apply all_checked_two in E. inversion E; subst. contradiction.
    Qed.

    Section Eval.
      Context {F Key St : Type}.
      Variable rx : req_ext.
      Variable ext : auth_ext.
      Variable req : request.
      Variable do_io : IO -> ctx -> St -> result value F * St.
      Variable cache_key : IO -> ctx -> option Key.
      Variable cache_get : Key -> St -> result (option value) F * St.
      Variable cache_set : Key -> value -> Z -> St -> result unit F * St.
      Local Notation eval := (eval rx ext req do_io cache_key cache_get cache_set).

      Lemma put_answer s e c st : answers rx eval s e c st (eval (put s e) c st).
      Proof.
        unfold put. destruct (s_args s) as [|kv l] eqn:E; [now apply A_same|].
        eapply A_given; [rewrite E; discriminate|rewrite E; apply dynamic_filled|]. reflexivity.
      Qed.
      Lemma pipes l : forall x c st, eval (fold_left IPipe l x) c st =
        fold_left (fun r e => match r with (Ok v, st) => eval e (with_args v c) st | (Err er, st) => (Err er, st) end) l (eval x c st).
      Proof.
        induction l as [|e l IH]; intros x c st; cbn [fold_left]; [reflexivity|]. rewrite IH. reflexivity.
      Qed.
      Lemma pipe_err l c er st : fold_left (fun r e => match r with (Ok v, st) => eval e (with_args v c) st | (Err er, st) => (Err er, st) end) l (Err er, st) = (Err er, st).
      Proof. induction l; auto. Qed.
      Lemma with_args_twice v w c : with_args w (with_args v c) = with_args w c.
      Proof. reflexivity. Qed.
      Lemma in_turn_pipes l : forall a e c st,
        in_turn rx eval ((a, e) :: l) c st (eval (fold_left IPipe (map (fun de => put (fst de) (snd de)) l) (put a e)) c st).
      Proof.
        induction l as [|[b f] l IH]; intros a e c st; cbn [map].
        - cbn [fold_left]. apply T_last. apply put_answer.
        - rewrite pipes. pose proof (put_answer a e c st) as A. destruct (eval (put a e) c st) as [[v|er] st'].
          + eapply T_next; [discriminate|exact A|]. cbn [fold_left fst snd]. specialize (IH b f (with_args v c) st').
            rewrite pipes in IH. cbn [fst snd].
            assert (X : forall l (o : result value (ir_error F) * St),
              fold_left (fun r e => match r with (Ok w, st) => eval e (with_args w (with_args v c)) st | (Err er, st) => (Err er, st) end) l o =
              fold_left (fun r e => match r with (Ok w, st) => eval e (with_args w c) st | (Err er, st) => (Err er, st) end) l o).
            { intros l0. induction l0 as [|h l0 IHl]; intros o; cbn; [reflexivity|]. apply IHl. }
            rewrite X in IH. exact IH.
          + cbn [fold_left]. rewrite pipe_err. eapply T_stop; [discriminate|exact A].
      Qed.

      Lemma call_runs steps e : compile_call steps = Ok e ->
        exists l, Forall2 runs_as steps l /\ forall c st, in_turn rx eval (combine steps l) c st (eval e c st).
      Proof.
        unfold CallModel.compile_call. destruct (all_checked compile_step steps) as [xs|] eqn:A; [|discriminate]. cbn [and_then rbind].
        apply all_checked_two in A. intros H.
        assert (G : exists l, Forall2 runs_as steps l /\ xs = map (fun de => put (fst de) (snd de)) (combine steps l)).
        { clear H. induction A as [|s x steps xs HS A (l & F2 & ->)]; [exists []; auto|].
          apply step_ok in HS. destruct HS as (e0 & R & ->). exists (e0 :: l). split; [constructor; auto|reflexivity]. }
        destruct G as (l & F2 & ->). exists l. split; [exact F2|]. intros c st.
        destruct (combine steps l) as [|[a e0] l']; [discriminate|]. cbn [map fst snd] in H. injection H as <-. apply in_turn_pipes.
      Qed.

      (** A step that always fails. *)
      Lemma answers_err s e c st out : answers rx eval s e c st out ->
        (forall c st, exists er, eval e c st = (Err (EAuth er), st)) -> exists er, out = (Err (EAuth er), st).
      Proof.
        intros [N E | w N FI E] B.
        - destruct (B c st) as [er E']. exists er. congruence.
        - destruct (B (with_args w c) st) as [er E']. exists er. congruence.
      Qed.
      Lemma in_turn_err l : forall c st out a e, in_turn rx eval l c st out -> In (a, e) l ->
        (forall c st, exists er, eval e c st = (Err (EAuth er), st)) -> exists er, fst out = Err er.
      Proof.
        intros c st out a e T. induction T as [a' e' c st out A | a' e' rest c st v st' out NE A T IH | a' e' rest c st er st' NE A]; intros I B.
        - destruct I as [I | []]. injection I as -> ->. apply answers_err in A; [|exact B]. destruct A as [er ->]. cbn. eauto.
        - destruct I as [I | I]; [|auto]. injection I as -> ->. apply answers_err in A; [|exact B]. destruct A as [er A]. discriminate.
        - cbn. eauto.
      Qed.
      Lemma in_turn_first a e l c st out : in_turn rx eval ((a, e) :: l) c st out ->
        (forall c st, exists er, eval e c st = (Err (EAuth er), st)) -> exists er, out = (Err (EAuth er), st).
      Proof.
        intros T B. inversion T as [s e' c' st1 out' A | s e' rest c' st1 v st' out' NE A T' | s e' rest c' st1 er' st' NE A]; subst;
          apply answers_err in A; auto. destruct A as [er A]. discriminate.
      Qed.

      Lemma call_refused steps e s t f p fl : compile_call steps = Ok e -> In s steps -> calls m s t f ->
        marked m t f -> demanded m t f p -> verify_provider ext p req = Fail fl ->
        forall c st, (exists er, fst (eval e c st) = Err er) /\
          (hd_error steps = Some s -> exists er, eval e c st = (Err (EAuth er), st)).
      Proof.
        intros H I CA MK DM V. destruct (call_runs _ _ H) as (l & F2 & T).
        assert (G : forall e', runs_as s e' -> forall c st, exists er, eval e' c st = (Err (EAuth er), st)).
        { intros e' (t' & f' & d & CA' & D & R) c st.
          assert (t' = t /\ f' = f) as [-> ->].
          { destruct CA as (ty & n & TG & FT & FF & _). destruct CA' as (ty' & n' & TG' & FT' & FF' & _).
            unfold target in TG, TG'.
            assert (ty' = ty /\ n' = n) as [-> ->].
            { destruct TG as [[A ->] | (A & A' & ->)]; destruct TG' as [[B ->] | (B & B' & ->)]; try congruence; split; congruence. }
            assert (t' = t) as -> by congruence. split; congruence. }
          destruct (refused compile valid_templates m rx ext req do_io cache_key cache_get cache_set object t f _ d p fl D MK DM V c st) as [er E].
          unfold deliver in E. rewrite R in E. eauto. }
        intros c st. split.
        - assert (J : exists e', In (s, e') (combine steps l) /\ runs_as s e').
          { clear - I F2. induction F2 as [|x y l1 l2 R F2 IH]; [contradiction|]. destruct I as [-> | I].
            - exists y. cbn. auto.
            - destruct (IH I) as (e' & J & R'). exists e'. cbn. auto. }
          destruct J as (e' & J & R'). eapply in_turn_err; [apply T|exact J|]. now apply G.
        - intros HD. destruct steps as [|s0 steps]; [discriminate|]. injection HD as ->.
          inversion F2 as [|x e' y z HS F2' EX]; subst. eapply in_turn_first; [apply T|]. now apply G.
      Qed.
    End Eval.
  End Steps.
End Call.

(** * Fields whose calls lead back *)
Section Loop.
  Context {IO : Type}.
  Variable valid_templates : gtype -> fdef IO -> valid unit.
  Variable m : cmodule.
  Variable compile_other : string -> field -> resolver -> valid (option (ir IO)).
  Variable steps_of : string -> list step.
  Local Notation compile_resolver := (compile_resolver valid_templates m compile_other steps_of).

  Lemma loops (L : string -> Prop) :
    (forall text, L text -> exists s t f text', In s (steps_of text) /\ calls m s t f /\ In (RCall text') (f_resolvers f) /\ L text') ->
    forall stack object f text, L text -> exists es, compile_resolver stack object f (RCall text) = Err es.
  Proof.
    intros H stack. induction stack as [|stack IH]; intros object f text I; cbn [CallModel.compile_resolver]; [eexists; reflexivity|].
    destruct (H text I) as (s & t & f' & text' & IS & CA & IR & I').
    destruct (compile_call valid_templates m (compile_resolver stack) object (steps_of text)) as [e|es] eqn:E; [|eexists; reflexivity].
    exfalso. assert (X : exists e, compile_call valid_templates m (compile_resolver stack) object (steps_of text) = Ok e) by eauto.
    apply call_some in X. destruct X as [_ X]. destruct (X s IS) as (e' & t0 & f0 & d & CA' & D & R).
    assert (t0 = t /\ f0 = f') as [-> ->].
    { destruct CA as (ty & n & TG & FT & FF & _). destruct CA' as (ty' & n' & TG' & FT' & FF' & _).
      unfold target in TG, TG'.
      assert (ty' = ty /\ n' = n) as [-> ->].
      { destruct TG as [[A ->] | (A & A' & ->)]; destruct TG' as [[B ->] | (B & B' & ->)]; try congruence; split; congruence. }
      assert (t0 = t) as -> by congruence. split; congruence. }
    apply define_steps in D. destruct D as (rs & _ & _ & _ & _ & A & _).
    destruct (IH object f' text' I') as [es ER].
    destruct (all_checked_bad _ _ _ _ IR ER) as (es' & B & _). congruence.
  Qed.
End Loop.
