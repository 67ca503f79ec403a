(** Constant plans: what they answer depends on nothing (C07). *)
From Coq Require Import String Ascii ZArith NArith Bool Arith Lia List.
From Verif Require Import Base BaseFacts JsonModel JsonSpec JsonProofs TypeModel MustacheModel MustacheProofs CtxModel
  AuthModel DiscModel MergeModel IrModel TtlModel IrSpec IrProofs GuardProofs PlanModel PlanSpec PlanProofs SynthProofs
  OpModel OpSpec OpProofs ExecModel ExecSpec ExecProofs.
Import ListNotations.
Open Scope string_scope.
Open Scope list_scope.

Section DynInd.
  Variable P : dynamic -> Prop.
  Hypothesis HV : forall v, P (DValue v).
  Hypothesis HM : forall m, P (DMustache m).
  Hypothesis HO : forall l, Forall (fun kv => P (snd kv)) l -> P (DObject l).
  Hypothesis HA : forall l, Forall P l -> P (DArray l).
  Fixpoint dynamic_ind2 (d : dynamic) : P d :=
    match d with
    | DValue v => HV v
    | DMustache m => HM m
    | DObject l => HO l ((fix go l : Forall (fun kv => P (snd kv)) l :=
        match l with [] => Forall_nil _ | kv :: t => Forall_cons _ (dynamic_ind2 (snd kv)) (go t) end) l)
    | DArray l => HA l ((fix go l : Forall P l :=
        match l with [] => Forall_nil _ | x :: t => Forall_cons _ (dynamic_ind2 x) (go t) end) l)
    end.
End DynInd.

Lemma const_render rx rx' c c' : (forall t, x_parse rx t = x_parse rx' t) ->
  forall d, dynamic_is_const d = true -> render_value rx d c = render_value rx' d c'.
Proof.
  intros HP. induction d as [v|m|l IH|l IH] using dynamic_ind2; cbn; intros H; auto.
  - rewrite (render_const_any m (path_string rx c) (path_string rx' c') H). now rewrite HP.
  - f_equal. rewrite forallb_forall in H. apply map_ext_in. intros kv I. f_equal.
    rewrite Forall_forall in IH. apply IH; auto.
  - f_equal. rewrite forallb_forall in H. apply map_ext_in. intros x I.
    rewrite Forall_forall in IH. apply IH; auto.
Qed.

Section Const.
  Context {IO F Key St : Type}.
  Notation ir := (ir IO).
  Notation field := (pfield ir).

  Definition ev (en : env IO F Key St) : ir -> ctx -> St -> result value (ir_error F) * St :=
    eval (e_rx en) (e_auth en) (e_req en) (e_io en) (e_key en) (e_get en) (e_set en).

  Definition same_parser (a b : env IO F Key St) : Prop := forall t, x_parse (e_rx a) t = x_parse (e_rx b) t.

  Lemma const_eval a b : same_parser a b -> forall e, Open e -> is_const e = true ->
    forall c c' st st', fst (ev a e c st) = fst (ev b e c' st') /\ snd (ev a e c st) = st /\ snd (ev b e c' st') = st'.
  Proof.
    intros HP. unfold ev. induction e as [d|io|age io|e p IH|p|x e IH|e m IH|e1 e2 IH1 IH2|l IH|d e IH|m IH|s] using ir_ind';
      intros O C c c' st st'; inversion O; subst; cbn in C; try discriminate; cbn.
    - split; [|auto]. f_equal. now apply const_render.
    - destruct (IH ltac:(assumption) C c c' st st') as (A & B & D).
      destruct (eval (e_rx a) _ _ _ _ _ _ e c st) as [[v|er] s1], (eval (e_rx b) _ _ _ _ _ _ e c' st') as [[v'|er'] s2];
        cbn in *; try discriminate; injection A as A; subst; auto.
    - destruct (IH ltac:(assumption) C c c' st st') as (A & B & D).
      destruct (eval (e_rx a) _ _ _ _ _ _ e c st) as [[v|er] s1], (eval (e_rx b) _ _ _ _ _ _ e c' st') as [[v'|er'] s2];
        cbn in *; try discriminate; injection A as A; subst; auto.
    - apply andb_true_iff in C as [C1 C2].
      destruct (IH1 ltac:(assumption) C1 c c' st st') as (A & B & D).
      destruct (eval (e_rx a) _ _ _ _ _ _ e1 c st) as [[v|er] s1], (eval (e_rx b) _ _ _ _ _ _ e1 c' st') as [[v'|er'] s2];
        cbn in *; try discriminate; injection A as A; subst; [|auto]. now apply IH2.
    - match goal with |- fst (let '(_, _) := ?f l st in _) = fst (let '(_, _) := ?g l st' in _) /\ _ =>
        set (ga := f); set (gb := g) end.
      enough (Q : fst (ga l st) = fst (gb l st') /\ snd (ga l st) = st /\ snd (gb l st') = st').
      { destruct (ga l st) as [r1 t1], (gb l st') as [r2 t2]. cbn in *. destruct Q as (-> & -> & ->). auto. }
      clear O. revert st st'. induction IH as [|x t Hx _ IHt]; intros st st'; [cbn; auto|].
      inversion H0 as [|? ? O1 O2]; subst. apply andb_true_iff in C as [C1 C2]. cbn.
      destruct (Hx O1 C1 c c' st st') as (A & B & D).
      destruct (eval (e_rx a) _ _ _ _ _ _ x c st) as [r1 s1], (eval (e_rx b) _ _ _ _ _ _ x c' st') as [r2 s2].
      cbn in A, B, D. subst. destruct (IHt C2 O2 st st') as (A & B & D).
      fold ga gb. destruct (ga t st) as [r1 t1], (gb t st') as [r2' t2]. cbn in *. subst. auto.
    - destruct (IH ltac:(assumption) C c c' st st') as (A & B & D).
      destruct (eval (e_rx a) _ _ _ _ _ _ e c st) as [[v|er] s1], (eval (e_rx b) _ _ _ _ _ _ e c' st') as [[v'|er'] s2];
        cbn in *; try discriminate; injection A as A; subst; auto.
    - auto.
  Qed.
End Const.

(** ** Runs whose resolvers agree *)
Section Agree.
  Context {IR E : Type}.
  Notation field := (pfield IR).

  Inductive Each (P : field -> Prop) : field -> Prop :=
  | each f : P f -> Forall (Each P) (p_selection f) -> Each P f.

  Lemma each_inv P f : Each P f -> P f /\ Forall (Each P) (p_selection f).
  Proof. intros []; auto. Qed.

  Lemma skip_inside_none vars : forall f : field, Each (fun g => field_skip vars g = false) f -> skip_inside vars f = f.
  Proof.
    induction f as [f IH] using pfield_ind'. intros H. apply each_inv in H as [_ H].
    destruct f as [i n o e t c s inc en sc sel]. cbn in *. f_equal.
    induction IH as [|g l Hg _ IHl]; auto. inversion H as [|? ? H1 H2]; subst.
    destruct (each_inv _ _ H1) as [-> _]. rewrite Hg by auto. f_equal. auto.
  Qed.

  Lemma skip_fields_none vars (l : list field) :
    Forall (Each (fun g => field_skip vars g = false)) l -> skip_fields vars l = l.
  Proof.
    induction 1 as [|g l H _ IH]; auto. cbn. rewrite (proj1 (each_inv _ _ H)), IH. f_equal. now apply skip_inside_none.
  Qed.

  Variable implements : string -> string -> bool.
  Variable missing : E.
  Variables r1 r2 : field -> option value -> result value E.
  Notation agree := (fun f : field => p_ir f <> None -> forall v, r1 f v = r2 f v).

  Lemma agree_execute f ctx : agree f -> p_ir f <> None ->
    execute_ir implements r1 missing f ctx = execute_ir implements r2 missing f ctx.
  Proof.
    intros A N. unfold execute_ir. apply execute_field_ext; auto.
    - intros v. unfold call_ir. rewrite (A N). reflexivity.
    - unfold call_ir. apply (A N).
  Qed.

  Lemma agree_exec : forall f ctx, Each agree f -> exec implements r1 missing f ctx = exec implements r2 missing f ctx.
  Proof.
    induction f as [f IH] using pfield_ind'. intros ctx H. apply each_inv in H as [A Sel].
    assert (L : forall v, exec_list implements r1 missing (p_selection f) v =
                          exec_list implements r2 missing (p_selection f) v).
    { intros v. unfold exec_list. clear - IH Sel. induction IH as [|c l Hc _ IHl]; auto.
      inversion Sel; subst. cbn. rewrite Hc by auto. f_equal. auto. }
    rewrite !exec_eq. destruct (p_ir f) as [x|] eqn:I.
    - rewrite (agree_execute f ctx) by (intros; try apply A; congruence).
      destruct (snd (execute_ir implements r2 missing f ctx)); now rewrite ?L.
    - destruct (plain_value f ctx); auto.
  Qed.

  Lemma agree_exec_all l : Forall (Each agree) l ->
    exec_all implements r1 missing l = exec_all implements r2 missing l.
  Proof. unfold exec_all. induction 1 as [|c l X _ IH]; auto. cbn. now rewrite agree_exec, IH. Qed.

  Variable validate : string -> value -> bool.
  Variable enum_value : string -> string -> bool.
  Variables v1 v2 : variables.
  Variable st : nat -> option (result value E).
  Notation sn1 := (PlanModel.synth_node (IR := IR) (E := E) implements validate enum_value v1 st).
  Notation sn2 := (PlanModel.synth_node (IR := IR) (E := E) implements validate enum_value v2 st).
  Notation kept := (fun f : field => field_skip v1 f = false /\ field_skip v2 f = false).

  Lemma kept_synth : forall f, Each kept f -> forall v dp p, sn1 f v dp p = sn2 f v dp p.
  Proof.
    induction f as [f IH] using pfield_ind'. intros A. apply each_inv in A as [[S1 S2] Sel].
    assert (Mem : forall obj dp p, members implements validate enum_value v1 st f obj dp (p_selection f) p =
                                   members implements validate enum_value v2 st f obj dp (p_selection f) p).
    { intros obj dp. induction IH as [|c l Hc _ IHl]; intros p; [reflexivity|].
      inversion Sel as [|? ? X Y]; subst. destruct (each_inv _ _ X) as [[T1 T2] _].
      rewrite !members_cons, T1, T2. destruct (_ && _); [|auto].
      destruct (String.eqb (p_name c) "__typename"); [cbn; now rewrite IHl|].
      rewrite (iter_with_ext st st (sn1 c) (sn2 c)) by auto.
      destruct (iter_with st (sn2 c) c _ dp None p) as [[y|e] p1]; [now rewrite IHl|reflexivity]. }
    intros v. induction v as [| | | | |l IHl|m IHm] using value_ind'; intros dp p;
      rewrite !synth_node_eq; rewrite S1, S2; try reflexivity; cbn [is_null].
    - destruct (p_scalar f); [reflexivity|]. destruct (p_is_enum f); [reflexivity|].
      assert (El : forall i p, elements (sn1 f) dp i l p = elements (sn2 f) dp i l p).
      { clear p. induction IHl as [|x t X T IHt]; intros i p; [reflexivity|].
        rewrite !elements_cons. rewrite X. destruct (sn2 f x (dp ++ [i]) (SIndex i :: p)) as [[y|e] p1]; auto.
        now rewrite IHt. }
      unfold mbind. now rewrite El.
    - destruct (p_scalar f); [reflexivity|]. destruct (p_is_enum f); [reflexivity|].
      unfold mbind. now rewrite Mem.
  Qed.

  Lemma kept_root root : forall l, Forall (Each kept) l -> forall data p,
    synth_root implements validate enum_value v1 st root l data p =
    synth_root (E := E) implements validate enum_value v2 st root l data p.
  Proof.
    induction 1 as [|c l X _ IH]; intros data p; [reflexivity|]. cbn.
    destruct (each_inv _ _ X) as [[-> ->] _]. unfold mbind.
    rewrite (iter_with_ext st st (sn1 c) (sn2 c)) by (auto using kept_synth).
    destruct (iter_with st (sn2 c) c None [] (Some root) p) as [[y|e] p1]; [apply IH|reflexivity].
  Qed.
End Agree.

Lemma agree_run {IR E} implements missing (r1 r2 : pfield IR -> option value -> result value E)
      validate enum_value root v1 v2 l :
  Forall (Each (fun f => field_skip v1 f = false /\ field_skip v2 f = false /\
                         (p_ir f <> None -> forall v, r1 f v = r2 f v))) l ->
  run implements r1 missing validate enum_value root v1 l =
  run implements r2 missing validate enum_value root v2 l.
Proof.
  intros H. assert (W : forall (P Q : pfield IR -> Prop), (forall f, P f -> Q f) -> forall f, Each P f -> Each Q f).
  { intros P Q PQ. induction f as [f IH] using pfield_ind'. intros X. apply each_inv in X as [X Y].
    constructor; auto. clear - IH Y. induction IH; inversion Y; subst; constructor; auto. }
  unfold run. rewrite !skip_fields_none.
  - rewrite (agree_exec_all implements missing r1 r2).
    + unfold synthesize. rewrite (kept_root implements validate enum_value v1 v2); auto.
      eapply Forall_impl; [|exact H]. apply W. tauto.
    + eapply Forall_impl; [|exact H]. apply W. tauto.
  - eapply Forall_impl; [|exact H]. apply W. tauto.
  - eapply Forall_impl; [|exact H]. apply W. tauto.
Qed.

Section Plans.
  Context {IO F Key St : Type}.
  Notation ir := (ir IO).
  Notation field := (pfield ir).

  Lemma open_not_hoisted (e : ir) a : Open e -> ~ Hoisted e a.
  Proof.
    intros O H. induction H; inversion O; subst; auto.
    match goal with H : Forall Open _ |- _ => rewrite Forall_forall in H; auto end.
  Qed.

  Lemma open_field_parts (f : field) : OpenField f ->
    p_skip f = None /\ p_include f = None /\ (forall e, p_ir f = Some e -> Open e) /\ Forall OpenField (p_selection f).
  Proof. intros []; cbn; auto. Qed.

  Lemma open_visited (f g : field) : Visited f g -> OpenField f -> OpenField g.
  Proof.
    induction 1 as [|f c g N I V IH]; auto. intros O. apply IH. apply open_field_parts in O as (_ & _ & _ & O).
    rewrite Forall_forall in O. auto.
  Qed.

  Lemma open_none_demanded (fs : list field) a : Forall OpenField fs -> ~ Demanded fs a.
  Proof.
    intros O (f & g & e & I & V & P & H). rewrite Forall_forall in O. apply O in I.
    apply (open_visited f g V) in I. apply open_field_parts in I as (_ & _ & I & _).
    eapply open_not_hoisted; eauto.
  Qed.

  Lemma dfs_parts (f : field) : dfs f = f :: all_fields (p_selection f).
  Proof.
    destruct f as [i n o e t c s inc en sc sel]. cbn. f_equal.
  Qed.

  Lemma const_each (P : ir -> bool) (f : field) : forallb (ir_all P) (dfs f) = true ->
    Each (fun g => forall e, p_ir g = Some e -> P e = true) f.
  Proof.
    induction f as [f IH] using pfield_ind'. rewrite dfs_parts. cbn. intros H. apply andb_true_iff in H as [H1 H2].
    constructor.
    - intros e I. unfold ir_all in H1. now rewrite I in H1.
    - unfold all_fields in H2. clear - IH H2. induction IH as [|c l Hc _ IHl]; cbn in *; constructor.
      + apply Hc. rewrite forallb_app in H2. now apply andb_true_iff in H2.
      + apply IHl. rewrite forallb_app in H2. now apply andb_true_iff in H2.
  Qed.

  Lemma const_perform (sc : schema F) (a b : env IO F Key St) dedupe root q (fs : list field) :
    same_parser a b -> Forall OpenField fs -> plan_is_const fs = true ->
    perform sc a (finish_plan dedupe root q fs) = perform sc b (finish_plan dedupe root q fs).
  Proof.
    intros HP O C. unfold perform, finish_plan.
    assert (HA := answered_same (e_rx a) (e_auth a) (e_req a) (e_io a) (e_key a) (e_get a) (e_set a)
      (s_implements sc) (s_missing sc) (s_validate sc) (s_enum sc) root (e_vars a) (e_state a) (e_args a) q fs).
    assert (HB := answered_same (e_rx b) (e_auth b) (e_req b) (e_io b) (e_key b) (e_get b) (e_set b)
      (s_implements sc) (s_missing sc) (s_validate sc) (s_enum sc) root (e_vars b) (e_state b) (e_args b) q fs).
    destruct (plan_auth fs) as [fs' before] eqn:PA. cbn [pl_fields pl_before pl_query pl_root].
    rewrite HA, HB by (intros x D; exfalso; revert D; now apply open_none_demanded). clear HA HB PA fs' before.
    f_equal. apply agree_run.
    unfold plan_is_const, all_fields in C.
    induction O as [|f l Of _ IH]; [constructor|]. cbn in C. rewrite forallb_app in C.
    apply andb_true_iff in C as [C1 C2]. constructor; [|auto]. clear IH C2 l.
    apply const_each in C1. revert Of C1. induction f as [f IHf] using pfield_ind'. intros Of C1.
    apply open_field_parts in Of as (Sk & In_ & Op & Sel). apply each_inv in C1 as [C1 C2].
    constructor.
    - unfold field_skip, eval_condition. rewrite Sk, In_. repeat split.
      intros N v. unfold resolve_field. destruct (p_ir f) as [e|]; [|congruence].
      unfold in_state. exact (proj1 (const_eval a b HP e (Op e eq_refl) (C1 e eq_refl) _ _ _ _)).
    - clear - IHf Sel C2. induction IHf as [|c l Hc _ IHl]; [constructor|].
      inversion Sel; inversion C2; subst. constructor; auto.
  Qed.
End Plans.
