(** Proofs about resolver expressions (C32, C33, C06). *)
From Coq Require Import String Ascii ZArith NArith Bool Arith Lia List.
From Verif Require Import Base BaseFacts JsonModel JsonSpec JsonProofs MustacheModel CtxModel AuthModel DiscModel
  MergeModel IrModel TtlModel IrSpec.
Import ListNotations.
Open Scope string_scope.
Open Scope list_scope.

Section Ind.
  Context {IO : Type}.
  Variable P : ir IO -> Prop.
  Hypothesis Hdyn : forall d, P (IDynamic d).
  Hypothesis Hio : forall io, P (IIO io).
  Hypothesis Hcache : forall a io, P (ICache a io).
  Hypothesis Hpath : forall e p, P e -> P (IPath e p).
  Hypothesis Hctx : forall p, P (IContextPath p).
  Hypothesis Hprot : forall a e, P e -> P (IProtect a e).
  Hypothesis Hmap : forall e m, P e -> P (IMap e m).
  Hypothesis Hpipe : forall e1 e2, P e1 -> P e2 -> P (IPipe e1 e2).
  Hypothesis Hmerge : forall l, Forall P l -> P (IMerge l).
  Hypothesis Hdisc : forall d e, P e -> P (IDiscriminate d e).
  Hypothesis Hent : forall m, Forall (fun kv => P (snd kv)) m -> P (IEntity m).
  Hypothesis Hserv : forall s, P (IService s).

  Fixpoint ir_ind' (e : ir IO) : P e :=
    match e with
    | IDynamic d => Hdyn d
    | IIO io => Hio io
    | ICache a io => Hcache a io
    | IPath e p => Hpath e p (ir_ind' e)
    | IContextPath p => Hctx p
    | IProtect a e => Hprot a e (ir_ind' e)
    | IMap e m => Hmap e m (ir_ind' e)
    | IPipe e1 e2 => Hpipe e1 e2 (ir_ind' e1) (ir_ind' e2)
    | IMerge l =>
        Hmerge l ((fix go (l : list (ir IO)) : Forall P l :=
          match l with [] => Forall_nil _ | e :: t => Forall_cons _ (ir_ind' e) (go t) end) l)
    | IDiscriminate d e => Hdisc d e (ir_ind' e)
    | IEntity m =>
        Hent m ((fix go (m : list (string * ir IO)) : Forall (fun kv => P (snd kv)) m :=
          match m with [] => Forall_nil _ | kv :: t => Forall_cons _ (ir_ind' (snd kv)) (go t) end) m)
    | IService s => Hserv s
    end.
End Ind.

(** ** Enum maps *)

Lemma map_enum_list {F} m l :
  map_enum (F := F) m (VList l) = rmap VList (mapM (map_enum m) l).
Proof.
  cbn [map_enum]. f_equal. induction l as [|v l IH]; cbn [mapM]; auto.
  rewrite IH. destruct (map_enum m v); cbn; auto.
Qed.

Lemma map_enum_spec {F} m v :
  match map_enum (F := F) m v with
  | Ok w => EnumMapped m v w
  | Err (EExpr msg) => EnumError m v msg
  | Err _ => False
  end.
Proof.
  induction v as [| | |s| |l IH|] using value_ind'; try (apply EE_kind; congruence).
  - constructor.
  - cbn. destruct (aget s m) eqn:A; constructor; auto.
  - rewrite map_enum_list.
    assert (G : match mapM (map_enum (F := F) m) l with
                | Ok l' => EnumMappedAll m l l'
                | Err (EExpr msg) => exists good good' v rest, l = good ++ v :: rest /\
                    EnumMappedAll m good good' /\ EnumError m v msg
                | Err _ => False
                end).
    { induction IH as [|v l Hv _ IH]; cbn [mapM]; [constructor|].
      destruct (map_enum m v) as [w|er].
      - destruct (mapM (map_enum m) l) as [l'|[| msg | | |]]; auto.
        + constructor; auto.
        + destruct IH as (good & good' & u & rest & -> & A & B).
          exists (v :: good), (w :: good'), u, rest. repeat split; auto. constructor; auto.
      - destruct er as [|msg| | |]; auto. exists [], [], v, l. repeat split; auto. constructor. }
    destruct (mapM (map_enum m) l) as [l'|[| msg | | |]]; cbn; auto.
    + now constructor.
    + destruct G as (good & good' & u & rest & -> & A & B). eapply EE_list; eauto.
Qed.

Scheme EnumMapped_mind := Induction for EnumMapped Sort Prop
  with EnumMappedAll_mind := Induction for EnumMappedAll Sort Prop.

Lemma EnumMapped_det m : forall v w, EnumMapped m v w -> map_enum (F := Empty_set) m v = Ok w.
Proof.
  apply (EnumMapped_mind m (fun v w _ => map_enum (F := Empty_set) m v = Ok w)
          (fun l l' _ => mapM (map_enum (F := Empty_set) m) l = Ok l')).
  - reflexivity.
  - intros s t A. cbn. now rewrite A.
  - intros l l' _ IH. rewrite map_enum_list, IH. reflexivity.
  - reflexivity.
  - intros v w l l' _ A _ B. cbn. now rewrite A, B.
Qed.

Lemma map_enum_any {F} m v w : EnumMapped m v w -> map_enum (F := F) m v = Ok w.
Proof.
  intros H. apply EnumMapped_det in H.
  enough (G : forall v, match map_enum (F := Empty_set) m v with
                        | Ok w => map_enum (F := F) m v = Ok w | Err _ => True end).
  { specialize (G v). now rewrite H in G. }
  clear. induction v as [| | |s| |l IH|] using value_ind'; try exact I; try reflexivity.
  - cbn. destruct (aget s m); auto.
  - rewrite !map_enum_list.
    enough (E : match mapM (map_enum (F := Empty_set) m) l with
                | Ok l' => mapM (map_enum (F := F) m) l = Ok l' | Err _ => True end).
    { destruct (mapM (map_enum (F := Empty_set) m) l); auto. now rewrite E. }
    induction IH as [|v l Hv _ IH]; cbn [mapM]; auto.
    destruct (map_enum (F := Empty_set) m v); auto. rewrite Hv.
    destruct (mapM (map_enum (F := Empty_set) m) l); auto. now rewrite IH.
Qed.

Lemma EnumError_det {F} m v msg : EnumError m v msg -> map_enum (F := F) m v = Err (EExpr msg).
Proof.
  induction 1 as [s A|v A B C|good good' v rest msg G _ IH].
  - cbn. now rewrite A.
  - destruct v; cbn; auto; [congruence|destruct (B s)|destruct (C l)]; auto.
  - rewrite map_enum_list.
    enough (E : mapM (map_enum (F := F) m) (good ++ v :: rest) = Err (EExpr msg)) by now rewrite E.
    revert good' G. induction good as [|u good IHg]; intros good' G; cbn [app mapM].
    + now rewrite IH.
    + inv G. rewrite (map_enum_any m u w) by auto.
      now rewrite (IHg l').
Qed.

(** ** Merging *)

Lemma merge_values_spec vs : MergedAll vs (merge_values vs).
Proof.
  destruct vs as [|v vs]; [constructor|]. cbn.
  induction vs as [|w vs IH] using rev_ind; [constructor|].
  rewrite fold_left_app. cbn [fold_left].
  change (v :: vs ++ [w]) with ((v :: vs) ++ [w]). constructor; [discriminate|auto].
Qed.

Lemma MergedAll_det vs v : MergedAll vs v -> v = merge_values vs.
Proof.
  induction 1 as [|v|vs u w N _ IH]; auto.
  destruct vs as [|x vs]; [congruence|]. cbn. rewrite fold_left_app. cbn. now rewrite IH.
Qed.

Lemma collect_ok {A E} (vs : list A) : collect (E := E) (map Ok vs) = Ok vs.
Proof. induction vs as [|v vs IH]; cbn; auto. now rewrite IH. Qed.

Lemma collect_spec {A E} (rs : list (result A E)) :
  match collect rs with Ok vs => rs = map Ok vs | Err e => FirstError rs e end.
Proof.
  induction rs as [|[a|e] rs IH]; cbn; auto.
  - destruct (collect rs) as [vs|e]; cbn.
    + now rewrite IH.
    + destruct IH as (good & rest & ->). exists (a :: good), rest. reflexivity.
  - exists [], rs. reflexivity.
Qed.

Lemma FirstError_collect {A E} (rs : list (result A E)) e : FirstError rs e -> collect rs = Err e.
Proof.
  intros (good & rest & ->). induction good as [|a good IH]; cbn; auto. now rewrite IH.
Qed.

(** ** Evaluation *)

Section Eval.
  Context {IO F Key St : Type}.
  Notation ir := (ir IO).
  Notation error := (ir_error F).
  Variable rx : req_ext.
  Variable ext : auth_ext.
  Variable req : request.
  Variable do_io : IO -> ctx -> St -> result value F * St.
  Variable cache_key : IO -> ctx -> option Key.
  Variable cache_get : Key -> St -> result (option value) F * St.
  Variable cache_set : Key -> value -> Z -> St -> result unit F * St.

  Notation eval := (eval rx ext req do_io cache_key cache_get cache_set).
  Notation Ev := (Ev rx ext req do_io cache_key cache_get cache_set).
  Notation EvAll := (EvAll rx ext req do_io cache_key cache_get cache_set).
  Notation EvEntities := (EvEntities rx ext req do_io cache_key cache_get cache_set).

  Fixpoint evals (l : list ir) (c : ctx) (st : St) : list (result value error) * St :=
    match l with
    | [] => ([], st)
    | e :: t => let '(r, st) := eval e c st in let '(rs, st) := evals t c st in (r :: rs, st)
    end.

  Lemma eval_merge l c st :
    eval (IMerge l) c st = let '(rs, st) := evals l c st in (rmap merge_values (collect rs), st).
  Proof.
    cbn [IrModel.eval].
    match goal with |- (let '(_, _) := ?f l st in _) = _ => set (go := f) end.
    enough (G : forall l st, go l st = evals l c st) by now rewrite G.
    clear. induction l as [|e l IH]; intros st; [reflexivity|].
    cbn. fold go. destruct (eval e c st) as [r st1]. now rewrite IH.
  Qed.

  Definition run_task (m : list (string * ir)) (n : string) (repr : value) (c : ctx) (st : St)
    : result value error * St :=
    match aget n m with
    | Some e => let '(r, st) := eval e (with_value repr c) st in (named n r, st)
    | None => (Err (EEntity ""), st)
    end.

  Fixpoint run_tasks (m : list (string * ir)) (c : ctx) (tasks : list (string * value)) (st : St)
    : list (result value error) * St :=
    match tasks with
    | [] => ([], st)
    | (n, repr) :: t =>
        let '(r, st) := run_task m n repr c st in
        let '(rs, st) := run_tasks m c t st in (r :: rs, st)
    end.

  Lemma eval_entity m c st :
    eval (IEntity m) c st =
    match option_map cow_value (path_arg c ["representations"]) with
    | Some (VList l) =>
        match check_representations (map fst m) l with
        | Err er => (Err er, st)
        | Ok tasks => let '(rs, st) := run_tasks m c tasks st in (rmap VList (collect rs), st)
        end
    | _ => (Err (EEntity "expected `representations` arg as an array of _Any"), st)
    end.
  Proof.
    cbn [IrModel.eval].
    destruct (path_arg c ["representations"]) as [r|]; [|reflexivity]. cbn [option_map].
    destruct (cow_value r) as [| | | | |l|]; cbn [as_array]; try reflexivity.
    destruct (check_representations (map fst m) l) as [tasks|er]; [|reflexivity].
    match goal with |- (let '(_, _) := ?f tasks st in _) = _ => set (run := f) end.
    enough (G : forall tasks st, run tasks st = run_tasks m c tasks st) by now rewrite G.
    clear. intros tasks. induction tasks as [|[n repr] tasks IH]; intros st; [reflexivity|].
    cbn. fold run.
    match goal with |- (let '(_, _) := ?f m in _) = _ => set (find := f) end.
    assert (Q : forall m, find m = run_task m n repr c st).
    { clear. intros m. unfold run_task. induction m as [|[k e] m IH]; [reflexivity|].
      cbn. destruct (String.eqb n k); [reflexivity|]. exact IH. }
    rewrite Q. destruct (run_task m n repr c st) as [r st1]. rewrite IH. reflexivity.
  Qed.

  Lemma check_spec (m : list (string * ir)) l :
    match check_representations (F := F) (map fst m) l with
    | Ok tasks => exists full, Resolvers m l full /\ tasks = map fst full
    | Err (EEntity msg) => Unresolvable m l msg
    | Err _ => False
    end.
  Proof.
    induction l as [|repr l IH]; cbn [check_representations].
    - exists []. split; [constructor|reflexivity].
    - destruct (get_type_name repr) as [n|] eqn:N.
      + destruct (smem n (map fst m)) eqn:S0.
        * destruct (aget n m) as [e|] eqn:A.
          2:{ apply smem_In in S0. apply aget_None in A. unfold akeys in A. contradiction. }
          destruct (check_representations (map fst m) l) as [tasks|[| | msg | |]]; cbn; auto.
          -- destruct IH as (full & R & ->). exists ((n, repr, e) :: full). split; [|reflexivity].
             constructor; auto.
          -- inv IH.
             ++ change (repr :: good ++ repr0 :: rest) with ((repr :: good) ++ repr0 :: rest).
                econstructor; eauto. econstructor; eauto.
             ++ change (repr :: good ++ repr0 :: rest) with ((repr :: good) ++ repr0 :: rest).
                eapply Un_unknown; eauto. econstructor; eauto.
        * apply (Un_unknown m [] [] repr l n); [constructor|auto|].
          apply aget_None. intros H. apply smem_In in H. unfold akeys in H. congruence.
      + apply (Un_untyped m [] [] repr l); [constructor|auto].
  Qed.

  Lemma Resolvers_check (m : list (string * ir)) l full :
    Resolvers m l full -> check_representations (F := F) (map fst m) l = Ok (map fst full).
  Proof.
    induction 1 as [|repr l n e tasks N A R IH]; cbn; auto.
    rewrite N. apply aget_In in A. rewrite (proj2 (smem_In n (map fst m))).
    - now rewrite IH.
    - apply in_map_iff. exists (n, e). auto.
  Qed.

  Lemma Unresolvable_check (m : list (string * ir)) l msg :
    Unresolvable m l msg -> check_representations (F := F) (map fst m) l = Err (EEntity msg).
  Proof.
    assert (G : forall good tasks repr rest er, Resolvers m good tasks ->
      check_representations (F := F) (map fst m) (repr :: rest) = Err er ->
      check_representations (F := F) (map fst m) (good ++ repr :: rest) = Err er).
    { intros good tasks repr rest er R H.
      induction R as [|repr' l0 n e tasks N A R IH]; auto.
      cbn [app check_representations]. rewrite N, IH.
      apply aget_In in A. rewrite (proj2 (smem_In n (map fst m))); auto.
      apply in_map_iff. exists (n, e). auto. }
    intros H. inv H; (eapply G; [eassumption|]); cbn; rewrite H1; auto.
    destruct (smem n (map fst m)) eqn:S0; auto.
    apply smem_In in S0. apply aget_None in H2. unfold akeys in H2. contradiction.
  Qed.

  Lemma evals_sound l :
    Forall (fun e => forall c st r st', eval e c st = (r, st') -> Ev e c st r st') l ->
    forall c st rs st', evals l c st = (rs, st') -> EvAll l c st rs st'.
  Proof.
    induction 1 as [|e l He _ IH]; intros c st rs st' H; cbn in H.
    - inv H. constructor.
    - destruct (eval e c st) as [r st1] eqn:E1. destruct (evals l c st1) as [rs1 st2] eqn:E2.
      inv H. econstructor; eauto.
  Qed.

  Lemma tasks_sound m :
    Forall (fun kv => forall c st r st', eval (snd kv) c st = (r, st') -> Ev (snd kv) c st r st') m ->
    forall l full, Resolvers m l full ->
    forall c st rs st', run_tasks m c (map fst full) st = (rs, st') -> EvEntities full c st rs st'.
  Proof.
    intros H l full R. induction R as [|repr l n e tasks N A R IH]; intros c st rs st' Q; cbn in Q.
    - inv Q. constructor.
    - unfold run_task in Q. rewrite A in Q.
      destruct (eval e (with_value repr c) st) as [r st1] eqn:E1.
      destruct (run_tasks m c (map fst tasks) st1) as [rs1 st2] eqn:E2. inv Q.
      constructor 2 with (st1 := st1).
      + apply aget_In in A. rewrite Forall_forall in H. apply (H (n, e)); auto.
      + eauto.
  Qed.

  Lemma eval_sound : forall e c st r st', eval e c st = (r, st') -> Ev e c st r st'.
  Proof.
    induction e as [d|io|age io|e p IH|p|a e IH|e m IH|e1 e2 IH1 IH2|l IH|d e IH|m IH|s] using ir_ind';
      intros c st r st' H.
    - inv H. constructor.
    - cbn in H. destruct (do_io io c st) as [r0 st0] eqn:D. inv H. now constructor.
    - cbn in H. unfold eval_cached in H.
      destruct (cache_key io c) as [k|] eqn:K.
      + destruct (cache_get k st) as [[[v|]|f] st1] eqn:G.
        * inv H. eapply Ev_hit; eauto.
        * destruct (do_io io c st1) as [[v|f] st2] eqn:D.
          -- destruct (cache_set k v age st2) as [[[]|f] st3] eqn:C.
             ++ inv H. eapply Ev_miss; eauto.
             ++ inv H. eapply Ev_miss_unstored; eauto.
          -- inv H. eapply Ev_miss_fail; eauto.
        * inv H. eapply Ev_broken_cache; eauto.
      + destruct (do_io io c st) as [r0 st0] eqn:D. inv H. eapply Ev_nokey; eauto.
    - cbn in H. destruct (eval e c st) as [[v|er] st1] eqn:E; inv H.
      + apply (Ev_path _ _ _ _ _ _ _ e p c st v). auto.
      + constructor. auto.
    - cbn in H. inv H. replace (match path_value c p with Some v => cow_value v | None => VNull end)
        with (or_null (option_map cow_value (path_value c p))) by (destruct (path_value c p); auto).
      constructor.
    - cbn in H. destruct (verify ext a req) as [|er] eqn:V; cbn in H.
      + apply Ev_guard; auto.
      + inv H. now apply Ev_guard_fails.
    - cbn in H. destruct (eval e c st) as [[v|er] st1] eqn:E; inv H.
      + pose proof (map_enum_spec (F := F) m v) as G. destruct (map_enum m v) as [w|[|msg| | |]]; try contradiction.
        * eapply Ev_map; eauto.
        * eapply Ev_map_fails; eauto.
      + constructor. auto.
    - cbn in H. destruct (eval e1 c st) as [[v|er] st1] eqn:E; [|inv H].
      + eapply Ev_pipe; eauto.
      + apply Ev_pipe_err. auto.
    - rewrite eval_merge in H. destruct (evals l c st) as [rs st1] eqn:E.
      apply evals_sound in E; auto. pose proof (collect_spec rs) as G.
      destruct (collect rs) as [vs|er]; cbn in H; inv H.
      + eapply Ev_merge; eauto. apply merge_values_spec.
      + eapply Ev_merge_err; eauto.
    - cbn in H. destruct (eval e c st) as [[v|er] st1] eqn:E.
      + destruct (resolve_type d v) as [w|msg] eqn:R; inv H.
        * eapply Ev_discriminate; eauto.
        * eapply Ev_discriminate_fails; eauto.
      + inv H. apply Ev_discriminate_err. auto.
    - rewrite eval_entity in H.
      destruct (option_map cow_value (path_arg c ["representations"])) as [v|] eqn:P.
      2:{ inv H. apply Ev_entity_unreadable. rewrite P. discriminate. }
      destruct v as [| | | | |l|];
        try (inv H; apply Ev_entity_unreadable; rewrite P; discriminate).
      pose proof (check_spec m l) as G.
      destruct (check_representations (map fst m) l) as [tasks|[| |msg| |]]; try contradiction.
      + destruct G as (full & R & ->).
        destruct (run_tasks m c (map fst full) st) as [rs st1] eqn:T.
        eapply tasks_sound in T; eauto. pose proof (collect_spec rs) as G.
        destruct (collect rs) as [vs|er]; cbn in H; inv H.
        * eapply Ev_entity; eauto.
        * eapply Ev_entity_err; eauto.
      + inv H. eapply Ev_entity_unresolvable; eauto.
    - inv H. constructor.
  Qed.

  Scheme Ev_mind := Induction for IrSpec.Ev Sort Prop
    with EvAll_mind := Induction for IrSpec.EvAll Sort Prop
    with EvEntities_mind := Induction for IrSpec.EvEntities Sort Prop.
  Combined Scheme Ev_mutind from Ev_mind, EvAll_mind, EvEntities_mind.

  Lemma eval_complete_all :
    (forall e c st r st', Ev e c st r st' -> eval e c st = (r, st')) /\
    (forall l c st rs st', EvAll l c st rs st' -> evals l c st = (rs, st')) /\
    (forall full c st rs st', EvEntities full c st rs st' ->
       forall m l, Resolvers m l full -> run_tasks m c (map fst full) st = (rs, st')).
  Proof.
    apply (Ev_mutind IO F Key St rx ext req do_io cache_key cache_get cache_set
      (fun e c st r st' _ => eval e c st = (r, st'))
      (fun l c st rs st' _ => evals l c st = (rs, st'))
      (fun full c st rs st' _ => forall m l, Resolvers m l full ->
         run_tasks m c (map fst full) st = (rs, st'))).
    - reflexivity.
    - intros p c st. cbn. destruct (path_value c p); reflexivity.
    - reflexivity.
    - intros io c st r st' D. cbn. now rewrite D.
    - intros age io c st r st' K D. cbn. unfold eval_cached. now rewrite K, D.
    - intros age io c st k f st' K G. cbn. unfold eval_cached. now rewrite K, G.
    - intros age io c st k v st' K G. cbn. unfold eval_cached. now rewrite K, G.
    - intros age io c st k st1 f st2 K G D. cbn. unfold eval_cached. now rewrite K, G, D.
    - intros age io c st k st1 v st2 f st3 K G D C. cbn. unfold eval_cached. now rewrite K, G, D, C.
    - intros age io c st k st1 v st2 st3 K G D C. cbn. unfold eval_cached. now rewrite K, G, D, C.
    - intros e p c st v st' _ IH. cbn. rewrite IH. unfold or_null. reflexivity.
    - intros e p c st er st' _ IH. cbn. now rewrite IH.
    - intros a e c st er V. cbn. now rewrite V.
    - intros a e c st r st' V _ IH. cbn. now rewrite V.
    - intros e m c st v w st' _ IH M. cbn. rewrite IH. now rewrite (map_enum_any m v w).
    - intros e m c st v st' msg _ IH M. cbn. rewrite IH. now rewrite (EnumError_det m v msg).
    - intros e m c st er st' _ IH. cbn. now rewrite IH.
    - intros e1 e2 c st v st1 r st2 _ IH1 _ IH2. cbn. now rewrite IH1.
    - intros e1 e2 c st er st' _ IH. cbn. now rewrite IH.
    - intros l c st vs v st' _ IH M. rewrite eval_merge, IH, collect_ok. cbn.
      now rewrite (MergedAll_det vs v).
    - intros l c st rs er st' _ IH M. rewrite eval_merge, IH.
      now rewrite (FirstError_collect rs er).
    - intros d e c st v w st' _ IH R. cbn. now rewrite IH, R.
    - intros d e c st v w st' _ IH R. cbn. now rewrite IH, R.
    - intros d e c st er st' _ IH. cbn. now rewrite IH.
    - intros m c st l tasks vs st' P R _ IH. rewrite eval_entity, P.
      rewrite (Resolvers_check m l tasks) by auto. rewrite (IH m l) by auto.
      now rewrite collect_ok.
    - intros m c st l tasks rs er st' P R _ IH FE. rewrite eval_entity, P.
      rewrite (Resolvers_check m l tasks) by auto. rewrite (IH m l) by auto.
      now rewrite (FirstError_collect rs er).
    - intros m c st l msg P U. rewrite eval_entity, P. now rewrite (Unresolvable_check m l msg).
    - intros m c st N. rewrite eval_entity.
      destruct (option_map cow_value (path_arg c ["representations"])) as [[| | | | |l|]|]; auto.
      now destruct (N l).
    - reflexivity.
    - intros e l c st r st1 rs st2 _ IH1 _ IH2. cbn. now rewrite IH1, IH2.
    - reflexivity.
    - intros n repr e tasks c st r st1 rs st2 _ IH1 _ IH2 m l R. inversion R as [|rp l0 n0 e0 tk HN HA HR]; subst.
      cbn. unfold run_task. rewrite HA, IH1. now rewrite (IH2 m l0).
  Qed.

  Theorem eval_meaning e c st r st' : eval e c st = (r, st') <-> Ev e c st r st'.
  Proof. split; [apply eval_sound|apply eval_complete_all]. Qed.

  (** Replacing a part by an equal one. *)
  Scheme Replaced_mind := Induction for Replaced Sort Prop
    with ReplacedAll_mind := Induction for ReplacedAll Sort Prop
    with ReplacedIn_mind := Induction for ReplacedIn Sort Prop.

  Lemma run_tasks_ext m m' c :
    map fst m = map fst m' ->
    (forall n repr c st, run_task m n repr c st = run_task m' n repr c st) ->
    forall tasks st, run_tasks m c tasks st = run_tasks m' c tasks st.
  Proof.
    intros _ H tasks. induction tasks as [|[n repr] t IH]; intros st; auto.
    cbn. rewrite H. destruct (run_task m' n repr c st) as [r st1]. now rewrite IH.
  Qed.

  Lemma eval_entity_ext m m' c st :
    map fst m = map fst m' ->
    (forall n repr c st, run_task m n repr c st = run_task m' n repr c st) ->
    eval (IEntity m) c st = eval (IEntity m') c st.
  Proof.
    intros A B. rewrite !eval_entity, A.
    destruct (option_map cow_value (path_arg c ["representations"])) as [[| | | | |l|]|]; auto.
    destruct (check_representations (map fst m') l) as [tasks|]; auto.
    now rewrite (run_tasks_ext m m' c A B).
  Qed.

  Theorem replace_equal e e' :
    (forall c st, eval e c st = eval e' c st) ->
    forall x y, Replaced e e' x y -> forall c st, eval x c st = eval y c st.
  Proof.
    intros Q.
    apply (Replaced_mind IO e e'
      (fun x y _ => forall c st, eval x c st = eval y c st)
      (fun l l' _ => forall c st, evals l c st = evals l' c st)
      (fun m m' _ => map fst m = map fst m' /\
         forall n repr c st, run_task m n repr c st = run_task m' n repr c st)).
    - auto.
    - reflexivity.
    - intros x y p _ IH c st. cbn. now rewrite IH.
    - intros x y a _ IH c st. cbn. destruct (to_result (verify ext a req)); auto.
    - intros x y m _ IH c st. cbn. now rewrite IH.
    - intros x y x' y' _ IH _ IH' c st. cbn. rewrite IH.
      destruct (eval y c st) as [[v|] st1]; auto.
    - intros x y d _ IH c st. cbn. now rewrite IH.
    - intros l l' _ IH c st. rewrite !eval_merge. now rewrite IH.
    - intros m m' _ [A B] c st. now apply eval_entity_ext.
    - reflexivity.
    - intros x y l l' _ IH _ IH' c st. cbn. rewrite IH. destruct (eval y c st). now rewrite IH'.
    - split; reflexivity.
    - intros k x y m m' _ IH _ [A B]. split; [cbn; congruence|].
      intros n repr c st. unfold run_task in *. cbn. destruct (String.eqb n k); auto. now rewrite IH.
  Qed.
End Eval.
