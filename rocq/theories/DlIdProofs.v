(** Proofs about data loaders given out at start-up (C41). *)
From Coq Require Import String Ascii ZArith Bool Arith Lia List.
From Verif Require Import Base BaseFacts JsonModel MustacheModel CtxModel AuthModel DiscModel MergeModel IrModel IrSpec IrProofs
  HttpBatchModel DlIdModel DlIdSpec.
Import ListNotations.
Open Scope string_scope.
Open Scope list_scope.

Section Facts.
  Context {HttpT GqlT GrpcT Op Hook : Type}.
  Variable operation : GrpcT -> Op.
  Variable is_query : GqlT + GrpcT -> bool.
  Notation io := (io HttpT GqlT GrpcT Hook).
  Notation bdef := (bdef HttpT GqlT GrpcT Hook).
  Notation bfield := (bfield HttpT GqlT GrpcT Hook).
  Notation loaders := (loaders Op).
  Notation assign := (assign (HttpT := HttpT) (GqlT := GqlT) (Hook := Hook) operation).
  Notation assign_ir := (assign_ir (HttpT := HttpT) (GqlT := GqlT) (Hook := Hook) operation).
  Notation assign_fields := (assign_fields (HttpT := HttpT) (GqlT := GqlT) (Hook := Hook) operation).
  Notation assign_defs := (assign_defs (HttpT := HttpT) (GqlT := GqlT) (Hook := Hook) operation).

  Fixpoint assign_all (cs : list io) (l : loaders) : list io * loaders :=
    match cs with
    | [] => ([], l)
    | c :: t => let '(c', l) := assign c l in let '(t', l) := assign_all t l in (c' :: t', l)
    end.
  Lemma assign_all_app a : forall b l,
    assign_all (a ++ b) l =
    (fst (assign_all a l) ++ fst (assign_all b (snd (assign_all a l))), snd (assign_all b (snd (assign_all a l)))).
  Proof.
    induction a as [|c a IH]; intros b l; cbn; [now destruct (assign_all b l)|].
    destruct (assign c l) as [c' l1]. rewrite IH. destruct (assign_all a l1) as [a' l2]. cbn.
    destruct (assign_all b l2). reflexivity.
  Qed.

  Definition walks (e : ir io) : Prop := forall l,
    (calls (fst (assign_ir e l)), snd (assign_ir e l)) = assign_all (calls e) l /\
    replace_calls forget (fst (assign_ir e l)) = replace_calls forget e.

  Lemma forget_assign c l : forget (fst (assign c l)) = forget c.
  Proof. destruct c; reflexivity. Qed.

  Lemma walk e : walks e.
  Proof.
    induction e as [d|c|age c|e p IH|p|a e IH|e m IH|e1 e2 IH1 IH2|es IH|d e IH|m IH|s] using ir_ind'; intros l; cbn.
    - auto.
    - assert (A := forget_assign c l). destruct (assign c l) as [c' l']. cbn in *. split; [auto|now f_equal].
    - assert (A := forget_assign c l). destruct (assign c l) as [c' l']. cbn in *. split; [auto|now f_equal].
    - destruct (IH l) as [A B]. destruct (assign_ir e l) as [e' l']. cbn in *. split; [auto|now f_equal].
    - auto.
    - destruct (IH l) as [A B]. destruct (assign_ir e l) as [e' l']. cbn in *. split; [auto|now f_equal].
    - destruct (IH l) as [A B]. destruct (assign_ir e l) as [e' l']. cbn in *. split; [auto|now f_equal].
    - destruct (IH1 l) as [A B]. destruct (assign_ir e1 l) as [e1' l1]. cbn in *.
      destruct (IH2 l1) as [A2 B2]. destruct (assign_ir e2 l1) as [e2' l2]. cbn in *.
      split; [|now f_equal]. rewrite assign_all_app, <- A. cbn. now rewrite <- A2.
    - match goal with |- context [let '(_, _) := ?g es l in _] => set (go := g) end.
      assert (X : forall l, (flat_map calls (fst (go es l)), snd (go es l)) = assign_all (flat_map calls es) l /\
        map (replace_calls forget) (fst (go es l)) = map (replace_calls forget) es).
      { clear l. induction IH as [|e es He Hes IHes]; intros l; [auto|]. cbn [go flat_map map].
        change (go (e :: es) l) with (let '(e', l) := assign_ir e l in let '(t', l) := go es l in (e' :: t', l)).
        destruct (He l) as [A B]. destruct (assign_ir e l) as [e' l1]. cbn [fst snd] in *.
        destruct (IHes l1) as [A2 B2]. destruct (go es l1) as [t' l2]. cbn [fst snd flat_map map] in *.
        split; [|now f_equal]. rewrite assign_all_app, <- A. cbn [fst snd]. now rewrite <- A2. }
      destruct (X l) as [A B]. destruct (go es l) as [es' l']. cbn [fst snd calls replace_calls] in *. split; [auto|now f_equal].
    - destruct (IH l) as [A B]. destruct (assign_ir e l) as [e' l']. cbn in *. split; [auto|now f_equal].
    - match goal with |- context [let '(_, _) := ?g m l in _] => set (go := g) end.
      assert (X : forall l, (flat_map (fun ke => calls (snd ke)) (fst (go m l)), snd (go m l)) =
                            assign_all (flat_map (fun ke => calls (snd ke)) m) l /\
        map (fun ke => (fst ke, replace_calls forget (snd ke))) (fst (go m l)) = map (fun ke => (fst ke, replace_calls forget (snd ke))) m).
      { clear l. induction IH as [|[k e] es He Hes IHes]; intros l; [auto|]. cbn [go flat_map map].
        change (go ((k, e) :: es) l) with (let '(e', l) := assign_ir e l in let '(t', l) := go es l in ((k, e') :: t', l)).
        destruct (He l) as [A B]. cbn [snd] in A, B. destruct (assign_ir e l) as [e' l1]. cbn [fst snd] in *.
        destruct (IHes l1) as [A2 B2]. destruct (go es l1) as [t' l2]. cbn [fst snd flat_map map] in *.
        split; [|now rewrite B, B2]. rewrite assign_all_app, <- A. cbn [fst snd]. now rewrite <- A2. }
      destruct (X l) as [A B]. destruct (go m l) as [es' l']. cbn [fst snd calls replace_calls] in *. split; [auto|now f_equal].
    - auto.
  Qed.

  Lemma walk_fields fs : forall l,
    (flat_map field_calls (fst (assign_fields fs l)), snd (assign_fields fs l)) = assign_all (flat_map field_calls fs) l /\
    map forget_field (fst (assign_fields fs l)) = map forget_field fs.
  Proof.
    induction fs as [|[n [e|]] fs IH]; intros l; cbn [DlIdModel.assign_fields bf_resolver bf_name flat_map map].
    - auto.
    - destruct (walk e l) as [A B]. destruct (assign_ir e l) as [e' l1]. cbn [fst snd] in *.
      destruct (IH l1) as [A2 B2]. destruct (assign_fields fs l1) as [t' l2]. cbn [fst snd flat_map map] in *.
      split; [|unfold forget_field at 1 3; cbn; now rewrite B, B2]. rewrite assign_all_app.
      change (field_calls {| bf_name := n; bf_resolver := Some e |}) with (calls e).
      change (field_calls {| bf_name := n; bf_resolver := Some e' |}) with (calls e').
      rewrite <- A. cbn [fst snd]. now rewrite <- A2.
    - destruct (IH l) as [A2 B2]. destruct (assign_fields fs l) as [t' l2]. cbn [fst snd flat_map map] in *.
      split; [exact A2|unfold forget_field at 1 3; cbn; now rewrite B2].
  Qed.

  Lemma walk_defs ds : forall l,
    (all_object_calls (fst (assign_defs ds l)), snd (assign_defs ds l)) = assign_all (all_object_calls ds) l /\
    map forget_def (fst (assign_defs ds l)) = map forget_def ds.
  Proof.
    unfold all_object_calls.
    induction ds as [|[n fs|n fs|n] ds IH]; intros l; cbn [DlIdModel.assign_defs flat_map map].
    - auto.
    - destruct (walk_fields fs l) as [A B]. destruct (assign_fields fs l) as [fs' l1]. cbn [fst snd] in *.
      destruct (IH l1) as [A2 B2]. destruct (assign_defs ds l1) as [t' l2]. cbn [fst snd flat_map map object_calls forget_def] in *.
      split; [|now rewrite B, B2]. rewrite assign_all_app, <- A. cbn [fst snd]. now rewrite <- A2.
    - destruct (IH l) as [A2 B2]. destruct (assign_defs ds l) as [t' l2]. cbn [fst snd flat_map map object_calls forget_def app] in *.
      split; [auto|now f_equal].
    - destruct (IH l) as [A2 B2]. destruct (assign_defs ds l) as [t' l2]. cbn [fst snd flat_map map object_calls forget_def app] in *.
      split; [auto|now f_equal].
  Qed.

  (** The tables only grow, at the end. *)
  Definition extends (l l' : loaders) : Prop :=
    (exists x, l_http l' = l_http l ++ x) /\ (exists x, l_gql l' = l_gql l ++ x) /\ (exists x, l_grpc l' = l_grpc l ++ x).
  Lemma extends_refl l : extends l l.
  Proof. repeat split; exists []; now rewrite app_nil_r. Qed.
  Lemma extends_trans a b c : extends a b -> extends b c -> extends a c.
  Proof.
    intros ((x & X) & (y & Y) & (z & Z)) ((x' & X') & (y' & Y') & (z' & Z')).
    rewrite X in X'. rewrite Y in Y'. rewrite Z in Z'. rewrite <- app_assoc in X', Y', Z'. repeat split; eauto.
  Qed.
  Lemma assign_extends c l : extends l (snd (assign c l)).
  Proof.
    destruct c; cbn; repeat split; cbn; eexists; try reflexivity; symmetry; apply app_nil_r.
  Qed.
  Lemma assign_all_extends cs : forall l, extends l (snd (assign_all cs l)).
  Proof.
    induction cs as [|c cs IH]; intros l; cbn; [apply extends_refl|].
    assert (A := assign_extends c l). destruct (assign c l) as [c' l1]. cbn in A. specialize (IH l1).
    destruct (assign_all cs l1) as [t' l2]. cbn in *. eapply extends_trans; eauto.
  Qed.
  Lemma nth_extend {A} (l x : list A) n v : nth_error l n = Some v -> nth_error (l ++ x) n = Some v.
  Proof. intros H. rewrite nth_error_app1; [auto|]. apply nth_error_Some. congruence. Qed.
  Lemma own_extends l l' (c : io) : extends l l' -> has_own_loader operation l c -> has_own_loader operation l' c.
  Proof.
    intros ((x & X) & (y & Y) & (z & Z)). destruct c; cbn; [intros (n & N & H)|intros (n & N & H)|intros (n & N & H)|auto];
      exists n; split; auto; [rewrite X|rewrite Y|rewrite Z]; now apply nth_extend.
  Qed.
  Lemma nth_end {A} (l : list A) v : nth_error (l ++ [v]) (length l) = Some v.
  Proof. rewrite nth_error_app2 by lia. now rewrite Nat.sub_diag. Qed.
  Lemma assign_own c l : has_own_loader operation (snd (assign c l)) (fst (assign c l)).
  Proof. destruct c; cbn; try exact I; eexists; (split; [reflexivity|apply nth_end]). Qed.

  Lemma all_own cs : forall l c, In c (fst (assign_all cs l)) -> has_own_loader operation (snd (assign_all cs l)) c.
  Proof.
    induction cs as [|c cs IH]; intros l x I; cbn in *; [destruct I|].
    assert (A := assign_own c l). destruct (assign c l) as [c' l1]. specialize (IH l1 x).
    assert (B := assign_all_extends cs l1). destruct (assign_all cs l1) as [t' l2]. cbn in *.
    destruct I as [<-|I]; [|auto]. eapply own_extends; eauto.
  Qed.

  (** Ids are at least the lengths of the tables one starts with. *)
  Definition fresh (l : loaders) (c : io) : Prop :=
    match c with
    | Http _ _ dl _ _ _ => forall n, dl = Some n -> length (l_http l) <= n
    | GraphQL _ _ _ dl _ => forall n, dl = Some n -> length (l_gql l) <= n
    | Grpc _ _ dl _ _ => forall n, dl = Some n -> length (l_grpc l) <= n
    | Js _ => True
    end.
  Lemma fresh_extends l l' c : extends l l' -> fresh l' c -> fresh l c.
  Proof.
    intros ((x & X) & (y & Y) & (z & Z)). destruct c; cbn; auto; intros H n N; specialize (H n N);
      [rewrite X in H|rewrite Y in H|rewrite Z in H]; rewrite app_length in H; lia.
  Qed.
  Lemma all_fresh cs : forall l c, In c (fst (assign_all cs l)) -> fresh l c.
  Proof.
    induction cs as [|c cs IH]; intros l x I; cbn in *; [destruct I|].
    assert (A := assign_extends c l). assert (F : fresh l (fst (assign c l))).
    { destruct c; cbn; auto; intros n N; injection N as <-; lia. }
    destruct (assign c l) as [c' l1]. specialize (IH l1 x). destruct (assign_all cs l1) as [t' l2]. cbn in *.
    destruct I as [<-|I]; [auto|]. eapply fresh_extends; eauto.
  Qed.
  Lemma not_shared c l x : fresh (snd (assign c l)) x -> ~ share_a_loader (fst (assign c l)) x.
  Proof.
    destruct c, x; cbn; auto; destruct dl0 as [m|]; auto; intros F E; specialize (F m eq_refl); rewrite app_length in F; cbn in F; lia.
  Qed.
  Lemma all_distinct cs : forall l, ForallOrdPairs (fun a b => ~ share_a_loader a b) (fst (assign_all cs l)).
  Proof.
    induction cs as [|c cs IH]; intros l; cbn; [constructor|].
    assert (N := not_shared c l). destruct (assign c l) as [c' l1]. specialize (IH l1). assert (F := all_fresh cs l1).
    destruct (assign_all cs l1) as [t' l2]. cbn in *. constructor; [|exact IH]. apply Forall_forall. auto.
  Qed.

  Lemma startup_own (ds : list bdef) (c : io) : In c (all_object_calls (fst (startup operation ds))) ->
    has_own_loader operation (snd (startup operation ds)) c.
  Proof.
    unfold startup. destruct (walk_defs ds {| l_http := []; l_gql := []; l_grpc := [] |}) as [A _].
    assert (C := f_equal fst A). assert (T := f_equal snd A). cbn [fst snd] in C, T. rewrite C, T. apply all_own.
  Qed.
  Lemma startup_distinct (ds : list bdef) : ForallOrdPairs (fun a b => ~ share_a_loader a b) (all_object_calls (fst (startup operation ds))).
  Proof.
    unfold startup. destruct (walk_defs ds {| l_http := []; l_gql := []; l_grpc := [] |}) as [A _].
    assert (C := f_equal fst A). cbn [fst] in C. rewrite C. apply all_distinct.
  Qed.
  Lemma startup_same (ds : list bdef) : map forget_def (fst (startup operation ds)) = map forget_def ds.
  Proof. exact (proj2 (walk_defs ds _)). Qed.

  Lemma own_route batch l (c : io) : has_own_loader operation l c -> route_of is_query batch l c <> Panics /\
    match route_of is_query batch l c with
    | ViaHttp (g, il) => match c with Http _ g' _ il' _ _ => g = g' /\ il = il' | _ => False end
    | ViaGql b => match c with GraphQL _ _ b' _ _ => b = b' | _ => False end
    | ViaGrpc (o, g) => match c with Grpc t g' _ _ _ => o = operation t /\ g = g' | _ => False end
    | _ => True
    end.
  Proof.
    destruct c; cbn.
    - intros (n & -> & N). rewrite N. destruct batch as [z|]; [destruct (1 <=? z)%Z|]; split; try discriminate; auto.
    - intros (n & -> & N). rewrite N. destruct batch as [z|]; [destruct (is_query _)|]; split; try discriminate; auto.
    - intros (n & -> & N). rewrite N. destruct batch as [z|]; [destruct (is_query _)|]; split; try discriminate; auto.
    - intros _. split; [discriminate|auto].
  Qed.
  Lemma startup_routes (ds : list bdef) batch (c : io) : In c (all_object_calls (fst (startup operation ds))) ->
    route_of is_query batch (snd (startup operation ds)) c <> Panics.
  Proof. intros I. exact (proj1 (own_route batch _ _ (startup_own ds c I))). Qed.
End Facts.
