(** Proofs about the merging of similar types (C74): what is merged in one round. *)
From Coq Require Import String ZArith Bool Arith List Lia.
From Verif Require Import Base BaseFacts Ordered OrderedFacts TypeModel ConfigModel RenameModel TmModel TmSpec TmProofs Tm2Proofs Tm3Proofs.
Import ListNotations.
Open Scope string_scope.
Open Scope list_scope.

Section Kinds.
  Variable c : config.
  Variable t : threshold.
  Variable m : mergeable_types.
  Variable types : list string.
  Definition fits (n1 n2 : string) : Prop :=
    mergeable m n1 n2 = true /\ exists t1 t2 cache cache', find_type c n1 = Some t1 /\ find_type c n2 = Some t2 /\
      similarity c (get_threshold m t n1 n2) n1 t1 n2 t2 cache = Some (Similar true, cache').
  Lemma similar_fits n1 type_1 : find_type c n1 = Some type_1 -> forall l set st set' st',
    (forall n, In n set -> n = n1 \/ fits n1 n) -> similar_to c t m n1 type_1 l set st = Some (set', st') -> forall n, In n set' -> n = n1 \/ fits n1 n.
  Proof.
    intros T1. induction l as [|n2 l IH]; intros set st set' st' A H; cbn [similar_to] in H; [injection H as <- <-; exact A|].
    destruct (smem n2 (ms_visited st) || _) eqn:Sk; [now apply (IH set st set' st')|]. apply orb_false_iff in Sk. destruct Sk as [_ Mg]. apply negb_false_iff in Mg.
    destruct (find_type c n2) as [type_2|] eqn:T2; [|now apply (IH set st set' st')].
    destruct (similarity c _ n1 type_1 n2 type_2 (ms_cache st)) as [[v cache']|] eqn:Sim; [|discriminate].
    destruct v as [[|]|]; [|eapply IH; eauto|eapply IH; eauto]. eapply IH; [|exact H]. intros n I.
    assert (F : fits n1 n2) by (split; [exact Mg|]; exists type_1, type_2, (ms_cache st), cache'; auto).
    destruct (smem n2 set); [now apply A|]. apply in_app_iff in I. destruct I as [I|[<-|[]]]; auto.
  Qed.
  Lemma group_fits : forall l i st gs, group c t m types l i st = Some gs -> forall g, In g gs -> exists n1, forall n, In n g -> n = n1 \/ fits n1 n.
  Proof.
    induction l as [|n1 l IH]; intros i st gs H; cbn [group] in H; [injection H as <-; intros g []|].
    destruct (find_type c n1) as [type_1|] eqn:T1; [|now apply (IH (S i) st)]. destruct (smem n1 (ms_visited st)); [now apply (IH i st)|].
    destruct (similar_to c t m n1 type_1 (skipn (S i) types) [n1] st) as [[set st']|] eqn:Si; [|discriminate].
    destruct (group c t m types l (S i) st') as [gs'|] eqn:G; [|discriminate]. injection H as <-. intros g I.
    assert (D : g = set \/ In g gs') by (destruct (Nat.ltb 1 (length set)); [destruct I; auto|auto]). destruct D as [->|D]; [|now apply (IH (S i) st' gs' G)].
    exists n1. eapply similar_fits; [exact T1| |exact Si]. intros n [<-|[]]. now left.
  Qed.
End Kinds.

Lemma both_In s a b : both s a b = true <-> In a s /\ In b s.
Proof. unfold both. rewrite andb_true_iff, !smem_In. tauto. Qed.

Lemma mergeable_kind m a b : mergeable m a b = true -> exists kind, In kind [mt_input m; mt_union m; mt_output m; mt_interface m] /\ In a kind /\ In b kind.
Proof.
  unfold mergeable. rewrite !orb_true_iff, !both_In. cbn. intros [[[H|H]|H]|H]; eexists; (split; [|exact H]); auto.
Qed.
Lemma threshold_kind m t a b :
  (exists kind, In kind [mt_input m; mt_union m; mt_interface m] /\ In a kind /\ In b kind) /\ get_threshold m t a b = exactly \/
  ~ (exists kind, In kind [mt_input m; mt_union m; mt_interface m] /\ In a kind /\ In b kind) /\ get_threshold m t a b = t.
Proof.
  unfold get_threshold. destruct (both (mt_input m) a b || _ || _) eqn:B.
  - left. split; [|reflexivity]. rewrite !orb_true_iff, !both_In in B. cbn. destruct B as [[H|H]|H]; eexists; (split; [|exact H]); auto.
  - right. split; [|reflexivity]. intros (kind & I & H). apply both_In in H. cbn in I. destruct I as [<-|[<-|[<-|[]]]]; rewrite H in B; rewrite ?orb_true_r in B; discriminate B.
Qed.

Lemma round_fits walk t c k1 c1 : ready c -> merge_round walk t 1 c = Some (inr (k1, c1)) ->
  exists m s, walk c = Some m /\ merged_by s c c1 /\ forall a b, a <> b -> find_type c a <> None -> find_type c b <> None -> s a = s b ->
    exists n1, forall n, n = a \/ n = b -> n = n1 \/ fits c t m n1 n.
Proof.
  intros R H. apply round_inv in H. destruct H as (m & gs & W & G & _ & H). cbn zeta in H. destruct H as (Ek & Ec). destruct (groups_fine _ _ _ _ _ _ _ G) as (N & F).
  pose proof (ready_steady c R) as S. exists m. eexists. split; [exact W|]. split; [exact (step_merged c c1 1 gs S N F Ec)|].
  intros a b Ab Fa Fb E. set (mp := mg_mapping _) in E. pose proof (is_s c 1 gs S N F) as Is. cbn zeta in Is.
  assert (P : forall n v, aget n mp = Some v -> exists i g, nth_error gs i = Some g /\ In n g /\ v = name_at 1 i) by apply (mi_from _ _ _ _ Is).
  unfold looked in E.
  assert (Fr : forall i n, find_type c n <> None -> n <> name_at 1 i) by (intros i n Fn ->; apply Fn, (st_fresh _ _ S); lia).
  destruct (aget a mp) as [va|] eqn:Ea; destruct (aget b mp) as [vb|] eqn:Eb.
  - destruct (P _ _ Ea) as (i & g & Gi & Ia & Va). destruct (P _ _ Eb) as (j & g' & Gj & Ib & Vb). assert (i = j) by (apply (name_at_inj 1); congruence). subst j. rewrite Gi in Gj. injection Gj as <-.
    destruct (group_fits c t m _ _ _ _ _ G g (nth_error_In _ _ Gi)) as (n1 & X). exists n1. intros n [->| ->]; now apply X.
  - destruct (P _ _ Ea) as (i & g & Gi & Ia & Va). exfalso. apply (Fr i b Fb). congruence.
  - destruct (P _ _ Eb) as (i & g & Gi & Ib & Vb). exfalso. apply (Fr i a Fa). congruence.
  - contradiction.
Qed.
