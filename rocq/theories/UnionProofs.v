(** Proofs about nested unions. *)
From Coq Require Import String Ascii ZArith NArith Arith Bool Lia List.
From Verif Require Import Base BaseFacts Ordered OrderedFacts JsonModel TypeModel ConfigModel
  MergeSpec GraphModel GraphSpec NpoProofs.
Import ListNotations.
Open Scope string_scope.
Open Scope list_scope.

Definition unseen (unions : list (string * gunion)) (seen : list string) : nat :=
  List.length (filter (fun n => negb (smem n seen)) (map fst unions)).

Lemma unseen_bound : forall us s, unseen us s <= List.length us.
Proof.
  intros us s. unfold unseen. induction us as [|[n u] t IH]; cbn [map fst filter List.length]; [lia|].
  destruct (negb (smem n s)); cbn [List.length]; lia.
Qed.
Lemma unseen_mono : forall us s s', (forall n, In n s -> In n s') -> unseen us s' <= unseen us s.
Proof.
  intros us s s' H. apply filter_le. intros x Q. apply negb_true_iff in Q. apply negb_true_iff.
  apply smem_false in Q. apply smem_false. auto.
Qed.
Lemma unseen_add : forall us s n u, oget scmp n us = Some u -> smem n s = false ->
  unseen us (n :: s) < unseen us s.
Proof.
  intros us s n u G M. apply filter_lt with (y := n).
  - intros x Q. apply negb_true_iff in Q. apply negb_true_iff. apply smem_false in Q.
    apply smem_false. intros I. apply Q. right. auto.
  - apply (oget_in _ scmp_order) in G. apply in_map_iff. exists (n, u). auto.
  - apply negb_false_iff, smem_In. left. auto.
  - rewrite M. auto.
Qed.

(** One walk: what it adds, what it has seen, and when it succeeds. *)
Definition walk_spec (us : list (string * gunion)) (ms acc seen acc' seen' : list string) (ok : bool) : Prop :=
  (forall n, In n seen -> In n seen') /\
  (forall x, In x acc -> In x acc') /\
  (forall x, In x acc' -> In x acc \/ LeafOf us ms x) /\
  (ssorted scmp acc -> ssorted scmp acc') /\
  (ok = true -> (forall x, LeafOf us ms x -> In x acc') /\
     exists l, Expands us ms l /\ NoDup l /\ (forall n, In n l -> ~ In n seen) /\
       (forall n, In n seen' <-> In n seen \/ In n l)) /\
  (forall l, Expands us ms l -> NoDup l -> (forall n, In n l -> ~ In n seen) ->
     ok = true /\ (forall n, In n seen' <-> In n seen \/ In n l)).

Lemma leaf_nil : forall us x, ~ LeafOf us [] x.
Proof. intros us x H. inversion H; subst; cbn in *; contradiction. Qed.
Lemma leaf_cons : forall us n ms x, LeafOf us (n :: ms) x <-> LeafOf us [n] x \/ LeafOf us ms x.
Proof.
  intros us n ms x. split.
  - intros H. inversion H as [? ? I G|? m u ? I G L]; subst.
    + destruct I as [I|I]; [subst; left; apply Leaf_here; [left; auto|auto]|right; apply Leaf_here; auto].
    + destruct I as [I|I]; [subst; left|right]; eapply Leaf_in; eauto; left; auto.
  - intros [H|H]; inversion H as [? ? I G|? m u ? I G L]; subst.
    + destruct I as [I|[]]. subst. apply Leaf_here; [left; auto|auto].
    + destruct I as [I|[]]. subst. eapply Leaf_in; eauto. left; auto.
    + apply Leaf_here; [right; auto|auto].
    + eapply Leaf_in; eauto. right; auto.
Qed.
Lemma leaf_one : forall us n u x, oget scmp n us = Some u -> (LeafOf us [n] x <-> LeafOf us (u_types u) x).
Proof.
  intros us n u x G. split.
  - intros H. inversion H as [? ? I G'|? m u' ? I G' L]; subst; destruct I as [I|[]]; subst; congruence.
  - intros H. eapply Leaf_in; eauto. left; auto.
Qed.
Lemma leaf_none : forall us n x, oget scmp n us = None -> (LeafOf us [n] x <-> x = n).
Proof.
  intros us n x G. split.
  - intros H. inversion H as [? ? I G'|? m u' ? I G' L]; subst; destruct I as [I|[]]; subst; congruence.
  - intros ->. apply Leaf_here; [left; auto|auto].
Qed.

Lemma nodup_app_inv : forall A (l1 l2 : list A), NoDup (l1 ++ l2) ->
  NoDup l1 /\ NoDup l2 /\ forall x, In x l1 -> ~ In x l2.
Proof.
  intros A. induction l1 as [|x t IH]; cbn; intros l2 H; [split; [constructor|auto]|].
  inv H. destruct (IH l2 H3) as [A1 [A2 A3]]. split; [constructor; auto|split; auto].
  - intros I. apply H2, in_or_app. auto.
  - intros y [->|I] J; [apply H2, in_or_app; auto|eapply A3; eauto].
Qed.
Lemma nodup_app : forall A (l1 l2 : list A), NoDup l1 -> NoDup l2 ->
  (forall x, In x l1 -> ~ In x l2) -> NoDup (l1 ++ l2).
Proof.
  intros A. induction l1 as [|x t IH]; cbn; intros l2 H1 H2 H3; auto. inv H1. constructor.
  - intros I. apply in_app_or in I. destruct I; [auto|eapply H3; [left; reflexivity|auto]].
  - apply IH; auto.
Qed.

Lemma walk_members_spec : forall us walk,
  (forall ms acc seen a s ok, walk ms acc seen = Some (a, s, ok) -> walk_spec us ms acc seen a s ok) ->
  forall ms acc seen a s ok, walk_members walk us ms acc seen = Some (a, s, ok) ->
  walk_spec us ms acc seen a s ok.
Proof.
  intros us walk H. induction ms as [|n ms IH]; intros acc seen a s ok E; cbn [walk_members] in E.
  { inv E. split; [auto|]. split; [auto|]. split; [auto|]. split; [auto|]. split.
    - intros _. split; [intros x L; destruct (leaf_nil _ _ L)|].
      exists []. split; [constructor|]. split; [constructor|]. split; [intros ? []|].
      intros n. cbn. tauto.
    - intros l X _ _. inv X. split; auto. intros n. cbn. tauto. }
  destruct (oget scmp n us) as [u|] eqn:G.
  - destruct (smem n seen) eqn:M.
    + apply smem_In in M. destruct (walk_members _ _ _ _ _) as [[[a1 s1] ok1]|] eqn:W; inv E.
      destruct (IH _ _ _ _ _ W) as [S1 [S2 [S3 [S4 [S5 S6]]]]].
      split; [auto|]. split; [auto|]. split; [|split; [auto|split]].
      * intros x I. destruct (S3 x I); auto. right. apply leaf_cons. auto.
      * discriminate.
      * intros l X N D. inversion X as [|? ? ? G'|? u' ? l1 l2 G' X1 X2]; subst; [congruence|].
        exfalso. apply (D n); [left; auto|auto].
    + pose proof M as M'. apply smem_false in M'.
      destruct (walk (u_types u) acc (n :: seen)) as [[[a1 s1] ok1]|] eqn:W1; [|discriminate].
      destruct (walk_members _ _ _ _ _) as [[[a2 s2] ok2]|] eqn:W2; inv E.
      destruct (H _ _ _ _ _ _ W1) as [P1 [P2 [P3 [P4 [P5 P6]]]]].
      destruct (IH _ _ _ _ _ W2) as [S1 [S2 [S3 [S4 [S5 S6]]]]].
      split; [|split; [auto|split; [|split; [auto|split]]]].
      * intros x I. apply S1, P1. right. auto.
      * intros x I. destruct (S3 x I) as [Q|Q].
        -- destruct (P3 x Q) as [Q'|Q']; auto. right. apply leaf_cons. left.
           apply (leaf_one us n u x G). auto.
        -- right. apply leaf_cons. auto.
      * intros K. apply andb_true_iff in K. destruct K as [-> ->].
        destruct (P5 eq_refl) as [L1 [l1 [X1 [N1 [D1 E1]]]]].
        destruct (S5 eq_refl) as [L2 [l2 [X2 [N2 [D2 E2]]]]]. split.
        -- intros x L. apply leaf_cons in L. destruct L as [L|L]; auto.
           apply (leaf_one us n u x G) in L. auto.
        -- exists (n :: l1 ++ l2). split; [eapply Ex_union; eauto|]. split; [|split].
           ++ constructor.
              ** intros I. apply in_app_or in I. destruct I as [I|I].
                 --- apply (D1 n I). left. auto.
                 --- apply (D2 n I), E1. left. left. auto.
              ** apply nodup_app; auto. intros x I J. apply (D2 x J), E1. auto.
           ++ intros x [I|I]; [subst; auto|]. apply in_app_or in I. destruct I as [I|I].
              ** intros J. apply (D1 x I). right. auto.
              ** intros J. apply (D2 x I), E1. left. right. auto.
           ++ intros x. rewrite E2, E1. cbn [In]. rewrite in_app_iff. tauto.
      * intros l X N D. inversion X as [|? ? ? G'|? u' ? l1 l2 G' X1 X2]; subst; [congruence|].
        rewrite G in G'. inv G'. inversion N as [|? ? NH3 NH4]; subst.
        destruct (nodup_app_inv _ _ _ NH4) as [N1 [N2 N3]].
        destruct (P6 l1 X1 N1) as [-> E1].
        { intros x I [J|J]; [subst; apply NH3, in_or_app; auto|].
          apply (D x); [right; apply in_or_app; auto|auto]. }
        destruct (S6 l2 X2 N2) as [-> E2].
        { intros x I J. apply E1 in J. destruct J as [[J|J]|J].
          - subst. apply NH3, in_or_app. auto.
          - apply (D x); [right; apply in_or_app; auto|auto].
          - eapply N3; eauto. }
        split; [reflexivity|]. intros x. rewrite E2, E1. cbn [In]. rewrite in_app_iff. tauto.
  - destruct (IH _ _ _ _ _ E) as [S1 [S2 [S3 [S4 [S5 S6]]]]].
    split; [auto|]. split; [|split; [|split; [|split]]].
    + intros x I. apply S2. apply (sins_in _ scmp_order). auto.
    + intros x I. destruct (S3 x I) as [Q|Q].
      * apply (sins_in _ scmp_order) in Q. destruct Q as [Q|Q]; auto. subst. right.
        apply leaf_cons. left. apply leaf_none; auto.
      * right. apply leaf_cons. auto.
    + intros So. apply S4. apply (ssorted_sins _ scmp_order). auto.
    + intros K. destruct (S5 K) as [L2 [l2 [X2 [N2 [D2 E2]]]]]. split.
      * intros x L. apply leaf_cons in L. destruct L as [L|L]; auto.
        apply (leaf_none us n x G) in L. subst. apply S2. apply (sins_in _ scmp_order). auto.
      * exists l2. split; [apply Ex_leaf; auto|]. split; [auto|]. split; auto.
    + intros l X N D. inversion X as [|? ? ? G'|? u' ? l1 l2 G' X1 X2]; subst; [|congruence]. auto.
Qed.

Lemma walk_union_spec : forall us fuel ms acc seen a s ok,
  walk_union fuel us ms acc seen = Some (a, s, ok) -> walk_spec us ms acc seen a s ok.
Proof.
  intros us. induction fuel as [|fuel IH]; intros ms acc seen a s ok E; [discriminate|].
  cbn [walk_union] in E. eapply walk_members_spec; eauto.
Qed.

Lemma walk_union_total : forall us fuel ms acc seen, unseen us seen < fuel ->
  exists r, walk_union fuel us ms acc seen = Some r.
Proof.
  intros us. induction fuel as [|fuel IH]; intros ms acc seen L; [lia|]. cbn [walk_union].
  revert acc seen L. induction ms as [|n ms IHm]; intros acc seen L; cbn [walk_members]; eauto.
  destruct (oget scmp n us) as [u|] eqn:G; [|auto].
  destruct (smem n seen) eqn:M.
  - destruct (IHm acc seen L) as [[[a s] ok] E]. rewrite E. eauto.
  - pose proof (unseen_add us seen n u G M) as A.
    destruct (IH (u_types u) acc (n :: seen)) as [[[a1 s1] ok1] E1]; [lia|]. rewrite E1.
    destruct (walk_union_spec _ _ _ _ _ _ _ _ E1) as [P1 _].
    destruct (IHm a1 s1) as [[[a2 s2] ok2] E2].
    { pose proof (unseen_mono us (n :: seen) s1 P1). lia. }
    rewrite E2. eauto.
Qed.

Lemma flatten_union_total : forall us u, exists r, flatten_union us u = Some r.
Proof.
  intros us u. unfold flatten_union.
  destruct (walk_union_total us (union_fuel us) (u_types u) [] []) as [[[a s] ok] E].
  { unfold union_fuel. pose proof (unseen_bound us []). lia. }
  rewrite E. destruct ok; eauto.
Qed.

Lemma flatten_union_ok : forall us u u', flatten_union us u = Some (Ok u') ->
  u_doc u' = u_doc u /\ ssorted scmp (u_types u') /\
  (forall x, In x (u_types u') <-> LeafOf us (u_types u) x) /\
  exists l, Expands us (u_types u) l /\ NoDup l.
Proof.
  intros us u u' E. unfold flatten_union in E.
  destruct (walk_union _ _ _ _ _) as [[[a s] ok]|] eqn:W; [|discriminate].
  destruct ok; inv E. cbn [u_types u_doc].
  destruct (walk_union_spec _ _ _ _ _ _ _ _ W) as [S1 [S2 [S3 [S4 [S5 S6]]]]].
  destruct (S5 eq_refl) as [L [l [X [N _]]]].
  split; [auto|]. split; [apply S4; constructor|]. split; [|eauto].
  intros x. split; auto. intros I. destruct (S3 x I) as [[]|Q]; auto.
Qed.

Lemma flatten_union_accepts : forall us u l, Expands us (u_types u) l -> NoDup l ->
  exists u', flatten_union us u = Some (Ok u').
Proof.
  intros us u l X N. destruct (flatten_union_total us u) as [r E]. unfold flatten_union in *.
  destruct (walk_union _ _ _ _ _) as [[[a s] ok]|] eqn:W; [|discriminate].
  destruct (walk_union_spec _ _ _ _ _ _ _ _ W) as [_ [_ [_ [_ [_ S6]]]]].
  destruct (S6 l X N) as [-> _]; [intros ? _ []|]. eauto.
Qed.

Lemma flatten_all_total : forall us l, exists r, flatten_all us l = Some r.
Proof.
  intros us. induction l as [|[n u] l [r IH]]; cbn [flatten_all]; eauto.
  destruct (flatten_union_total us u) as [[u'|e] E]; rewrite E, IH; destruct r; eauto.
Qed.

Lemma flatten_all_ok : forall us l l', flatten_all us l = Some (Ok l') ->
  Forall2 (fun a b => fst a = fst b /\ flatten_union us (snd a) = Some (Ok (snd b))) l l'.
Proof.
  intros us. induction l as [|[n u] l IH]; intros l' E; cbn [flatten_all] in E.
  - inv E. constructor.
  - destruct (flatten_union us u) as [[u'|e]|] eqn:F; try discriminate;
      destruct (flatten_all us l) as [[r|e2]|] eqn:G; try discriminate; inv E.
    constructor; auto.
Qed.

Lemma flatten_all_accepts : forall us l,
  (forall n u, In (n, u) l -> exists u', flatten_union us u = Some (Ok u')) ->
  exists l', flatten_all us l = Some (Ok l').
Proof.
  intros us. induction l as [|[n u] l IH]; intros H; cbn [flatten_all]; eauto.
  destruct (H n u) as [u' E]; [left; auto|]. destruct IH as [l' E2]; [intros; eapply H; right; eauto|].
  rewrite E, E2. eauto.
Qed.

Lemma forall2_oget : forall A B (R : A -> B -> Prop) (l : list (string * A)) (l' : list (string * B)),
  Forall2 (fun a b => fst a = fst b /\ R (snd a) (snd b)) l l' ->
  forall n, match oget scmp n l, oget scmp n l' with
            | Some a, Some b => R a b | None, None => True | _, _ => False end.
Proof.
  intros A B R l l' F n. induction F as [|[k a] [k' b] l l' [E Rab] F IH]; cbn in *; auto.
  subst k'. destruct (scmp n k); auto.
Qed.

Lemma nested_unions_total : forall c, exists r, nested_unions c = Some r.
Proof.
  intros c. unfold nested_unions. destruct (flatten_all_total (c_unions c) (c_unions c)) as [[l|e] E];
    rewrite E; eauto.
Qed.

Lemma nested_unions_members : forall c c', nested_unions c = Some (Ok c') ->
  forall n, match find_union c n, find_union c' n with
            | Some u, Some u' =>
                u_doc u' = u_doc u /\ ssorted scmp (u_types u') /\
                forall x, In x (u_types u') <-> LeafOf (c_unions c) (u_types u) x
            | None, None => True
            | _, _ => False
            end.
Proof.
  intros c c' E n. unfold nested_unions in E.
  destruct (flatten_all _ _) as [[us|e]|] eqn:F; inv E. unfold find_union. cbn [c_unions].
  pose proof (forall2_oget _ _ (fun u u' => flatten_union (c_unions c) u = Some (Ok u'))
    _ _ (flatten_all_ok _ _ _ F) n) as H.
  destruct (oget scmp n (c_unions c)), (oget scmp n us); auto.
  apply flatten_union_ok in H. tauto.
Qed.

Lemma nested_unions_rest : forall c c', nested_unions c = Some (Ok c') ->
  c_types c' = c_types c /\ c_enums c' = c_enums c /\ c_schema c' = c_schema c /\
  c_server c' = c_server c /\ c_upstream c' = c_upstream c /\ c_links c' = c_links c /\
  c_telemetry c' = c_telemetry c.
Proof.
  intros c c' E. unfold nested_unions in E. destruct (flatten_all _ _) as [[us|e]|]; inv E. cbn.
  split; [|split; [|split; [|split; [|split; [|split]]]]]; reflexivity.
Qed.


Lemma nested_unions_accepts : forall c, osorted scmp (c_unions c) ->
  ((exists c', nested_unions c = Some (Ok c')) <->
   (forall n u, find_union c n = Some u ->
      exists l, Expands (c_unions c) (u_types u) l /\ NoDup l)).
Proof.
  intros c S. split.
  - intros [c' E] n u F. unfold nested_unions in E.
    destruct (flatten_all _ _) as [[us|e]|] eqn:G; inv E.
    pose proof (forall2_oget _ _ (fun u u' => flatten_union (c_unions c) u = Some (Ok u'))
      _ _ (flatten_all_ok _ _ _ G) n) as H. unfold find_union in F. rewrite F in H.
    destruct (oget scmp n us) as [u'|]; [|destruct H]. apply flatten_union_ok in H. tauto.
  - intros H. destruct (flatten_all_accepts (c_unions c) (c_unions c)) as [l' E].
    + intros n u I. apply (in_oget _ scmp_order _ _ _ S) in I.
      destruct (H n u I) as [l [X N]]. eapply flatten_union_accepts; eauto.
    + unfold nested_unions. rewrite E. eauto.
Qed.

(** A recursive union has no finite expansion. *)
Lemma expands_inside : forall us ms l, Expands us ms l -> forall n, Inside us ms n ->
  In n l /\ exists u l', oget scmp n us = Some u /\ Expands us (u_types u) l' /\
    List.length l' < List.length l.
Proof.
  intros us ms l X. induction X as [|n rest l G X IH|n u rest l1 l2 G X1 IH1 X2 IH2]; intros m I.
  - inversion I as [? ? ? J|? ? ? ? J]; subst; destruct J.
  - assert (I' : Inside us rest m).
    { inversion I as [? ? u J G'|? k u ? J G' I']; subst; destruct J as [J|J].
      - subst; congruence.
      - eapply In_here; eauto.
      - subst; congruence.
      - eapply In_deep; eauto. }
    auto.
  - assert (Q : m = n \/ Inside us (u_types u) m \/ Inside us rest m).
    { inversion I as [? ? u' J G'|? k u' ? J G' I']; subst; destruct J as [J|J].
      - auto.
      - right; right; eapply In_here; eauto.
      - subst. rewrite G in G'. inv G'. auto.
      - right; right; eapply In_deep; eauto. }
    cbn [List.length]. rewrite app_length. destruct Q as [Q|[Q|Q]].
    + subst. split; [left; auto|]. exists u, l1. split; [auto|split; [auto|lia]].
    + destruct (IH1 m Q) as [A [u' [l' [G' [X' L']]]]]. split; [right; apply in_or_app; auto|].
      exists u', l'. split; [auto|split; [auto|lia]].
    + destruct (IH2 m Q) as [A [u' [l' [G' [X' L']]]]]. split; [right; apply in_or_app; auto|].
      exists u', l'. split; [auto|split; [auto|lia]].
Qed.

Lemma recursive_no_expansion : forall us k n u l, oget scmp n us = Some u -> Inside us (u_types u) n ->
  Expands us (u_types u) l -> List.length l < k -> False.
Proof.
  intros us. induction k as [|k IH]; intros n u l G I X L; [lia|].
  destruct (expands_inside _ _ _ X n I) as [_ [u' [l' [G' [X' L']]]]].
  rewrite G in G'. inv G'. eapply IH; eauto. lia.
Qed.

Lemma nested_unions_recursive : forall c n, osorted scmp (c_unions c) ->
  Recursive (c_unions c) n -> exists e, nested_unions c = Some (Err e).
Proof.
  intros c n S [u [G I]]. destruct (nested_unions_total c) as [[c'|e] E]; [|eauto].
  exfalso. destruct (proj1 (nested_unions_accepts c S) (ex_intro _ c' E) n u G) as [l [X N]].
  eapply (recursive_no_expansion (c_unions c) (Datatypes.S (List.length l))); eauto.
Qed.

(** After the transformation no union contains a union. *)
Lemma nested_unions_flat : forall c c', nested_unions c = Some (Ok c') ->
  forall n u x, find_union c' n = Some u -> In x (u_types u) -> find_union c' x = None.
Proof.
  intros c c' E n u x F I.
  pose proof (nested_unions_members c c' E n) as H. rewrite F in H.
  destruct (find_union c n) as [u0|]; [|destruct H]. destruct H as [_ [_ H]]. apply H in I.
  assert (L : oget scmp x (c_unions c) = None).
  { clear -I. induction I; auto. }
  pose proof (nested_unions_members c c' E x) as H2. unfold find_union at 1 in H2. rewrite L in H2.
  destruct (find_union c' x); [destruct H2|auto].
Qed.
