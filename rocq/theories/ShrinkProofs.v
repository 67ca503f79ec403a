(** Proofs about the removal of unused definitions (C75). *)
From Coq Require Import String Bool Arith List Lia.
From Verif Require Import Base BaseFacts TypeModel ShrinkModel ShrinkSpec.
Import ListNotations.
Open Scope string_scope.
Open Scope list_scope.

(** ** The walk *)
Inductive walked (g : list (string * list string)) (roots : list string) : string -> Prop :=
| w_root n : In n roots -> walked g roots n
| w_step n deps m : walked g roots n -> aget n g = Some deps -> In m deps -> walked g roots m.

Lemma identify_sound g roots fuel : forall stack seen r,
  (forall n, In n stack -> walked g roots n) -> (forall n, In n seen -> walked g roots n) ->
  identify_referenced_types fuel g stack seen = Some r -> forall n, In n r -> walked g roots n.
Proof.
  induction fuel as [|fuel IH]; intros stack seen r Hs Hn E; [discriminate|]. cbn in E.
  destruct stack as [|x stack]; [injection E as <-; exact Hn|].
  destruct (smem x seen).
  { eapply IH; [|exact Hn|exact E]. intros n I. apply Hs. now right. }
  assert (Hn' : forall n, In n (x :: seen) -> walked g roots n) by (intros n [<-|I]; [apply Hs; now left|now apply Hn]).
  destruct (aget x g) as [deps|] eqn:G; (eapply IH; [|exact Hn'|exact E]).
  - intros n I. apply in_app_iff in I. destruct I as [I|I]; [|apply Hs; now right]. apply in_rev in I.
    eapply w_step; [apply Hs; now left|exact G|exact I].
  - intros n I. apply Hs. now right.
Qed.

Lemma identify_closed g fuel : forall stack seen r,
  (forall n deps m, In n seen -> aget n g = Some deps -> In m deps -> In m seen \/ In m stack) ->
  identify_referenced_types fuel g stack seen = Some r ->
  (forall n, In n seen \/ In n stack -> In n r) /\
  (forall n deps m, In n r -> aget n g = Some deps -> In m deps -> In m r).
Proof.
  induction fuel as [|fuel IH]; intros stack seen r Hc E; [discriminate|]. cbn in E.
  destruct stack as [|x stack].
  { injection E as <-. split; [intros n [I|[]]; exact I|]. intros n deps m I G M. now destruct (Hc n deps m I G M) as [X|[]]. }
  destruct (smem x seen) eqn:S.
  { apply smem_In in S. edestruct (IH stack seen r) as [A B]; [|exact E|].
    - intros n deps m I G M. destruct (Hc n deps m I G M) as [X|[<-|X]]; auto.
    - split; [|exact B]. intros n [I|[<-|I]]; auto. }
  destruct (aget x g) as [deps|] eqn:G.
  - edestruct (IH (rev deps ++ stack) (x :: seen) r) as [A B]; [|exact E|].
    + intros n deps' m [<-|I] G' M.
      * rewrite G in G'. injection G' as <-. right. apply in_app_iff. left. now apply in_rev in M.
      * destruct (Hc n deps' m I G' M) as [X|[<-|X]]; [left; now right|left; now left|right; apply in_app_iff; now right].
    + split; [|exact B]. intros n [I|[<-|I]]; apply A; [left; now right|left; now left|right; apply in_app_iff; now right].
  - edestruct (IH stack (x :: seen) r) as [A B]; [|exact E|].
    + intros n deps' m [<-|I] G' M; [congruence|].
      destruct (Hc n deps' m I G' M) as [X|[<-|X]]; [left; now right|left; now left|now right].
    + split; [|exact B]. intros n [I|[<-|I]]; apply A; [left; now right|left; now left|now right].
Qed.

Lemma identify_exact g roots fuel r : identify_referenced_types fuel g (rev roots) [] = Some r ->
  forall n, In n r <-> walked g roots n.
Proof.
  intros E n. split.
  - eapply identify_sound; [| |exact E]; [|intros ? []]. intros m I. apply w_root. now apply in_rev.
  - destruct (identify_closed g fuel (rev roots) [] r (fun _ _ _ (I : In _ []) => match I with end) E) as [A B].
    induction 1 as [n I|n deps m W IH G M]; [apply A; right; now apply in_rev in I|eapply B; eauto].
Qed.

(** The walk ends: every name brings in its dependencies once. *)
Definition pending (g : list (string * list string)) (seen : list string) : nat :=
  list_sum (map (fun kv => if smem (fst kv) seen then 0 else length (snd kv)) g).

Lemma pending_cons k d g seen : pending ((k, d) :: g) seen = (if smem k seen then 0 else length d) + pending g seen.
Proof. reflexivity. Qed.
Lemma pending_le g seen x : pending g (x :: seen) <= pending g seen.
Proof.
  induction g as [|[k d] g IH]; [reflexivity|]. rewrite !pending_cons. cbn [smem]. destruct (String.eqb k x), (smem k seen); lia.
Qed.
Lemma pending_new g seen x deps : smem x seen = false -> aget x g = Some deps -> pending g (x :: seen) + length deps <= pending g seen.
Proof.
  intros S. induction g as [|[k d] g IH]; intros G; [discriminate|]. rewrite !pending_cons. cbn [smem]. cbn in G. rewrite (String.eqb_sym k x).
  destruct (String.eqb x k) eqn:E.
  - apply String.eqb_eq in E. subst k. injection G as ->. rewrite S. pose proof (pending_le g seen x) as P. lia.
  - specialize (IH G). lia.
Qed.
Lemma identify_ends g fuel : forall stack seen, length stack + pending g seen < fuel -> identify_referenced_types fuel g stack seen <> None.
Proof.
  induction fuel as [|fuel IH]; intros stack seen L; [lia|]. cbn. destruct stack as [|x stack]; [discriminate|]. cbn in L.
  destruct (smem x seen) eqn:S; [apply IH; lia|]. destruct (aget x g) as [deps|] eqn:G.
  - apply IH. rewrite app_length, rev_length. pose proof (pending_new g seen x deps S G). lia.
  - apply IH. pose proof (pending_le g seen x). lia.
Qed.

(** ** The graph *)
Definition last_def (n : string) (defs : list bdef) : option bdef := find (fun d => String.eqb n (bdef_name d)) (rev defs).

Lemma build_get all defs : forall n,
  aget n (fold_left (fun g d => aset (bdef_name d) (dependencies all d) g) defs []) = option_map (dependencies all) (last_def n defs).
Proof.
  unfold last_def. induction defs as [|d defs IH] using rev_ind; intros n; [reflexivity|].
  rewrite fold_left_app, rev_app_distr. cbn. rewrite aget_aset, IH. now destruct (String.eqb n (bdef_name d)).
Qed.
Lemma graph_get defs n : aget n (build_dependency_graph defs) = option_map (dependencies defs) (last_def n defs).
Proof. apply build_get. Qed.

Lemma titled_name d n : titled d n <-> bdef_name d = n.
Proof. split; [now destruct 1|intros <-; destruct d; constructor]. Qed.
Lemma named_name t n : named t n <-> type_name t = n.
Proof. split; [induction 1; auto|]. revert n. induction t as [m nn|t IH nn]; intros n H; cbn in H; subst; constructor; auto. Qed.

Lemma last_def_in n defs d : last_def n defs = Some d -> In d defs /\ titled d n.
Proof.
  unfold last_def. intros F. apply find_some in F. destruct F as [I E]. apply String.eqb_eq in E. split; [now apply in_rev|]. now apply titled_name.
Qed.
Lemma last_def_distinct b d n : distinct b -> In d (bp_defs b) -> titled d n -> last_def n (bp_defs b) = Some d.
Proof.
  intros D I T. destruct (last_def n (bp_defs b)) as [d'|] eqn:F.
  - destruct (last_def_in _ _ _ F) as [I' T']. f_equal. eapply D; eauto.
  - exfalso. unfold last_def in F. apply (find_none _ _ F d) in I as X || (rewrite in_rev in I; pose proof (find_none _ _ F d I) as X). cbn in X.
    apply titled_name in T. subst n. now rewrite String.eqb_refl in X.
Qed.

Lemma implementers_in defs i o : In o (implementers defs i) <-> exists fs is, In (BObject o fs is) defs /\ In i is.
Proof.
  unfold implementers. rewrite in_flat_map. split.
  - intros (d & I & X). destruct d; try contradiction. destruct (smem i implements) eqn:S; [|contradiction]. destruct X as [<-|[]]. apply smem_In in S. eauto.
  - intros (fs & is & I & M). eexists. split; [exact I|]. cbn. apply smem_In in M. rewrite M. now left.
Qed.

(** What the graph follows, in terms of the text. *)
Definition followed (b : blueprint) (d : bdef) (m : string) : Prop :=
  match d with
  | BInterface i fs _ => (exists f, In f fs /\ named (bf_type f) m) \/ exists fs' is', In (BObject m fs' is') (bp_defs b) /\ In i is'
  | BEnum _ vs => In m vs
  | BScalar n => m = n
  | _ => mentions d m
  end.
Lemma dependencies_in b d m : In m (dependencies (bp_defs b) d) <-> followed b d m.
Proof.
  destruct d; cbn.
  - rewrite !in_app_iff, in_map_iff, in_flat_map. split.
    + intros [(f & <- & I)|[(f & I & X)|I]].
      * eapply m_object; [exact I|]. left. now apply named_name.
      * apply in_map_iff in X. destruct X as ([a t] & <- & J). eapply m_object; [exact I|]. right. exists a, t. split; [exact J|]. now apply named_name.
      * now apply m_object_implements.
    + intros M. inversion M; subst; [|auto]. destruct H4 as [N|(a & t & J & N)]; apply named_name in N; subst m.
      * left. eauto.
      * right. left. exists f. split; [assumption|]. apply in_map_iff. exists (a, t). auto.
  - rewrite in_app_iff, in_map_iff, implementers_in. split; (intros [(f & X)|X]; [left; exists f|right; exact X]).
    + destruct X as (X & I). split; [exact I|now apply named_name].
    + destruct X as (I & X). split; [now apply named_name in X|exact I].
  - rewrite in_map_iff. split.
    + intros ([f t] & <- & I). eapply m_input; [exact I|]. now apply named_name.
    + intros M. inversion M; subst. exists (f, t). split; [now apply named_name|assumption].
  - reflexivity.
  - split; [intros I; now apply m_union|intros M; now inversion M].
  - split; [intros [H|[]]; auto|auto].
Qed.

(** ** The result *)
Section Result.
  Variable b : blueprint.
  Notation g := (build_dependency_graph (bp_defs b)).

  Lemma compress_kept fuel b' : compress fuel b = Some b' -> exists r,
    (forall n, In n r <-> walked g (root_types b) n) /\
    b' = {| bp_query := bp_query b; bp_mutation := bp_mutation b; bp_defs := filter (fun d => smem (bdef_name d) (always_kept ++ r)) (bp_defs b) |}.
  Proof.
    unfold compress. destruct (identify_referenced_types _ _ _ _) as [r|] eqn:E; [|discriminate]. intros H. injection H as <-. exists r. split; [|reflexivity]. eapply identify_exact; eauto.
  Qed.

  Lemma root_walked n : root b n -> walked g (root_types b) n.
  Proof.
    intros R. apply w_root. unfold root_types. destruct R as [->|[->|[->|[->| ->]]]]; cbn; auto 10.
  Qed.
  Lemma walked_root n : In n (root_types b) -> root b n.
  Proof.
    unfold root_types, root. cbn. intros [<-|[<-|[<-|[<-|[<-|[]]]]]]; auto. destruct (bp_mutation b); auto.
  Qed.
  Lemma step_walked n d m : distinct b -> walked g (root_types b) n -> In d (bp_defs b) -> titled d n -> followed b d m -> walked g (root_types b) m.
  Proof.
    intros D W I T F. eapply w_step; [exact W| |].
    - rewrite graph_get, (last_def_distinct b d n D I T). reflexivity.
    - now apply dependencies_in.
  Qed.

  Lemma met_walked : distinct b -> conforming b -> forall n, met b n -> walked g (root_types b) n.
  Proof.
    intros D C n M. induction M as [n R|n d m M IH I T X|i fs is o ofs ois M IH I IO J].
    - now apply root_walked.
    - destruct X.
      + eapply step_walked; eauto; cbn; econstructor; eauto.
      + eapply step_walked; eauto; cbn. now constructor.
      + destruct H0 as [N|(a & t & A & N)].
        * eapply step_walked; eauto. cbn. left. eauto.
        * destruct (C _ _ _ I) as [(o & ofs & ois & IO & J) Cf]. destruct (Cf _ _ _ IO J) as [_ Ca].
          destruct (Ca _ _ _ _ H A N) as (f' & t' & If & A' & N').
          assert (Wo : walked g (root_types b) o) by (eapply (step_walked n); [exact D|exact IH|exact I|exact T|]; cbn; right; eauto).
          eapply step_walked; [exact D|exact Wo|exact IO|constructor|]. cbn. eapply m_object; [exact If|]. right. eauto.
      + destruct (C _ _ _ I) as [(o & ofs & ois & IO & J) Cf]. destruct (Cf _ _ _ IO J) as [Ci _].
        assert (Wo : walked g (root_types b) o) by (eapply (step_walked n); [exact D|exact IH|exact I|exact T|]; cbn; right; eauto).
        eapply step_walked; [exact D|exact Wo|exact IO|constructor|]. cbn. apply m_object_implements. now apply Ci.
      + eapply step_walked; eauto; cbn; econstructor; eauto.
      + eapply step_walked; eauto; cbn. now constructor.
    - eapply step_walked; [exact D|exact IH|exact I|constructor|]. cbn. right. eauto.
  Qed.

  (** What is reached and defined can be met, but through the values of enums. *)
  Lemma walked_met : values_apart b -> forall n, walked g (root_types b) n -> met b n \/ ~ defined b n.
  Proof.
    intros V n W. induction W as [n I|n deps m W IH G M]; [left; apply met_root; now apply walked_root|].
    rewrite graph_get in G. destruct (last_def n (bp_defs b)) as [d|] eqn:L; [|discriminate]. injection G as <-.
    destruct (last_def_in _ _ _ L) as [I T]. apply dependencies_in in M.
    destruct IH as [IH|IH]; [|exfalso; apply IH; now exists d].
    destruct d; cbn in M; try (left; eapply met_named; eauto; fail).
    - left. destruct M as [(f & If & N)|(ofs & ois & IO & J)].
      + eapply met_named; [exact IH|exact I|exact T|]. eapply m_interface; [exact If|now left].
      + apply titled_name in T. cbn in T. subst. eapply met_object; eauto.
    - right. eapply V; eauto.
    - apply titled_name in T. cbn in T. subst. now left.
  Qed.
End Result.

Lemma filter_twice {A} (p q : A -> bool) l : (forall x, In x l -> p x = true -> q x = true) -> filter q (filter p l) = filter p l.
Proof.
  induction l as [|x l IH]; intros H; [reflexivity|]. cbn. destruct (p x) eqn:P.
  - cbn. rewrite (H x (or_introl eq_refl) P). f_equal. apply IH. intros y I. apply H. now right.
  - apply IH. intros y I. apply H. now right.
Qed.
Lemma find_filter {A} (p q : A -> bool) l : (forall x, q x = true -> p x = true) -> find q (filter p l) = find q l.
Proof.
  intros H. induction l as [|x l IH]; [reflexivity|]. cbn. destruct (q x) eqn:Q.
  - rewrite (H x Q). cbn. now rewrite Q.
  - destruct (p x); cbn; [rewrite Q|]; exact IH.
Qed.
Lemma filter_rev {A} (p : A -> bool) l : filter p (rev l) = rev (filter p l).
Proof.
  induction l as [|x l IH]; [reflexivity|]. cbn. rewrite filter_app, IH. cbn. destruct (p x); cbn; [reflexivity|now rewrite app_nil_r].
Qed.

(** Removing twice is removing once. *)
Lemma compress_again fuel fuel' b b' b'' : compress fuel b = Some b' -> compress fuel' b' = Some b'' -> b'' = b'.
Proof.
  intros H H'. destruct (compress_kept b fuel b' H) as (r & R & ->). destruct (compress_kept _ _ _ H') as (r' & R' & ->). cbn [bp_query bp_mutation bp_defs] in *.
  set (p := fun d => smem (bdef_name d) (always_kept ++ r)) in *. set (b1 := {| bp_query := bp_query b; bp_mutation := bp_mutation b; bp_defs := filter p (bp_defs b) |}) in *.
  assert (Same : forall n, In n r -> In n r').
  { intros n I. apply R'. apply R in I. change (root_types b1) with (root_types b).
    assert (K : walked (build_dependency_graph (bp_defs b)) (root_types b) n) by exact I. induction K as [n J|n deps m W IH G M]; [now apply w_root|].
    specialize (IH W). rewrite graph_get in G. destruct (last_def n (bp_defs b)) as [d|] eqn:L; [|discriminate]. injection G as <-.
    destruct (last_def_in _ _ _ L) as [Id T].
    assert (L' : last_def n (bp_defs b1) = Some d).
    { cbn. rewrite <- L. unfold last_def. rewrite <- filter_rev. apply find_filter. intros x E. apply String.eqb_eq in E. subst n. unfold p. apply smem_In, in_app_iff. right. now apply R. }
    change (filter p (bp_defs b)) with (bp_defs b1) in IH |- *. eapply w_step; [exact IH|rewrite graph_get, L'; reflexivity|]. apply dependencies_in. apply dependencies_in in M.
    destruct d; cbn [followed] in M |- *; auto. destruct M as [M|(fs & is & IO & J)]; [now left|]. right. exists fs, is. split; [|exact J].
    apply filter_In. split; [exact IO|]. unfold p. apply smem_In, in_app_iff. right. apply R. eapply w_step; [exact W|rewrite graph_get, L; reflexivity|].
    apply dependencies_in. cbn. right. eauto. }
  subst b1. f_equal. apply filter_twice. intros d I P. unfold p in P. apply smem_In in P. apply smem_In. apply in_app_iff in P. apply in_app_iff. destruct P as [P|P]; auto.
Qed.
