(** Proofs for C62 to C65. *)
From Coq Require Import String Ascii ZArith NArith Arith Bool Lia List.
From Verif Require Import Base BaseFacts Ordered OrderedFacts JsonModel TypeModel ConfigModel AuthModel
  DiscModel IrModel ScalarModel ComposeModel CtxModel FieldModel FieldSpec.
Import ListNotations.
Open Scope string_scope.
Open Scope list_scope.

(** * C62 *)
Section Walk.
  Variable types : list (string * gtype).

  (** Types already visited of which nothing is left to look at: [V] closed up to [W]. *)
  Definition closed_in (W : list string) (n : string) : Prop :=
    forall t f fd, oget scmp n types = Some t -> In (f, fd) (t_fields t) -> f_resolvers fd = [] ->
      exists t', oget scmp (type_name (f_type fd)) types = Some t' /\
        (t_fields t' = [] \/ In (type_name (f_type fd)) W).

  Inductive goes (n : string) : string -> Prop :=
  | G_one : forall t f fd, oget scmp n types = Some t -> In (f, fd) (t_fields t) -> f_resolvers fd = [] ->
      goes n (type_name (f_type fd))
  | G_more : forall t f fd leaf, oget scmp n types = Some t -> In (f, fd) (t_fields t) -> f_resolvers fd = [] ->
      goes (type_name (f_type fd)) leaf -> goes n leaf.

  Definition stuck (n : string) : Prop := exists leaf, goes n leaf /\ oget scmp leaf types = None.
  Definition field_stuck (fd : field) : Prop :=
    f_resolvers fd = [] /\
    (oget scmp (type_name (f_type fd)) types = None \/ stuck (type_name (f_type fd))).

  Definition type_post (name : string) (ty : gtype) (V : list string) (r : list string * list string) : Prop :=
    incl V (snd r) /\
    (fst r = [] -> (forall n, In n (snd r) -> ~ In n V -> closed_in (snd r) n) /\
                   (t_fields ty = [] \/ In name (snd r))) /\
    (forall f, In f (fst r) -> exists fd, In (f, fd) (t_fields ty) /\ field_stuck fd).

  Definition check_ok (check : string -> gtype -> list string -> option (list string * list string)) : Prop :=
    forall name ty V r, oget scmp name types = Some ty -> check name ty V = Some r -> type_post name ty V r.

  Lemma closed_mono W W' n : incl W W' -> closed_in W n -> closed_in W' n.
  Proof.
    intros I C t f fd Ht Hf Hr. destruct (C t f fd Ht Hf Hr) as (t' & E & [K | K]); exists t'; auto.
  Qed.

  Lemma has_resolver_nil rs : has_resolver rs = false <-> rs = [].
  Proof. destruct rs; cbn; split; congruence. Qed.

  Lemma field_checked_ok check : check_ok check -> forall fd V b V',
    field_checked check types fd V = Some (b, V') ->
    incl V V' /\
    (b = true -> (forall n, In n V' -> ~ In n V -> closed_in V' n) /\
       (f_resolvers fd = [] -> exists t', oget scmp (type_name (f_type fd)) types = Some t' /\
          (t_fields t' = [] \/ In (type_name (f_type fd)) V'))) /\
    (b = false -> field_stuck fd).
  Proof.
    intros CK fd V b V'. unfold field_checked.
    destruct (has_resolver (f_resolvers fd)) eqn:HR.
    - intros E; injection E as <- <-. split; [apply incl_refl|]. split.
      + intros _. split; [intros n A B; contradiction|]. intros R. rewrite R in HR. discriminate.
      + discriminate.
    - apply has_resolver_nil in HR.
      destruct (oget scmp (type_name (f_type fd)) types) as [ty|] eqn:ET.
      + destruct (check (type_name (f_type fd)) ty V) as [[failed W]|] eqn:EC; [|discriminate].
        intros E; injection E as <- <-.
        destruct (CK _ _ _ _ ET EC) as (I & P & Q). cbn in *.
        split; [exact I|]. split.
        * intros B. destruct failed as [|]; [|discriminate]. destruct (P eq_refl) as [P1 P2].
          split; [exact P1|]. intros _. exists ty. auto.
        * intros B. destruct failed as [|g rest]; [discriminate|].
          destruct (Q g (or_introl eq_refl)) as (gd & G1 & G2 & G3).
          split; [exact HR|]. right. destruct G3 as [G3 | (leaf & G4 & G5)].
          -- exists (type_name (f_type gd)). split; [|exact G3]. now apply (G_one _ ty g gd).
          -- exists leaf. split; [|exact G5]. now apply (G_more _ ty g gd).
      + intros E; injection E as <- <-. split; [apply incl_refl|]. split; [discriminate|].
        intros _. split; [exact HR|]. now left.
  Qed.

  Lemma fields_checked_ok check : check_ok check -> forall fs V r,
    fields_checked check types fs V = Some r ->
    incl V (snd r) /\
    (fst r = [] -> (forall n, In n (snd r) -> ~ In n V -> closed_in (snd r) n) /\
       (forall f fd, In (f, fd) fs -> f_resolvers fd = [] ->
          exists t', oget scmp (type_name (f_type fd)) types = Some t' /\
            (t_fields t' = [] \/ In (type_name (f_type fd)) (snd r)))) /\
    (forall f, In f (fst r) -> exists fd, In (f, fd) fs /\ field_stuck fd).
  Proof.
    intros CK fs. induction fs as [|[name fd] fs IH]; intros V r; cbn.
    - intros E; injection E as <-. cbn. split; [apply incl_refl|]. split; [|easy].
      intros _. split; [intros n A B; contradiction|easy].
    - destruct (field_checked check types fd V) as [[b V1]|] eqn:EF; [|discriminate].
      destruct (fields_checked check types fs V1) as [[failed V2]|] eqn:ER; [|discriminate].
      intros E; injection E as <-. cbn.
      destruct (field_checked_ok _ CK _ _ _ _ EF) as (I1 & B1 & B2).
      destruct (IH _ _ ER) as (I2 & R1 & R2). cbn in *.
      split; [eapply incl_tran; eassumption|]. split.
      + intros N. destruct b; [|discriminate]. subst failed. destruct (B1 eq_refl) as [B3 B4].
        destruct (R1 eq_refl) as [R3 R4]. split.
        * intros n A B. destruct (in_dec string_dec n V1) as [K | K].
          -- apply (closed_mono V1); [exact I2|]. now apply B3.
          -- now apply R3.
        * intros f fd' [K | K] HR.
          -- injection K as <- <-. destruct (B4 HR) as (t' & E1 & [E2 | E2]); exists t'; auto.
          -- now apply (R4 f).
      + intros f K. destruct b.
        * destruct (R2 f K) as (fd' & A & B). exists fd'. auto.
        * destruct K as [<- | K]; [exists fd; auto|].
          destruct (R2 f K) as (fd' & A & B). exists fd'. auto.
  Qed.

  Lemma type_checked_ok fuel : check_ok (type_checked fuel types).
  Proof.
    induction fuel as [|fuel IH]; intros name ty V r HT; cbn.
    - destruct (gtype_scalar ty || smem name V) eqn:G; [|discriminate].
      intros E; injection E as <-. unfold type_post; cbn. split; [apply incl_refl|]. split; [|easy].
      intros _. split; [intros n A B; contradiction|].
      apply orb_true_iff in G. destruct G as [G | G].
      + left. unfold gtype_scalar in G. now destruct (t_fields ty).
      + right. now apply smem_In.
    - destruct (gtype_scalar ty || smem name V) eqn:G.
      + intros E; injection E as <-. unfold type_post; cbn. split; [apply incl_refl|]. split; [|easy].
        intros _. split; [intros n A B; contradiction|].
        apply orb_true_iff in G. destruct G as [G | G].
        * left. unfold gtype_scalar in G. now destruct (t_fields ty).
        * right. now apply smem_In.
      + intros E. destruct (fields_checked_ok _ IH _ _ _ E) as (I & P & Q).
        unfold type_post. split; [intros x Hx; apply I; now right|]. split; [|exact Q].
        intros N. destruct (P N) as [P1 P2]. split; [|right; apply I; now left].
        intros n A B. destruct (string_dec name n) as [<- | D].
        * intros t f fd Ht Hf Hr. assert (t = ty) as -> by congruence. now apply (P2 f).
        * apply P1; [exact A|]. intros [K | K]; auto.
  Qed.

  Lemma closed_not_stuck W n : (forall x, In x W -> closed_in W x) ->
    forall leaf, goes n leaf -> In n W -> oget scmp leaf types <> None.
  Proof.
    intros C leaf G. induction G as [n t f fd Ht Hf Hr | n t f fd leaf Ht Hf Hr G IH]; intros HW.
    - destruct (C n HW t f fd Ht Hf Hr) as (t' & E & _). congruence.
    - destruct (C n HW t f fd Ht Hf Hr) as (t' & E & [K | K]).
      + inversion G as [t2 f2 fd2 H1 H2 H3 | t2 f2 fd2 l2 H1 H2 H3 H4]; subst;
          rewrite E in H1; injection H1 as <-; rewrite K in H2; contradiction.
      + now apply IH.
  Qed.

  Lemma type_checked_exact fuel name ty failed V :
    oget scmp name types = Some ty -> type_checked fuel types name ty [] = Some (failed, V) ->
    (failed = [] <-> ~ stuck name) /\
    (forall f, In f failed -> exists fd, In (f, fd) (t_fields ty) /\ field_stuck fd).
  Proof.
    intros HT E. destruct (type_checked_ok fuel name ty [] _ HT E) as (I & P & Q). cbn in *.
    split; [|exact Q]. split.
    - intros N (leaf & G & L). destruct (P N) as [P1 [P2 | P2]].
      + inversion G as [t2 f2 fd2 H1 H2 H3 | t2 f2 fd2 l2 H1 H2 H3 H4]; subst;
          rewrite HT in H1; injection H1 as <-; rewrite P2 in H2; contradiction.
      + exact (closed_not_stuck V name (fun x Hx => P1 x Hx (fun K => K)) leaf G P2 L).
    - intros NS. destruct failed as [|f rest]; [reflexivity|]. exfalso.
      destruct (Q f (or_introl eq_refl)) as (fd & A & B & [C | (leaf & C & D)]); apply NS.
      + exists (type_name (f_type fd)). split; [|exact C]. now apply (G_one _ ty f fd).
      + exists leaf. split; [|exact D]. now apply (G_more _ ty f fd).
  Qed.

  (** Enough levels. *)
  Definition left_over (V : list string) : nat :=
    length (filter (fun k => negb (smem k V)) (nodup string_dec (map fst types))).

  Lemma filter_le {A} (p q : A -> bool) l : (forall x, In x l -> q x = true -> p x = true) ->
    length (filter q l) <= length (filter p l).
  Proof.
    induction l as [|a l IH]; cbn; intros H; [lia|].
    assert (length (filter q l) <= length (filter p l)) by (apply IH; auto).
    destruct (q a) eqn:Q; [rewrite (H a (or_introl eq_refl) Q); cbn; lia|].
    destruct (p a); cbn; lia.
  Qed.
  Lemma filter_lt {A} (p q : A -> bool) l x : (forall x, In x l -> q x = true -> p x = true) ->
    In x l -> p x = true -> q x = false -> length (filter q l) < length (filter p l).
  Proof.
    induction l as [|a l IH]; cbn; intros H I P Q; [contradiction|].
    destruct I as [-> | I].
    - rewrite P, Q. cbn. assert (length (filter q l) <= length (filter p l)) by (apply filter_le; auto). lia.
    - assert (length (filter q l) < length (filter p l)) by (apply IH; auto).
      destruct (q a) eqn:QA; [rewrite (H a (or_introl eq_refl) QA); cbn; lia|].
      destruct (p a); cbn; lia.
  Qed.
  Lemma left_over_mono V V' : incl V V' -> left_over V' <= left_over V.
  Proof.
    intros I. apply filter_le. intros x _ H. apply negb_true_iff in H. apply negb_true_iff.
    apply smem_false in H. apply smem_false. intros K. apply H, I, K.
  Qed.
  Lemma left_over_lt V n : In n (map fst types) -> ~ In n V -> left_over (n :: V) < left_over V.
  Proof.
    intros I N. apply filter_lt with (x := n).
    - intros x _ H. apply negb_true_iff in H. apply negb_true_iff. apply smem_false in H.
      apply smem_false. intros K. apply H. now right.
    - now apply nodup_In.
    - apply negb_true_iff. now apply smem_false.
    - apply negb_false_iff. apply smem_In. now left.
  Qed.

  Lemma key_in n (t : gtype) : oget scmp n types = Some t -> In n (map fst types).
  Proof. intros H. apply (oget_in scmp scmp_order) in H. apply in_map_iff. exists (n, t). auto. Qed.

  Lemma type_checked_total fuel : forall name ty V, oget scmp name types = Some ty ->
    left_over V <= fuel -> exists r, type_checked fuel types name ty V = Some r.
  Proof.
    induction fuel as [|fuel IH]; intros name ty V HT L; cbn.
    - destruct (gtype_scalar ty || smem name V) eqn:G; [eauto|]. exfalso.
      apply orb_false_iff in G. destruct G as [_ G]. apply smem_false in G.
      assert (left_over (name :: V) < left_over V) by (apply left_over_lt; [eapply key_in; eauto|exact G]). lia.
    - destruct (gtype_scalar ty || smem name V) eqn:G; [eauto|].
      apply orb_false_iff in G. destruct G as [_ G]. apply smem_false in G.
      assert (L' : left_over (name :: V) <= fuel).
      { assert (left_over (name :: V) < left_over V) by (apply left_over_lt; [eapply key_in; eauto|exact G]). lia. }
      clear L HT G. revert L'. generalize (name :: V) as W. induction (t_fields ty) as [|[n fd] fs IHf]; cbn; intros W L'; [eauto|].
      assert (K : exists b W', field_checked (type_checked fuel types) types fd W = Some (b, W')).
      { unfold field_checked. destruct (has_resolver (f_resolvers fd)); [eauto|].
        destruct (oget scmp (type_name (f_type fd)) types) as [ty'|] eqn:ET; [|eauto].
        destruct (IH _ _ W ET L') as [[fl W'] ->]. eauto. }
      destruct K as (b & W' & K). rewrite K.
      destruct (field_checked_ok _ (type_checked_ok fuel) _ _ _ _ K) as [I _].
      destruct (IHf W') as [[fl W2] E]; [pose proof (left_over_mono _ _ I); lia|].
      rewrite E. eauto.
  Qed.
  Lemma left_over_all V : left_over V <= length types.
  Proof.
    unfold left_over. rewrite <- (map_length fst types).
    transitivity (length (nodup string_dec (map fst types))).
    - generalize (nodup string_dec (map fst types)). intros l. induction l as [|a l IH]; cbn; [lia|].
      destruct (negb (smem a V)); cbn; lia.
    - apply NoDup_incl_length; [apply NoDup_nodup|]. intros x H. now apply nodup_In in H.
  Qed.
  Lemma enough name ty V : oget scmp name types = Some ty ->
    exists r, type_checked (S (length types)) types name ty V = Some r.
  Proof. intros H. apply type_checked_total; [exact H|]. pose proof (left_over_all V). lia. Qed.
End Walk.

Lemma goes_iff c n leaf : goes (c_types c) n leaf <-> exists p, without_resolver c n p leaf.
Proof.
  split.
  - intros G. induction G as [n t f fd A B C | n t f fd leaf A B C G (p & IH)].
    + exists [f]. now apply (WR_one c n t f fd).
    + exists (f :: p). now apply (WR_more c n t f fd).
  - intros (p & W). induction W as [n t f fd A B C | n t f fd p leaf A B C W IH].
    + now apply (G_one _ n t f fd).
    + now apply (G_more _ n t f fd).
Qed.
Lemma stuck_iff c n : stuck (c_types c) n <-> dead_end c n.
Proof.
  unfold stuck, dead_end, find_type. split.
  - intros (leaf & G & L). apply goes_iff in G. destruct G as (p & G). eauto.
  - intros (p & leaf & G & L). exists leaf. split; [|exact L]. apply goes_iff. eauto.
Qed.

Lemma root_checked_exact c n t : find_type c n = Some t ->
  exists r, root_checked c n t = Some r /\ (r = Ok tt <-> ~ dead_end c n) /\
    (forall es, r = Err es -> es <> [] /\ forall e, In e es -> exists f fd, e = Build_cause [n; f] NoResolverFound /\
       In (f, fd) (t_fields t) /\ needs_data c fd).
Proof.
  intros H. destruct (enough (c_types c) n t [] H) as [[failed V] E].
  unfold root_checked, levels. rewrite E.
  destruct (type_checked_exact _ _ _ _ _ _ H E) as [P Q]. rewrite (stuck_iff c n) in P.
  destruct failed as [|f rest].
  - eexists. split; [reflexivity|]. split; [tauto|]. discriminate.
  - eexists. split; [reflexivity|]. split.
    + split; [discriminate|]. intros N. apply P in N. discriminate.
    + intros es K. injection K as <-. split; [discriminate|]. intros e I.
      change (In e (map (fun f => Build_cause [n; f] NoResolverFound) (f :: rest))) in I.
      apply in_map_iff in I. destruct I as (g & <- & I). destruct (Q g I) as (gd & A & B & C).
      exists g, gd. split; [reflexivity|]. split; [exact A|]. split; [exact B|].
      destruct C as [C | C]; [now left|right; now apply stuck_iff].
Qed.

Lemma leaves_dead c n : no_declared_scalars c -> (leaves_resolved c n <-> ~ dead_end c n).
Proof.
  intros NS. split.
  - intros L (p & leaf & W & D). apply (L p leaf W). intros t T. congruence.
  - intros D p leaf W L. destruct (find_type c leaf) as [t|] eqn:T.
    + apply (NS leaf t T). now apply L.
    + apply D. exists p, leaf. auto.
Qed.

Lemma schema_exact c : exists r, to_schema c = Some r /\
  (forall s, r = Ok s <->
     (exists q t, r_query (c_schema c) = Some q /\ find_type c q = Some t /\ ~ dead_end c q /\
        s = (q, r_mutation (c_schema c))) /\
     (forall n, r_mutation (c_schema c) = Some n -> exists t, find_type c n = Some t /\ ~ dead_end c n)).
Proof.
  unfold to_schema, validate_query, validate_mutation.
  assert (M : exists mr, (match r_mutation (c_schema c) with
      | None => Some (Ok tt)
      | Some n => match find_type c n with None => Some (traced (fail MutationTypeNotDefined) n) | Some t => root_checked c n t end
      end) = Some mr /\ (mr = Ok tt <-> forall n, r_mutation (c_schema c) = Some n -> exists t, find_type c n = Some t /\ ~ dead_end c n)).
  { destruct (r_mutation (c_schema c)) as [n|].
    - destruct (find_type c n) as [t|] eqn:T.
      + destruct (root_checked_exact c n t T) as (r & E & P & _). exists r. split; [exact E|].
        rewrite P. split.
        * intros K n0 H. injection H as <-. eauto.
        * intros K. destruct (K n eq_refl) as (t' & _ & D). exact D.
      + eexists. split; [reflexivity|]. split; [discriminate|].
        intros K. destruct (K n eq_refl) as (t' & D & _). congruence.
    - eexists. split; [reflexivity|]. split; [|reflexivity]. intros _ n H. discriminate. }
  destruct M as (mr & -> & M).
  destruct (r_query (c_schema c)) as [q|].
  - destruct (find_type c q) as [t|] eqn:T.
    + destruct (root_checked_exact c q t T) as (r & -> & P & _). eexists. split; [reflexivity|].
      intros s. destruct r as [[]|e].
      * destruct mr as [[]|e]; cbn.
        -- split.
           ++ intros K. injection K as <-. split; [exists q, t|]; [|now apply M].
              repeat split; auto. now apply P.
           ++ intros ((q' & t' & A & B & C & ->) & _). injection A as <-. reflexivity.
        -- split; [discriminate|]. intros (_ & K). apply M in K. discriminate.
      * split.
        -- cbn. destruct mr; discriminate.
        -- intros ((q' & t' & A & B & C & _) & _). injection A as <-. apply P in C. discriminate.
    + eexists. split; [reflexivity|]. intros s. split.
      * cbn. destruct mr; discriminate.
      * intros ((q' & t' & A & B & _) & _). injection A as <-. congruence.
  - eexists. split; [reflexivity|]. intros s. split.
    + cbn. destruct mr; discriminate.
    + intros ((q' & t' & A & _) & _). discriminate.
Qed.

Lemma schema_roots c : no_declared_scalars c ->
  exists r, to_schema c = Some r /\ ((exists s, r = Ok s) <-> roots_resolved c).
Proof.
  intros NS. destruct (schema_exact c) as (r & E & P). exists r. split; [exact E|]. split.
  - intros (s & ->). destruct (proj1 (P s) eq_refl) as ((q & t & A & B & C & _) & D). split.
    + exists q, t. repeat split; auto. now apply leaves_dead.
    + intros n H. destruct (D n H) as (t' & F & G). exists t'. split; [exact F|]. now apply leaves_dead.
  - intros ((q & t & A & B & C) & D). exists (q, r_mutation (c_schema c)). apply P. split.
    + exists q, t. repeat split; auto. now apply leaves_dead in C.
    + intros n H. destruct (D n H) as (t' & F & G). exists t'. split; [exact F|]. now apply leaves_dead in G.
Qed.
