(** Proofs about documents. *)
From Coq Require Import String Ascii ZArith NArith Arith Bool Lia List.
From Verif Require Import Base BaseFacts Ordered OrderedFacts JsonModel TypeModel TypeProofs BuilderModel ConfigModel MergeSpec RenameSpec FedModel AmbModel AmbSpec AmbProofs DocModel DocSpec.
Import ListNotations.
Open Scope string_scope.
Open Scope list_scope.

(** ** The interface map *)
Definition member (m : list (string * list string)) (i n : string) : Prop := exists s, oget scmp i m = Some s /\ In n s.
Definition filled (m : list (string * list string)) : Prop := forall i s, oget scmp i m = Some s -> exists n, In n s.

Definition add_implementor (n : string) (acc : list (string * list string)) (i : string) : list (string * list string) :=
  oins scmp i (sins scmp n (match oget scmp i acc with Some s => s | None => [] end)) acc.
Lemma add_implementor_member n acc i j m :
  member (add_implementor n acc i) j m <-> member acc j m \/ (m = n /\ j = i).
Proof.
  unfold add_implementor, member. destruct (string_dec j i) as [-> | N].
  - rewrite (oget_oins_same scmp scmp_order). split.
    + intros (s & E & I). injection E as <-. apply (sins_in scmp scmp_order) in I as [-> | I]; [auto|].
      destruct (oget scmp i acc) as [s0|]; [left; eauto|destruct I].
    + intros H. eexists. split; [reflexivity|]. apply (sins_in scmp scmp_order).
      destruct H as [(s & E & I)|[-> _]]; [|auto]. rewrite E. auto.
  - rewrite (oget_oins_other scmp scmp_order) by auto. split; [auto|]. intros [H|[_ E]]; [auto|contradiction].
Qed.
Lemma add_implementor_filled n acc i : filled acc -> filled (add_implementor n acc i).
Proof.
  intros F j s. unfold add_implementor. destruct (string_dec j i) as [-> | N].
  - rewrite (oget_oins_same scmp scmp_order). intros E. injection E as <-. exists n. apply (sins_in scmp scmp_order). auto.
  - rewrite (oget_oins_other scmp scmp_order) by auto. apply F.
Qed.
Lemma implementors_inner n is : forall acc,
  (forall j m, member (fold_left (add_implementor n) is acc) j m <-> member acc j m \/ (m = n /\ In j is)) /\
  (filled acc -> filled (fold_left (add_implementor n) is acc)).
Proof.
  induction is as [|i is IH]; intros acc; cbn [fold_left].
  - split; [|auto]. intros j m. cbn. tauto.
  - destruct (IH (add_implementor n acc i)) as [A B]. split.
    + intros j m. rewrite A, add_implementor_member. cbn. split; [intros [[H|[-> ->]]|[-> H]]|intros [H|[-> [-> | H]]]]; auto.
    + intros F. apply B, add_implementor_filled, F.
Qed.
Lemma implementors_outer ts : forall acc,
  (forall j m, member (fold_left (fun acc kt => fold_left (add_implementor (fst kt)) (t_implements (snd kt)) acc) ts acc) j m <->
     member acc j m \/ exists t, In (m, t) ts /\ In j (t_implements t)) /\
  (filled acc -> filled (fold_left (fun acc kt => fold_left (add_implementor (fst kt)) (t_implements (snd kt)) acc) ts acc)).
Proof.
  induction ts as [|[n t] ts IH]; intros acc; cbn [fold_left fst snd].
  - split; [|auto]. intros j m. split; [auto|]. intros [H|(t & [] & _)]. auto.
  - destruct (implementors_inner n (t_implements t) acc) as [A B].
    destruct (IH (fold_left (add_implementor n) (t_implements t) acc)) as [C D]. split; [|auto].
    intros j m. rewrite C, A. cbn. split.
    + intros [[H|[-> H]]|(t' & I & H)]; [auto|right; exists t; auto|right; exists t'; auto].
    + intros [H|(t' & [E|I] & H)]; [auto| |right; eauto]. injection E as -> ->. auto.
Qed.
Lemma implementors_ok c :
  (forall i n, member (implementors c) i n <-> implements_directly c n i) /\ filled (implementors c).
Proof.
  destruct (implementors_outer (c_types c) []) as [A B]. change (implementors c) with
    (fold_left (fun acc kt => fold_left (add_implementor (fst kt)) (t_implements (snd kt)) acc) (c_types c) []).
  split.
  - intros i n. rewrite A. split; [intros [(s & E & _)|H]; [discriminate|exact H]|auto].
  - apply B. intros i s E. discriminate.
Qed.
Lemma implementors_key c i : oget scmp i (implementors c) <> None <-> Implemented c i.
Proof.
  destruct (implementors_ok c) as [A B]. split.
  - intros H. destruct (oget scmp i (implementors c)) as [s|] eqn:E; [|contradiction]. destruct (B _ _ E) as [n I].
    assert (M : member (implementors c) i n) by (exists s; auto). apply A in M as (t & J & L). exists n, t. auto.
  - intros (n & t & J & L). assert (M : member (implementors c) i n) by (apply A; exists t; auto).
    destruct M as (s & E & _). congruence.
Qed.
Lemma implementors_sorted c : osorted scmp (implementors c).
Proof.
  unfold implementors. set (l := c_types c). generalize (@osorted_nil string (list string) scmp). generalize (@nil (string * list string)).
  induction l as [|[n t] l IH]; intros acc S; cbn [fold_left fst snd]; [exact S|]. apply IH. clear IH.
  revert acc S. induction (t_implements t) as [|i is IH]; intros acc S; cbn [fold_left]; [exact S|]. apply IH.
  apply (osorted_oins scmp scmp_order), S.
Qed.

(** The types behind [i] that are not interfaces themselves. *)
Definition behind (c : config) (i n : string) : Prop := Implements c n i /\ ~ Implemented c n.
Definition results_ok (c : config) (temp : list (string * list string)) : Prop :=
  forall i s, oget scmp i temp = Some s -> forall n, In n s <-> behind c i n.
Definition set_behind (c : config) (set : list string) (n : string) : Prop :=
  (In n set /\ ~ Implemented c n) \/ exists m, In m set /\ behind c m n.

Lemma implements_last c n i : Implements c n i <-> implements_directly c n i \/ exists m, Implements c n m /\ implements_directly c m i.
Proof.
  split.
  - intros H. induction H as [n i H|n m i D I IH]; [auto|]. destruct IH as [H|(k & H & J)].
    + right. exists m. split; [now apply I_direct|auto].
    + right. exists k. split; [|auto]. eapply I_through; eauto.
  - intros [H|(m & H & J)]; [now apply I_direct|]. induction H as [n m H|n k m D I IH].
    + eapply I_through; [exact H|now apply I_direct].
    + eapply I_through; [exact D|exact (IH J)].
Qed.
Lemma behind_set c i s n : oget scmp i (implementors c) = Some s -> (behind c i n <-> set_behind c s n).
Proof.
  intros E. destruct (implementors_ok c) as [A _].
  assert (M : forall m, In m s <-> implements_directly c m i).
  { intros m. rewrite <- A. unfold member. rewrite E. split; [eauto|intros (s' & Q & I); now injection Q as <-]. }
  unfold behind, set_behind. rewrite implements_last. split.
  - intros [[H|(m & H & J)] N]; [left; rewrite M; auto|right; exists m; rewrite M; split; [auto|split; auto]].
  - intros [[H N]|(m & H & J & N)]; [rewrite M in H; auto|rewrite M in H; split; [eauto|auto]].
Qed.

Lemma merging_ok c : forall fuel set temp s temp',
  results_ok c temp -> interface_merging fuel (implementors c) set temp = Some (s, temp') ->
  results_ok c temp' /\ forall n, In n s <-> set_behind c set n.
Proof.
  induction fuel as [|fuel IH]; intros set temp s temp' R E; [discriminate|]. cbn in E.
  set (step := fun (st : list string * list (string * list string)) n => _) in E.
  assert (G : forall set st st', results_ok c (snd st) -> fold_opt step set st = Some st' ->
    results_ok c (snd st') /\ forall n, In n (fst st') <-> In n (fst st) \/ set_behind c set n).
  { clear E R temp s temp' set. induction set as [|m set IHs]; intros st st' R E; cbn in E.
    - injection E as <-. split; [auto|]. intros n. unfold set_behind. cbn. split; [auto|]. intros [H|[[[] _]|(m & [] & _)]]. auto.
    - destruct (step st m) as [st1|] eqn:E1; [|discriminate].
      assert (G1 : results_ok c (snd st1) /\ forall n, In n (fst st1) <-> In n (fst st) \/ set_behind c [m] n).
      { unfold step in E1. pose proof (implementors_key c m) as Km.
        destruct (oget scmp m (implementors c)) as [inner|] eqn:Ei.
        - assert (Im : Implemented c m) by (apply Km; congruence).
          assert (SB : forall n, set_behind c [m] n <-> behind c m n).
          { intros n. unfold set_behind. cbn. split; [intros [[[<- | []] N]|(k & [<- | []] & H)]; [contradiction|auto]|intros H; right; eauto]. }
          destruct (oget scmp m (snd st)) as [inner'|] eqn:Et.
          + injection E1 as <-. split; [exact R|]. intros n. cbn. rewrite (sextend_in scmp scmp_order), SB, (R m inner' Et n). tauto.
          + destruct (interface_merging fuel (implementors c) inner (snd st)) as [[inner' temp']|] eqn:Em; [|discriminate].
            injection E1 as <-. destruct (IH _ _ _ _ R Em) as [R' M]. cbn [fst snd]. split.
            * intros i s. destruct (string_dec i m) as [-> | N].
              -- rewrite (oget_oins_same scmp scmp_order). intros Q. injection Q as <-. intros n. rewrite M. symmetry. now apply behind_set.
              -- rewrite (oget_oins_other scmp scmp_order) by auto. apply R'.
            * intros n. rewrite (sextend_in scmp scmp_order), SB, M. rewrite (behind_set c m inner n Ei). tauto.
        - injection E1 as <-. cbn [fst snd]. split; [exact R|]. assert (Im : ~ Implemented c m) by (intros I; apply Km in I; congruence).
          intros n. rewrite (sins_in scmp scmp_order). unfold set_behind. cbn. split.
          + intros [-> | H]; [right; left; auto|auto].
          + intros [H|[[[<- | []] _]|(k & [<- | []] & H & _)]]; [auto|auto|]. exfalso. apply Im.
            apply implements_last in H as [(t & J & L)|(k & _ & t & J & L)]; [exists n, t|exists k, t]; auto. }
      destruct G1 as [R1 M1]. destruct (IHs st1 st' R1 E) as [R2 M2]. split; [auto|]. intros n. rewrite M2, M1.
      unfold set_behind. cbn. split.
      + intros [[H|[[[-> | []] H]|(k & [<- | []] & H)]]|[[H N]|(k & H & J)]]; eauto 7.
      + intros [H|[[[-> | H] N]|(k & [-> | H] & J)]]; eauto 8. }
  destruct (G set ([], temp) (s, temp') R E) as [A B]. split; [exact A|]. intros n. rewrite (B n). cbn. tauto.
Qed.

Lemma interfaces_map_ok fuel c m : interfaces_types_map fuel c = Some m ->
  (forall i s, oget scmp i m = Some s -> forall n, In n s <-> behind c i n) /\
  (forall i, oget scmp i m <> None <-> Implemented c i) /\ osorted scmp m.
Proof.
  unfold interfaces_types_map. set (step := fun (st : _ * _) (is : string * list string) => _).
  destruct (fold_opt step (implementors c) ([], [])) as [[m' temp]|] eqn:E; cbn; [|discriminate]. intros Q. injection Q as <-.
  assert (G : forall l st st', (forall i s, In (i, s) l -> oget scmp i (implementors c) = Some s) ->
     results_ok c (snd st) -> results_ok c (fst st) -> osorted scmp (fst st) -> fold_opt step l st = Some st' ->
     results_ok c (snd st') /\ results_ok c (fst st') /\ osorted scmp (fst st') /\
     forall i, oget scmp i (fst st') <> None <-> oget scmp i (fst st) <> None \/ In i (map fst l)).
  { induction l as [|[i s] l IH]; intros st st' L R1 R2 S E'; cbn in E'.
    - injection E' as <-. refine (conj R1 (conj R2 (conj S _))). intros i. cbn. tauto.
    - unfold step in E' at 1. cbn [fst snd] in E'. destruct (interface_merging fuel (implementors c) s (snd st)) as [[s' temp']|] eqn:Em; [|discriminate].
      destruct (merging_ok c _ _ _ _ _ R1 Em) as [R3 M].
      assert (R4 : results_ok c (oins scmp i s' (fst st))).
      { intros j sj. destruct (string_dec j i) as [-> | N].
        - rewrite (oget_oins_same scmp scmp_order). intros Q. injection Q as <-. intros n. rewrite M. symmetry. apply behind_set, L. now left.
        - rewrite (oget_oins_other scmp scmp_order) by auto. apply R2. }
      destruct (IH (oins scmp i s' (fst st), temp') st') as (A & B & C & D); [intros j sj J; apply L; now right|exact R3|exact R4|now apply (osorted_oins scmp scmp_order)|exact E'|].
      refine (conj A (conj B (conj C _))). intros i0. split.
      + intros H. apply D in H. cbn in *. destruct H as [H|H]; [|auto]. destruct (string_dec i0 i) as [-> | N]; [auto|].
        rewrite (oget_oins_other scmp scmp_order) in H by auto. auto.
      + intros H. apply D. cbn in *. destruct (string_dec i0 i) as [-> | N]; [left; rewrite (oget_oins_same scmp scmp_order); discriminate|].
        rewrite (oget_oins_other scmp scmp_order) by auto. destruct H as [H|[H|H]]; [auto|congruence|auto]. }
  destruct (G (implementors c) ([], []) (m', temp)) as (A & B & C & D).
  - intros i s I. apply (in_oget scmp scmp_order); [apply implementors_sorted|exact I].
  - intros i s Q. discriminate.
  - intros i s Q. discriminate.
  - constructor.
  - exact E.
  - split; [exact B|]. split; [|exact C]. intros i. cbn in D. rewrite D. rewrite <- implementors_key. split.
    + intros [H|H]; [contradiction|]. intros N. apply (oget_none scmp scmp_order) in N. auto.
    + intros H. right. destruct (in_dec string_dec i (map fst (implementors c))) as [I|N]; [exact I|]. apply (oget_none scmp scmp_order) in N. contradiction.
Qed.

(** ** The interface map ends exactly when no type implements itself. *)
Lemma implements_trans c a b d : Implements c a b -> Implements c b d -> Implements c a d.
Proof. intros H J. induction H as [n i H|n m i D I IH]; eapply I_through; eauto. Qed.

Lemma fold_opt_total {A B} (f : B -> A -> option B) (l : list A) :
  (forall b a, In a l -> exists b', f b a = Some b') -> forall b, exists b', fold_opt f l b = Some b'.
Proof.
  induction l as [|a l IH]; intros H b; cbn; [eauto|]. destruct (H b a (or_introl eq_refl)) as [b' ->].
  apply IH. intros b0 a0 I. apply H. now right.
Qed.

Lemma merging_end c : acyclic_implements c -> forall fuel set temp path,
  NoDup path -> (forall p, In p path -> In p (map fst (implementors c))) ->
  (forall n p, In n set -> In p path -> Implements c n p) ->
  List.length (implementors c) < fuel + List.length path ->
  exists r, interface_merging fuel (implementors c) set temp = Some r.
Proof.
  intros Ac. induction fuel as [|fuel IH]; intros set temp path ND In1 Im L.
  - exfalso. assert (Q := NoDup_incl_length ND In1). rewrite map_length in Q. lia.
  - cbn. apply fold_opt_total. intros [s t] n I. cbn [fst snd].
    destruct (oget scmp n (implementors c)) as [inner|] eqn:E; [|eauto].
    destruct (oget scmp n t); [eauto|].
    destruct (IH inner t (n :: path)) as [[a b] ->]; [| | | |eauto].
    + constructor; [|exact ND]. intros J. exact (Ac n (Im n n I J)).
    + intros p [<- | J]; [|auto]. destruct (in_dec string_dec n (map fst (implementors c))) as [K|K]; [exact K|].
      apply (oget_none scmp scmp_order) in K. congruence.
    + intros m p J Q. assert (D : Implements c m n).
      { apply I_direct. apply (proj1 (implementors_ok c)). exists inner. auto. }
      destruct Q as [<- | Q]; [exact D|]. eapply implements_trans; [exact D|auto].
    + cbn. lia.
Qed.
Lemma interfaces_map_end c fuel : acyclic_implements c -> List.length (implementors c) < fuel -> exists m, interfaces_types_map fuel c = Some m.
Proof.
  intros Ac L. unfold interfaces_types_map. set (step := fun (st : _ * _) (is : string * list string) => _).
  destruct (fold_opt_total step (implementors c)) with (b := (@nil (string * list string), @nil (string * list string))) as [b' E].
  - intros [m t] [i s] I. unfold step. cbn [fst snd].
    destruct (merging_end c Ac fuel s t [i]) as [[a b] ->]; [| | | |eauto].
    + constructor; [intros []|constructor].
    + intros p [<- | []]. apply in_map_iff. now exists (i, s).
    + intros n p J [<- | []]. apply I_direct. apply (proj1 (implementors_ok c)). exists s. split; [|auto].
      apply (in_oget scmp scmp_order); [apply implementors_sorted|exact I].
    + cbn. lia.
  - rewrite E. cbn. eauto.
Qed.

Definition below (c : config) (n i : string) : Prop := implements_directly c n i.
Definition temp_acc (c : config) (temp : list (string * list string)) : Prop := forall i s, oget scmp i temp = Some s -> Acc (below c) i.
Lemma acc_of_set c i s : oget scmp i (implementors c) = Some s -> (forall n, In n s -> Acc (below c) n) -> Acc (below c) i.
Proof.
  intros E H. constructor. intros n D. apply H. apply (proj1 (implementors_ok c)) in D as (s' & E' & I). congruence.
Qed.
Lemma acc_of_plain c n : oget scmp n (implementors c) = None -> Acc (below c) n.
Proof.
  intros E. constructor. intros m D. apply (proj1 (implementors_ok c)) in D as (s' & E' & I). congruence.
Qed.
Lemma merging_acc c : forall fuel set temp r, temp_acc c temp -> interface_merging fuel (implementors c) set temp = Some r ->
  (forall n, In n set -> Acc (below c) n) /\ temp_acc c (snd r).
Proof.
  induction fuel as [|fuel IH]; intros set temp r T E; [discriminate|]. cbn in E.
  set (step := fun (st : list string * list (string * list string)) n => _) in E.
  assert (G : forall set st st', temp_acc c (snd st) -> fold_opt step set st = Some st' ->
    (forall n, In n set -> Acc (below c) n) /\ temp_acc c (snd st')).
  { clear set temp r T E. induction set as [|n set IHs]; intros st st' T E; cbn in E.
    - injection E as <-. split; [intros n []|exact T].
    - destruct (step st n) as [st1|] eqn:E1; [|discriminate].
      assert (G1 : Acc (below c) n /\ temp_acc c (snd st1)).
      { unfold step in E1. destruct (oget scmp n (implementors c)) as [inner|] eqn:Ei.
        - destruct (oget scmp n (snd st)) as [inner'|] eqn:Et.
          + injection E1 as <-. split; [eapply T; eauto|exact T].
          + destruct (interface_merging fuel (implementors c) inner (snd st)) as [[a b]|] eqn:Em; [|discriminate].
            injection E1 as <-. destruct (IH _ _ _ T Em) as [A B]. assert (C := acc_of_set c n inner Ei A). split; [exact C|].
            cbn. intros i s. destruct (string_dec i n) as [-> | N]; [auto|]. rewrite (oget_oins_other scmp scmp_order) by auto. apply B.
        - injection E1 as <-. split; [now apply acc_of_plain|exact T]. }
      destruct G1 as [A1 T1]. destruct (IHs st1 st' T1 E) as [A2 T2]. split; [|exact T2]. intros m [<- | I]; auto. }
  exact (G set ([], temp) r T E).
Qed.
Lemma acc_irrefl c n : Acc (below c) n -> ~ Implements c n n.
Proof.
  intros A. induction A as [n _ IH]. intros H. apply implements_last in H as [D|(m & H & D)].
  - apply (IH n D). now apply I_direct.
  - apply (IH m D). eapply implements_trans; [apply I_direct; exact D|exact H].
Qed.
Lemma interfaces_map_acyclic c fuel m : interfaces_types_map fuel c = Some m -> acyclic_implements c.
Proof.
  unfold interfaces_types_map. set (step := fun (st : _ * _) (is : string * list string) => _).
  destruct (fold_opt step (implementors c) ([], [])) as [r|] eqn:E; [intros _|discriminate].
  assert (G : forall l st st', (forall i s, In (i, s) l -> oget scmp i (implementors c) = Some s) -> temp_acc c (snd st) -> fold_opt step l st = Some st' ->
     forall i, In i (map fst l) -> Acc (below c) i).
  { induction l as [|[i s] l IH]; intros st st' Sub T E' j J; [destruct J|]. cbn in E'.
    unfold step in E' at 1. cbn [fst snd] in E'. destruct (interface_merging fuel (implementors c) s (snd st)) as [[s' temp']|] eqn:Em; [|discriminate].
    destruct (merging_acc c _ _ _ _ T Em) as [A B]. destruct J as [<- | J].
    - apply (acc_of_set c i s); [apply Sub; now left|exact A].
    - refine (IH _ _ _ _ E' j J); [intros a b Q; apply Sub; now right|exact B]. }
  intros n H. apply (acc_irrefl c n); [|exact H]. destruct (oget scmp n (implementors c)) as [s|] eqn:En; [|now apply acc_of_plain].
  refine (G _ _ _ _ _ E n _).
  - intros i s' I. apply (in_oget scmp scmp_order); [apply implementors_sorted|exact I].
  - intros i s' Q. discriminate.
  - destruct (in_dec string_dec n (map fst (implementors c))) as [I|N]; [exact I|]. apply (oget_none scmp scmp_order) in N. congruence.
Qed.
