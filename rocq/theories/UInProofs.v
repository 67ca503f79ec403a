(** Proofs about unions in arguments. *)
From Coq Require Import String Ascii NArith ZArith DecimalString Arith Bool Lia List Wellfounded Relation_Operators.
From Verif Require Import Base Ordered JsonModel TypeModel ConfigModel UInModel UInSpec BaseFacts StringFacts OrderedFacts.
Import ListNotations.
Open Scope string_scope.
Open Scope list_scope.

Local Notation oget_same := (oget_oins_same scmp scmp_order).
Local Notation oget_other := (oget_oins_other scmp scmp_order).

(** ** Names *)
Lemma app_cases (a b x y : string) : (a ++ x = b ++ y)%string ->
  (exists s, b = (a ++ s)%string /\ x = (s ++ y)%string) \/ (exists s, a = (b ++ s)%string /\ y = (s ++ x)%string).
Proof.
  revert b. induction a as [|c a IH]; intros b E; [left; exists b; auto|]. destruct b as [|d b]; [right; exists (String c a); auto|].
  cbn in E. injection E as <- E. destruct (IH b E) as [(s & -> & ->)|(s & -> & ->)]; [left|right]; exists s; auto.
Qed.
Lemma under_inj n n' r r' : plain_name n -> plain_name n' -> (n ++ "__" ++ r = n' ++ "__" ++ r')%string -> n = n'.
Proof.
  assert (H : forall n s r r', plain_name (n ++ s)%string -> ("__" ++ r = s ++ "__" ++ r')%string -> s = "").
  { intros m s x y [P Q] E. destruct s as [|c [|d s]]; [reflexivity|..].
    - cbn in E. injection E as <- _. now destruct (Q m).
    - cbn in E. injection E as <- <- _. now destruct (P m s). }
  intros P P' E. destruct (app_cases _ _ _ _ E) as [(s & -> & X)|(s & -> & X)]; rewrite (H _ _ _ _ ltac:(eassumption) X), str_app_nil_r; reflexivity.
Qed.
Lemma plain_not_under n m r : plain_name n -> n <> (m ++ "__" ++ r)%string.
Proof. intros [P _] E. eapply P. exact E. Qed.

Lemma some_eq {A} (a b : A) : Some a = Some b -> a = b.
Proof. now injection 1. Qed.

(** ** Numbers in names *)
Definition num (c : ascii) : bool := (48 <=? N_of_ascii c)%N && (N_of_ascii c <=? 57)%N.
Fixpoint nums (s : string) : bool := match s with "" => true | String c s => num c && nums s end.
Lemma nums_app a b : nums (a ++ b)%string = (nums a && nums b)%bool.
Proof. induction a as [|c a IH]; [reflexivity|]. cbn. now rewrite IH, andb_assoc. Qed.
Lemma uint_nums u : nums (NilEmpty.string_of_uint u) = true.
Proof. induction u; cbn; auto. Qed.
Lemma index_nums i : (0 <= i)%Z -> nums (Z_to_string i) = true.
Proof. intros H. unfold Z_to_string. destruct i as [|p|p]; [reflexivity| |lia]. cbn. unfold NilZero.string_of_uint. destruct (Pos.to_uint p) eqn:E; try reflexivity; exact (uint_nums _). Qed.
(** What follows a number. *)
Definition stop (r : string) : Prop := match r with "" => True | String c _ => num c = false end.
Lemma index_inj i j r r' : (0 <= i)%Z -> (0 <= j)%Z -> stop r -> stop r' -> (Z_to_string i ++ r = Z_to_string j ++ r')%string -> i = j.
Proof.
  assert (H : forall i j s r r', (0 <= j)%Z -> stop r -> Z_to_string j = (Z_to_string i ++ s)%string -> r = (s ++ r')%string -> i = j).
  { intros i' j' s x y Hj Sx E F. assert (N := index_nums _ Hj). rewrite E, nums_app in N. apply andb_true_iff in N. destruct N as [_ N].
    destruct s as [|c s]; [rewrite str_app_nil_r in E; now apply Z_to_string_inj in E|]. subst x. cbn in *. rewrite Sx in N. discriminate. }
  intros Hi Hj S S' E. destruct (app_cases _ _ _ _ E) as [(s & X & Y)|(s & X & Y)]; [eauto|]. symmetry. eauto.
Qed.
Lemma indexed_in {A} (l : list A) : forall i j x, In (j, x) (indexed i l) -> (i <= j)%Z /\ In x l.
Proof. induction l as [|y l IH]; intros i j x I; [contradiction|]. destruct I as [I|I]; [injection I as <- <-; split; [lia|now left]|]. apply IH in I. split; [lia|now right]. Qed.
Lemma indexed_of {A} (l : list A) : forall i x, In x l -> exists j, In (j, x) (indexed i l).
Proof. induction l as [|y l IH]; intros i x I; [contradiction|]. destruct I as [<-|I]; [exists i; now left|]. destruct (IH (i + 1)%Z _ I) as (j & J). exists j. now right. Qed.
Lemma nodup_join {A} (a b : list A) : NoDup a -> NoDup b -> (forall x, In x a -> ~ In x b) -> NoDup (a ++ b).
Proof.
  intros Na Nb D. induction Na as [|x a X Na IH]; [exact Nb|]. cbn. constructor.
  - intros I. apply in_app_iff in I. destruct I as [I|I]; [contradiction|]. now apply (D x (or_introl eq_refl)).
  - apply IH. intros y Y. apply D. now right.
Qed.
(** Branches with different numbers have different names. *)
Lemma branch_nodup {A B} (br : Z * A -> list (string * B)) (pre : string) l : forall i, (0 <= i)%Z ->
  (forall it, In it (indexed i l) -> NoDup (map fst (br it))) ->
  (forall it x, In it (indexed i l) -> In x (map fst (br it)) -> exists r, x = (pre ++ Z_to_string (fst it) ++ r)%string /\ stop r) ->
  NoDup (map fst (flat_map br (indexed i l))).
Proof.
  induction l as [|a l IH]; intros i Hi N S; [constructor|]. cbn [indexed flat_map]. rewrite map_app. apply nodup_join.
  - apply N. now left.
  - apply IH; [lia| |]; intros; [apply N|apply S]; try (right; assumption). assumption.
  - intros x I J. destruct (S (i, a) x (or_introl eq_refl) I) as (r & -> & R). apply in_map_iff in J. destruct J as ([y b] & E & J). cbn in E. subst y.
    apply in_flat_map in J. destruct J as (it & It & J).
    destruct (S it (pre ++ Z_to_string (fst (i, a)) ++ r)%string (or_intror It) ltac:(apply in_map_iff; eexists; split; [|exact J]; reflexivity)) as (r' & E & R').
    apply str_app_inv_head in E. destruct it as [j b']. destruct (indexed_in _ _ _ _ It) as [Hj _]. cbn in E. apply index_inj in E; [lia|lia|lia|assumption|assumption].
Qed.

Section Collect.
  Variable types : list (string * gtype).
  Variable unions : list (string * gunion).
  Hypothesis plain_types : forall n, In n (map fst types) -> plain_name n.
  Hypothesis plain_unions : forall n, In n (map fst unions) -> plain_name n.
  Hypothesis sorted_fields : forall n g, oget scmp n types = Some g -> osorted scmp (t_fields g).
  Local Notation collect := (collect_type types unions).
  Definition key (n : string) : Prop := In n (map fst types) \/ In n (map fst unions).
  Lemma key_plain n : key n -> plain_name n.
  Proof. intros [H|H]; auto. Qed.
  Lemma type_key n g : oget scmp n types = Some g -> key n.
  Proof. intros H. left. apply (oget_in scmp scmp_order) in H. apply in_map_iff. exists (n, g). auto. Qed.
  Lemma union_key n u : oget scmp n unions = Some u -> key n.
  Proof. intros H. right. apply (oget_in scmp scmp_order) in H. apply in_map_iff. exists (n, u). auto. Qed.

  (** The names a name is made of. *)
  Inductive child (m n : string) : Prop :=
  | child_union u : oget scmp n unions = Some u -> In m (u_types u) -> child m n
  | child_field g k f : oget scmp n unions = None -> oget scmp n types = Some g -> In (k, f) (t_fields g) -> m = type_name (f_type f) -> child m n.
  Definition tn (n : string) : Prop := tame types unions (TNamed n true).
  Lemma field_get n g k f : oget scmp n types = Some g -> In (k, f) (t_fields g) -> oget scmp k (t_fields g) = Some f.
  Proof. intros G I. apply (in_oget scmp scmp_order); [eapply sorted_fields; eauto|exact I]. Qed.
  Lemma tame_bool n b b' : tame types unions (TNamed n b) -> tame types unions (TNamed n b').
  Proof. intros H. inversion H; subst; [eapply tame_union|eapply tame_object|eapply tame_leaf]; eauto. Qed.
  Lemma tame_tn t : tame types unions t -> tn (type_name t).
  Proof. induction t as [n b|t IH b]; intros H; cbn; [eapply tame_bool; exact H|]. inversion H; subst. now apply IH. Qed.
  Lemma tn_child n m : tn n -> child m n -> tn m.
  Proof.
    intros T C. inversion T as [? ? u U N M|? ? g U G F|? ? U G P|]; subst; destruct C as [u' U' I|g' k f U' G' I ->]; try congruence.
    - rewrite U in U'. injection U' as <-. now apply M.
    - rewrite G in G'. injection G' as <-. apply tame_tn. eapply F. eapply field_get; eauto.
  Qed.
  Lemma tame_acc t : tame types unions t -> Acc child (type_name t).
  Proof.
    revert t. fix IH 2. intros t T. destruct T as [n b u U N M|n b g U G F|n b U G P|t b T UF]; cbn [type_name].
    - constructor. intros m C. destruct C as [u' U' I|g k f U' G I ->]; [|congruence]. rewrite U in U'. injection U' as <-.
      exact (IH (TNamed m true) (M m I)).
    - constructor. intros m C. destruct C as [u' U' I|g' k f U' G' I ->]; [congruence|]. rewrite G in G'. injection G' as <-.
      exact (match F k f (field_get _ _ _ _ G I) with conj _ X => IH (f_type f) X end).
    - constructor. intros m C. destruct C as [u' U' I|g' k f U' G' I ->]; congruence.
    - exact (IH t T).
  Qed.
  Definition below : string -> string -> Prop := clos_trans _ child.
  Lemma acc_irrefl (R : string -> string -> Prop) n : Acc R n -> ~ R n n.
  Proof. induction 1 as [n _ IH]. intros H. exact (IH n H H). Qed.
  Lemma tn_irrefl n : tn n -> ~ below n n.
  Proof. intros T. apply acc_irrefl. apply Acc_clos_trans. exact (tame_acc _ T). Qed.

  (** ** The state only grows *)
  Record ext (st st' : ustate) : Prop := {
    ext_presence : forall n p, aget n (us_presence st) = Some p -> aget n (us_presence st') = Some p;
    ext_visited : forall n, In n (us_visited st) -> In n (us_visited st');
    ext_types : forall n r, key n -> aget n (us_presence st) <> None -> oget scmp (n ++ "__" ++ r)%string (us_types st') = oget scmp (n ++ "__" ++ r)%string (us_types st);
    ext_new : forall n, In n (us_visited st) -> aget n (us_presence st) = None -> aget n (us_presence st') = None;
    ext_plain : forall n, plain_name n -> oget scmp n (us_types st') = oget scmp n (us_types st) }.
  Lemma ext_refl st : ext st st.
  Proof. constructor; auto. Qed.
  Lemma ext_trans a b c : ext a b -> ext b c -> ext a c.
  Proof.
    intros [P1 V1 T1 N1 L1] [P2 V2 T2 N2 L2]. constructor; auto.
    - intros n r K H. rewrite T2, T1; auto. destruct (aget n (us_presence a)) as [p|] eqn:E; [|congruence]. now rewrite (P1 _ _ E).
    - intros n p. now rewrite L2, L1.
  Qed.
  (** What holds in between. *)
  Record wf (st : ustate) : Prop := {
    wf_visited : forall n p, aget n (us_presence st) = Some p -> In n (us_visited st) /\ key n;
    wf_unions : forall n l, aget n (us_presence st) = Some (Some l) -> ~ union_free types unions n }.

  Lemma inner_names ufs : forall n g x t, In (x, t) (inner_create n g ufs) -> exists r, x = (n ++ r)%string /\ (ufs <> [] -> exists r', r = ("__" ++ r')%string).
  Proof.
    induction ufs as [|[k l] ufs IH]; intros n g x t I; cbn in I.
    - destruct I as [I|[]]. injection I as <- <-. exists "". split; [now rewrite str_app_nil_r|congruence].
    - apply in_flat_map in I. destruct I as ([i m] & _ & I). apply IH in I. destruct I as (r & -> & _).
      eexists. split; [rewrite str_app_assoc; reflexivity|]. intros _. eexists. cbn. reflexivity.
  Qed.
  Lemma extend_get l : forall m k, ~ In k (map fst l) -> oget scmp k (fold_left (fun m (kt : string * gtype) => oins scmp (fst kt) (snd kt) m) l m) = oget scmp k m.
  Proof.
    induction l as [|[a b] l IH]; intros m k N; [reflexivity|]. cbn in *. rewrite IH by tauto. apply oget_other. intros ->. tauto.
  Qed.
  Lemma extend_in l : forall m k t, NoDup (map fst l) -> In (k, t) l -> oget scmp k (fold_left (fun m (kt : string * gtype) => oins scmp (fst kt) (snd kt) m) l m) = Some t.
  Proof.
    induction l as [|[a b] l IH]; intros m k t N I; [contradiction|]. cbn in *. inversion N as [|? ? X N']; subst. destruct I as [I|I].
    - injection I as -> ->. rewrite extend_get by exact X. apply oget_same.
    - now apply IH.
  Qed.

  Lemma ext_visit st n : aget n (us_presence st) = None -> ext st (visited st n).
  Proof. intros H. constructor; cbn; auto. Qed.
  Lemma ext_present st n p : aget n (us_presence st) = None -> ~ In n (us_visited st) -> ext st (present (visited st n) n p).
  Proof.
    intros H V. constructor; cbn; auto.
    - intros m q M. destruct (string_dec m n) as [->|N]; [congruence|]. now rewrite aget_aset_other.
    - intros m I M. destruct (string_dec m n) as [->|N]; [contradiction|]. now rewrite aget_aset_other.
  Qed.
  Lemma ext_present' st n p : aget n (us_presence st) = None ->
    (forall m q, aget m (us_presence st) = Some q -> aget m (us_presence (present st n p)) = Some q) /\
    (forall m, m <> n -> aget m (us_presence (present st n p)) = aget m (us_presence st)).
  Proof.
    intros H. split; [intros m q M|intros m N]; cbn; [|now apply aget_aset_other].
    destruct (string_dec m n) as [->|N]; [congruence|]. now rewrite aget_aset_other.
  Qed.
  Lemma finish st0 st1 n p made : aget n (us_presence st0) = None -> ~ In n (us_visited st0) -> key n -> ext (visited st0 n) st1 ->
    (forall x t, In (x, t) made -> exists r, x = (n ++ "__" ++ r)%string) -> ext st0 (extend_types (present st1 n p) made) /\
    (forall m, m <> n -> aget m (us_presence (extend_types (present st1 n p) made)) = aget m (us_presence st1)).
  Proof.
    intros P0 V0 K E Md. assert (P1 : aget n (us_presence st1) = None) by (apply (ext_new _ _ E); [now left|exact P0]).
    destruct (ext_present' st1 n p P1) as [Q1 Q2].
    assert (Mk : forall x, In x (map fst made) -> exists r, x = (n ++ "__" ++ r)%string).
    { intros x I. apply in_map_iff in I. destruct I as ([y t] & <- & I). eapply Md, I. }
    split; [|exact Q2]. constructor.
    - intros m q M. cbn [us_presence extend_types]. apply Q1. apply (ext_presence _ _ E). exact M.
    - intros m I. cbn. apply (ext_visited _ _ E). now right.
    - intros m r Km M. cbn [us_types extend_types present]. rewrite extend_get.
      + rewrite (ext_types _ _ E); auto.
      + intros I. destruct (Mk _ I) as (r' & X). apply under_inj in X; [|now apply key_plain|now apply key_plain]. subst m. congruence.
    - intros m I M. cbn [us_presence extend_types]. rewrite Q2 by (intros ->; contradiction). apply (ext_new _ _ E); [now right|exact M].
    - intros m Pm. cbn [us_types extend_types present]. rewrite extend_get; [apply (ext_plain _ _ E m Pm)|].
      intros I. destruct (Mk _ I) as (r' & X). eapply plain_not_under; eauto.
  Qed.

  Lemma reach_child n m : child m n -> forall x, reaches types unions m x -> reaches types unions n x.
  Proof.
    intros C x R. induction R as [|y u x R IH U I|y g k f R IH U G I].
    - destruct C as [u U I|g k f U G I ->]; [eapply reaches_union; [apply reaches_self|exact U|exact I]|].
      eapply reaches_field; [apply reaches_self|exact U|exact G|eapply field_get; eauto].
    - eapply reaches_union; eauto.
    - eapply reaches_field; eauto.
  Qed.
  Lemma free_child n m : child m n -> union_free types unions n -> union_free types unions m.
  Proof. intros C F x R. apply F. eapply reach_child; eauto. Qed.

  (** Each name once. *)
  Lemma collect_ext fuel : forall n st st', collect fuel n st = Some st' -> wf st -> ext st st' /\ wf st' /\ In n (us_visited st').
  Proof.
    induction fuel as [|fuel IH]; intros n st st' H W; [discriminate|]. cbn [collect_type] in H.
    destruct (match aget n (us_presence st) with Some _ => true | None => false end || smem n (us_visited st))%bool eqn:S.
    { injection H as <-. split; [apply ext_refl|]. split; [exact W|]. destruct (aget n (us_presence st)) eqn:P; [eapply (wf_visited _ W); eauto|now apply smem_In]. }
    apply orb_false_iff in S. destruct S as [P V]. apply smem_false in V.
    assert (Pn : aget n (us_presence st) = None) by (destruct (aget n (us_presence st)); [discriminate|reflexivity]). clear P.
    assert (Wv : wf (visited st n)) by (constructor; cbn; [intros m p M; destruct (wf_visited _ W _ _ M); auto|apply (wf_unions _ W)]).
    assert (Each : forall A (nm : A -> string) l st1 st2, each (fun x => collect fuel (nm x)) l st1 = Some st2 -> wf st1 ->
      ext st1 st2 /\ wf st2 /\ forall x, In x l -> In (nm x) (us_visited st2)).
    { intros A nm. induction l as [|x l IHl]; intros st1 st2 E W1; cbn in E; [injection E as <-; split; [apply ext_refl|split; [exact W1|intros x []]]|].
      destruct (collect fuel (nm x) st1) as [stx|] eqn:C; [|discriminate]. destruct (IH _ _ _ C W1) as (X1 & X2 & X3).
      destruct (IHl _ _ E X2) as (Y1 & Y2 & Y3). split; [eapply ext_trans; eauto|]. split; [exact Y2|]. intros y [<-|I]; [|now apply Y3].
      apply (ext_visited _ _ Y1). exact X3. }
    destruct (oget scmp n unions) as [u|] eqn:U.
    - destruct (each (collect fuel) (u_types u) (visited st n)) as [st1|] eqn:E; [|discriminate]. injection H as <-.
      destruct (Each _ (fun x => x) _ _ _ E Wv) as (X1 & X2 & _).
      destruct (finish st st1 n (Some (member_types st1 (u_types u))) [] Pn V (union_key _ _ U) X1 ltac:(intros ? ? [])) as [Y1 Y2].
      change (extend_types (present st1 n (Some (member_types st1 (u_types u)))) []) with (present st1 n (Some (member_types st1 (u_types u)))) in *.
      split; [exact Y1|]. split; [|apply (ext_visited _ _ X1); now left]. constructor.
      + intros m p M. destruct (string_dec m n) as [->|N]; [split; [apply (ext_visited _ _ X1); now left|eapply union_key; eauto]|].
        rewrite Y2 in M by exact N. apply (wf_visited _ X2 _ _ M).
      + intros m l M. destruct (string_dec m n) as [->|N]; [intros F; specialize (F n (reaches_self _ _ _)); congruence|].
        rewrite Y2 in M by exact N. apply (wf_unions _ X2 _ _ M).
    - destruct (oget scmp n types) as [g|] eqn:G.
      + destruct (each (fun kf => collect fuel (type_name (f_type (snd kf)))) (t_fields g) (visited st n)) as [st1|] eqn:E; [|discriminate].
        destruct (Each _ (fun kf => type_name (f_type (snd kf))) _ _ _ E Wv) as (X1 & X2 & _).
        destruct (union_fields st1 (t_fields g)) as [|uf ufs] eqn:UF; injection H as <-.
        * destruct (finish st st1 n None [] Pn V (type_key _ _ G) X1 ltac:(intros ? ? [])) as [Y1 Y2].
          change (extend_types (present st1 n None) []) with (present st1 n None) in *.
          split; [exact Y1|]. split; [|apply (ext_visited _ _ X1); now left]. constructor.
          -- intros m p M. destruct (string_dec m n) as [->|N]; [split; [apply (ext_visited _ _ X1); now left|eapply type_key; eauto]|].
             rewrite Y2 in M by exact N. apply (wf_visited _ X2 _ _ M).
          -- intros m l M. destruct (string_dec m n) as [->|N]; [cbn in M; rewrite aget_aset_same in M; discriminate|].
             rewrite Y2 in M by exact N. apply (wf_unions _ X2 _ _ M).
        * assert (Nm : forall x t, In (x, t) (inner_create n g (uf :: ufs)) -> exists r, x = (n ++ "__" ++ r)%string).
          { intros x t I. destruct (inner_names _ _ _ _ _ I) as (r & -> & R). destruct (R ltac:(discriminate)) as (r' & ->). eauto. }
          destruct (finish st st1 n (Some (map fst (inner_create n g (uf :: ufs)))) (inner_create n g (uf :: ufs)) Pn V (type_key _ _ G) X1 Nm) as [Y1 Y2].
          split; [exact Y1|]. split; [|apply (ext_visited _ _ X1); now left]. constructor.
          -- intros m p M. destruct (string_dec m n) as [->|N]; [split; [apply (ext_visited _ _ X1); now left|eapply type_key; eauto]|].
             rewrite Y2 in M by exact N. apply (wf_visited _ X2 _ _ M).
          -- intros m l M. destruct (string_dec m n) as [->|N].
             ++ intros F. assert (In uf (union_fields st1 (t_fields g))) as I by (rewrite UF; now left). unfold union_fields in I.
                apply in_flat_map in I. destruct I as ([k f] & I & J). cbn [fst snd] in J. unfold union_types in J.
                destruct (aget (type_name (f_type f)) (us_presence st1)) as [[l'|]|] eqn:Pf; try contradiction.
                eapply (wf_unions _ X2 _ _ Pf). eapply free_child; [|exact F]. eapply child_field; eauto.
             ++ rewrite Y2 in M by exact N. apply (wf_unions _ X2 _ _ M).
      + injection H as <-. split; [now apply ext_visit|]. split; [exact Wv|]. now left.
  Qed.

  (** ** It ends *)
  Lemma each_some {A} (f : A -> ustate -> option ustate) (P : ustate -> Prop) l : (forall x st, In x l -> P st -> exists st', f x st = Some st' /\ P st') ->
    forall st, P st -> exists st', each f l st = Some st' /\ P st'.
  Proof.
    induction l as [|x l IH]; intros F st H; [exists st; auto|]. cbn. destruct (F x st (or_introl eq_refl) H) as (st1 & -> & H1).
    apply IH; [|exact H1]. intros y st2 Y. apply F. now right.
  Qed.
  Definition todo (st : ustate) : nat := length (filter (fun k => negb (smem k (us_visited st))) (map fst types ++ map fst unions)).
  Lemma filter_less {A} (p q : A -> bool) l : (forall x, q x = true -> p x = true) -> length (filter q l) <= length (filter p l).
  Proof. intros H. induction l as [|x l IH]; [reflexivity|]. cbn. destruct (q x) eqn:Q; [rewrite (H _ Q); cbn; lia|]. destruct (p x); cbn; lia. Qed.
  Lemma filter_drop {A} (p q : A -> bool) l y : (forall x, q x = true -> p x = true) -> In y l -> p y = true -> q y = false -> length (filter q l) < length (filter p l).
  Proof.
    intros H. induction l as [|x l IH]; intros I Py Qy; [contradiction|]. destruct I as [->|I].
    - cbn. rewrite Py, Qy. cbn. pose proof (filter_less p q l H). lia.
    - cbn. specialize (IH I Py Qy). destruct (q x) eqn:Q; [rewrite (H _ Q); cbn; lia|]. destruct (p x); cbn; lia.
  Qed.
  Lemma todo_le st st' : incl (us_visited st) (us_visited st') -> todo st' <= todo st.
  Proof.
    intros I. apply filter_less. intros x. rewrite !negb_true_iff. intros H. apply smem_false. apply smem_false in H. intros J. apply H. now apply I.
  Qed.
  Lemma todo_lt st n : key n -> ~ In n (us_visited st) -> todo (visited st n) < todo st.
  Proof.
    intros K V. apply (filter_drop _ _ _ n).
    - intros x. rewrite !negb_true_iff. intros H. apply smem_false. apply smem_false in H. intros J. apply H. now right.
    - apply in_app_iff. exact K.
    - apply negb_true_iff. now apply smem_false.
    - apply negb_false_iff. apply smem_In. now left.
  Qed.
  Lemma collect_ends fuel : forall n st, todo st < fuel -> exists st', collect fuel n st = Some st' /\ incl (us_visited st) (us_visited st').
  Proof.
    induction fuel as [|fuel IH]; intros n st L; [lia|]. cbn [collect_type].
    destruct (match aget n (us_presence st) with Some _ => true | None => false end || smem n (us_visited st))%bool eqn:S; [exists st; split; [reflexivity|apply incl_refl]|].
    apply orb_false_iff in S. destruct S as [_ V]. apply smem_false in V.
    assert (Each : forall A (nm : A -> string) l, key n -> exists st', each (fun x => collect fuel (nm x)) l (visited st n) = Some st' /\ incl (us_visited (visited st n)) (us_visited st')).
    { intros A nm l K. apply each_some; [|apply incl_refl]. intros x st1 _ I1. pose proof (todo_lt st n K V). pose proof (todo_le _ _ I1).
      destruct (IH (nm x) st1 ltac:(lia)) as (st2 & E & I2). exists st2. split; [exact E|]. eapply incl_tran; eauto. }
    assert (Sub : forall l, incl (us_visited (visited st n)) l -> incl (us_visited st) l) by (intros l H x X; apply H; now right).
    destruct (oget scmp n unions) as [u|] eqn:U.
    - destruct (Each _ (fun x => x) (u_types u) (union_key _ _ U)) as (st' & E & I). change (each (collect fuel) (u_types u) (visited st n) = Some st') in E. rewrite E. eexists. split; [reflexivity|]. cbn. now apply Sub.
    - destruct (oget scmp n types) as [g|] eqn:G.
      + destruct (Each _ (fun kf => type_name (f_type (snd kf))) (t_fields g) (type_key _ _ G)) as (st' & -> & I).
        destruct (union_fields st' (t_fields g)); eexists; (split; [reflexivity|]); cbn; now apply Sub.
      + eexists. split; [reflexivity|]. apply Sub. apply incl_refl.
  Qed.
  Lemma todo_fuel st : todo st < fuel types unions.
  Proof.
    unfold todo, fuel. rewrite <- (map_length fst types), <- (map_length fst unions), <- app_length. generalize (map fst types ++ map fst unions)%list. intros l.
    induction l as [|x l IH]; cbn; [lia|]. destruct (negb _); cbn; lia.
  Qed.

  (** ** What is known at the end *)
  Inductive finished (st : ustate) : string -> Prop :=
  | fin_union n u : oget scmp n unions = Some u -> aget n (us_presence st) = Some (Some (member_types st (u_types u))) ->
      (forall m, In m (u_types u) -> finished st m) -> finished st n
  | fin_object n g : oget scmp n unions = None -> oget scmp n types = Some g -> union_fields st (t_fields g) = [] -> aget n (us_presence st) = Some None ->
      (forall k f, In (k, f) (t_fields g) -> finished st (type_name (f_type f))) -> finished st n
  | fin_made n g : oget scmp n unions = None -> oget scmp n types = Some g -> union_fields st (t_fields g) <> [] ->
      aget n (us_presence st) = Some (Some (map fst (inner_create n g (union_fields st (t_fields g))))) ->
      (forall x t, In (x, t) (inner_create n g (union_fields st (t_fields g))) -> oget scmp x (us_types st) = Some t) ->
      (forall k f, In (k, f) (t_fields g) -> finished st (type_name (f_type f))) -> finished st n
  | fin_leaf n : oget scmp n unions = None -> oget scmp n types = None -> finished st n.
  Record grow (st st' : ustate) : Prop := {
    grow_presence : forall n p, aget n (us_presence st) = Some p -> aget n (us_presence st') = Some p;
    grow_types : forall n r, key n -> aget n (us_presence st) <> None -> oget scmp (n ++ "__" ++ r)%string (us_types st') = oget scmp (n ++ "__" ++ r)%string (us_types st) }.
  Lemma ext_grow st st' : ext st st' -> grow st st'.
  Proof. intros E. constructor; [apply (ext_presence _ _ E)|apply (ext_types _ _ E)]. Qed.
  Lemma grow_refl st : grow st st.
  Proof. constructor; auto. Qed.
  Lemma grow_trans a b c : grow a b -> grow b c -> grow a c.
  Proof.
    intros [P1 T1] [P2 T2]. constructor; auto. intros n r K H. rewrite T2, T1; auto.
    destruct (aget n (us_presence a)) as [p|] eqn:E; [|congruence]. now rewrite (P1 _ _ E).
  Qed.
  Lemma oget_nokey {V} n (m : list (string * V)) : oget scmp n m = None -> ~ In n (map fst m).
  Proof. intros H. now apply (oget_none scmp scmp_order) in H. Qed.
  Lemma leaf_types st n : wf st -> oget scmp n unions = None -> oget scmp n types = None -> union_types st n = None.
  Proof.
    intros W U G. unfold union_types. destruct (aget n (us_presence st)) as [p|] eqn:P; [|reflexivity].
    destruct (wf_visited _ W _ _ P) as [_ [K|K]]; exfalso; [apply (oget_nokey _ _ G K)|apply (oget_nokey _ _ U K)].
  Qed.
  Lemma finished_types st st' n : finished st n -> grow st st' -> wf st -> wf st' -> union_types st' n = union_types st n.
  Proof.
    intros F G W W'. destruct F as [n u U P M|n g U Gt UF P M|n g U Gt UF P X M|n U Gt].
    4: rewrite !leaf_types; auto. all: unfold union_types; now rewrite (grow_presence _ _ G _ _ P), P.
  Qed.
  Lemma member_types_eq st st' l : (forall m, In m l -> union_types st' m = union_types st m) -> member_types st' l = member_types st l.
  Proof.
    unfold member_types. generalize (@nil string). induction l as [|m l IH]; intros acc H; [reflexivity|]. cbn. rewrite (H m (or_introl eq_refl)).
    apply IH. intros x X. apply H. now right.
  Qed.
  Lemma union_fields_eq st st' l : (forall k f, In (k, f) l -> union_types st' (type_name (f_type f)) = union_types st (type_name (f_type f))) -> union_fields st' l = union_fields st l.
  Proof.
    unfold union_fields. induction l as [|[k f] l IH]; intros H; [reflexivity|]. cbn. rewrite (H k f (or_introl eq_refl)). f_equal.
    apply IH. intros x y X. eapply H. right. exact X.
  Qed.
  Lemma finished_grow st st' n : finished st n -> grow st st' -> wf st -> wf st' -> finished st' n.
  Proof.
    intros F G W W'. induction F as [n u U P M IH|n g U Gt UF P M IH|n g U Gt UF P X M IH|n U Gt].
    - eapply fin_union; [exact U| |exact IH]. rewrite (member_types_eq st st') by (intros m I; apply finished_types; auto). apply (grow_presence _ _ G _ _ P).
    - assert (E : union_fields st' (t_fields g) = union_fields st (t_fields g)) by (apply union_fields_eq; intros k f I; apply finished_types; eauto).
      eapply fin_object; [exact U|exact Gt|rewrite E; exact UF|apply (grow_presence _ _ G _ _ P)|exact IH].
    - assert (E : union_fields st' (t_fields g) = union_fields st (t_fields g)) by (apply union_fields_eq; intros k f I; apply finished_types; eauto).
      eapply fin_made; [exact U|exact Gt|rewrite E; exact UF|rewrite E; apply (grow_presence _ _ G _ _ P)| |exact IH].
      rewrite E. intros x t I. destruct (inner_names _ _ _ _ _ I) as (r & -> & R). destruct (R UF) as (r' & ->).
      rewrite (grow_types _ _ G); [now apply X|eapply type_key; eauto|congruence].
    - now apply fin_leaf.
  Qed.

  Lemma inner_nodup ufs : forall n g, NoDup (map fst (inner_create n g ufs)).
  Proof.
    induction ufs as [|[k l] ufs IH]; intros n g; [cbn; constructor; [intros []|constructor]|]. cbn [inner_create].
    apply (branch_nodup _ (n ++ "__" ++ k)%string); [lia| |].
    - intros it I. apply IH.
    - intros it x I J. apply in_map_iff in J. destruct J as ([y t] & <- & J). destruct (inner_names _ _ _ _ _ J) as (r & -> & R).
      exists r. split; [cbn [fst]; rewrite !str_app_assoc; reflexivity|]. destruct ufs as [|uf ufs]; [|destruct (R ltac:(discriminate)) as (r' & ->); reflexivity].
      cbn in J. destruct J as [J|[]]. injection J as J _. rewrite <- (str_app_nil_r (_ ++ _)%string) in J at 1. apply str_app_inv_head in J. subst r. exact Logic.I.
  Qed.

  Definition settled (st : ustate) (stack : list string) : Prop := forall m, In m (us_visited st) -> tn m -> ~ In m stack -> finished st m.
  Lemma visited_grow st n : grow st (visited st n).
  Proof. constructor; auto. Qed.
  Lemma collect_settled fuel : forall n st st' stack, collect fuel n st = Some st' -> wf st -> (forall s, In s stack -> below n s) ->
    settled st stack -> settled st' stack.
  Proof.
    induction fuel as [|fuel IH]; intros n st st' stack H W Bl Se; [discriminate|].
    assert (W' : wf st') by (eapply (collect_ext (S fuel)); eauto).
    assert (Eall : ext st st') by (eapply (collect_ext (S fuel)); eauto).
    cbn [collect_type] in H.
    destruct (match aget n (us_presence st) with Some _ => true | None => false end || smem n (us_visited st))%bool eqn:S.
    { injection H as <-. exact Se. }
    apply orb_false_iff in S. destruct S as [P V]. apply smem_false in V.
    assert (Pn : aget n (us_presence st) = None) by (destruct (aget n (us_presence st)); [discriminate|reflexivity]). clear P.
    assert (Wv : wf (visited st n)) by (constructor; cbn; [intros m p M; destruct (wf_visited _ W _ _ M); auto|apply (wf_unions _ W)]).
    assert (Sv : settled (visited st n) (n :: stack)).
    { intros m [<-|I] T N; [destruct N; now left|]. apply (finished_grow st); [apply Se; auto; intros J; apply N; now right|apply visited_grow|exact W|exact Wv]. }
    assert (Each : forall A (nm : A -> string) l st1 st2, each (fun x => collect fuel (nm x)) l st1 = Some st2 -> wf st1 -> (forall x, In x l -> child (nm x) n) ->
      settled st1 (n :: stack) -> settled st2 (n :: stack) /\ wf st2 /\ ext st1 st2 /\ forall x, In x l -> In (nm x) (us_visited st2)).
    { intros A nm. induction l as [|x l IHl]; intros st1 st2 E W1 Ch S1; cbn in E; [injection E as <-; split; [exact S1|split; [exact W1|split; [apply ext_refl|intros x []]]]|].
      destruct (collect fuel (nm x) st1) as [stx|] eqn:C; [|discriminate]. destruct (collect_ext _ _ _ _ C W1) as (X1 & X2 & X3).
      destruct (IHl _ _ E X2) as (Y1 & Y2 & Y3 & Y4); [intros y Y; apply Ch; now right| |].
      - eapply IH; [exact C|exact W1| |exact S1]. intros s [<-|I]; [apply t_step, Ch; now left|]. eapply t_trans; [apply t_step, Ch; now left|now apply Bl].
      - split; [exact Y1|]. split; [exact Y2|]. split; [eapply ext_trans; eauto|]. intros y [<-|I]; [|now apply Y4]. apply (ext_visited _ _ Y3). exact X3. }
    assert (Done : forall st1 c, settled st1 (n :: stack) -> tn n -> child c n -> In c (us_visited st1) -> finished st1 c).
    { intros st1 c S1 T C I. apply S1; [exact I|eapply tn_child; eauto|]. intros [<-|J]; [eapply tn_irrefl; [exact T|now apply t_step]|].
      eapply (tn_irrefl c); [eapply tn_child; eauto|]. eapply t_trans; [apply t_step; exact C|now apply Bl]. }
    assert (Fin : forall st1 p made, settled st1 (n :: stack) -> wf st1 -> ext (visited st n) st1 -> key n ->
      (forall x t, In (x, t) made -> exists r, x = (n ++ "__" ++ r)%string) -> wf (extend_types (present st1 n p) made) -> grow st1 (extend_types (present st1 n p) made)).
    { intros st1 p made S1 W1 E1 K Md _. assert (P1 : aget n (us_presence st1) = None) by (apply (ext_new _ _ E1); [now left|exact Pn]).
      destruct (ext_present' st1 n p P1) as [Q1 Q2]. constructor; [exact Q1|]. intros m r Km M. cbn [us_types extend_types present]. apply extend_get.
      intros I. apply in_map_iff in I. destruct I as ([y t] & X & I). cbn in X. destruct (Md _ _ I) as (r' & ->). symmetry in X. apply under_inj in X; [|now apply key_plain|now apply key_plain].
      subst m. congruence. }
    assert (Rest : forall st1, settled st1 (n :: stack) -> wf st1 -> us_visited st' = us_visited st1 -> grow st1 st' -> (tn n -> finished st' n) -> settled st' stack).
    { intros st1 S1 W1 Ev G1 Fn m I T N. destruct (string_dec m n) as [->|Nm]; [now apply Fn|]. apply (finished_grow st1); auto. apply S1; [now rewrite <- Ev|exact T|].
      intros [->|J]; contradiction. }
    destruct (oget scmp n unions) as [u|] eqn:U.
    - destruct (each (collect fuel) (u_types u) (visited st n)) as [st1|] eqn:E; [|discriminate].
      destruct (Each _ (fun x => x) _ _ _ E Wv (fun x I => child_union _ _ u U I) Sv) as (X1 & X2 & X3 & X4).
      assert (G1 : grow st1 st').
      { injection H as <-. change (present st1 n (Some (member_types st1 (u_types u)))) with (extend_types (present st1 n (Some (member_types st1 (u_types u)))) []) in *.
        apply Fin; auto; [eapply union_key; eauto|intros ? ? []]. }
      apply (Rest st1); auto; [now injection H as <-|]. intros T.
      assert (D1 : forall m, In m (u_types u) -> finished st1 m) by (intros m I; apply Done; auto; eapply child_union; eauto).
      eapply fin_union; [exact U| |intros m I; apply (finished_grow st1); auto].
      rewrite (member_types_eq st1 st') by (intros m I; apply finished_types; auto). injection H as <-. cbn. apply aget_aset_same.
    - destruct (oget scmp n types) as [g|] eqn:G.
      + destruct (each (fun kf => collect fuel (type_name (f_type (snd kf)))) (t_fields g) (visited st n)) as [st1|] eqn:E; [|discriminate].
        assert (Ch : forall kf, In kf (t_fields g) -> child (type_name (f_type (snd kf))) n) by (intros [k f] I; eapply child_field; eauto).
        destruct (Each _ (fun kf => type_name (f_type (snd kf))) _ _ _ E Wv Ch Sv) as (X1 & X2 & X3 & X4).
        assert (Nm : forall ufs x t, ufs <> [] -> In (x, t) (inner_create n g ufs) -> exists r, x = (n ++ "__" ++ r)%string).
        { intros ufs x t N I. destruct (inner_names _ _ _ _ _ I) as (r & -> & R). destruct (R N) as (r' & ->). eauto. }
        assert (D1 : tn n -> forall k f, In (k, f) (t_fields g) -> finished st1 (type_name (f_type f))).
        { intros T k f I. apply Done; auto; [exact (Ch _ I)|exact (X4 _ I)]. }
        destruct (union_fields st1 (t_fields g)) as [|uf ufs] eqn:UF; apply some_eq in H.
        * assert (G1 : grow st1 st').
          { subst st'. change (present st1 n None) with (extend_types (present st1 n None) []) in *. apply Fin; auto; [eapply type_key; eauto|intros ? ? []]. }
          apply (Rest st1); auto; [now subst st'|]. intros T. eapply fin_object; [exact U|exact G| | |].
          -- rewrite (union_fields_eq st1 st'); [exact UF|]. intros k f I. apply finished_types; auto. now apply (D1 T k).
          -- subst st'. cbn. apply aget_aset_same.
          -- intros k f I. apply (finished_grow st1); auto. now apply (D1 T k).
        * assert (G1 : grow st1 st').
          { subst st'. apply Fin; auto; [eapply type_key; eauto|]. intros x t. apply (Nm (uf :: ufs)). discriminate. }
          apply (Rest st1); auto; [now subst st'|]. intros T.
          assert (UE : union_fields st' (t_fields g) = uf :: ufs).
          { rewrite (union_fields_eq st1 st'); [exact UF|]. intros k f I. apply finished_types; auto. now apply (D1 T k). }
          eapply fin_made; [exact U|exact G|rewrite UE; discriminate| | |].
          -- rewrite UE. subst st'. cbn [us_presence extend_types present]. apply aget_aset_same.
          -- rewrite UE. subst st'. intros x t I. cbn [us_types extend_types present]. apply extend_in; [apply inner_nodup|exact I].
          -- intros k f I. apply (finished_grow st1); auto. now apply (D1 T k).
      + injection H as <-. intros m [<-|I] T N; [now apply fin_leaf|]. apply (finished_grow st); auto. apply visited_grow.
  Qed.

  (** ** All types *)
  Definition ins_all {V} (l acc : list (string * V)) : list (string * V) := fold_left (fun m (kf : string * V) => oins scmp (fst kf) (snd kf) m) l acc.
  Lemma ins_app {V} (a b acc : list (string * V)) : ins_all (a ++ b) acc = ins_all b (ins_all a acc).
  Proof. apply fold_left_app. Qed.
  Lemma ins_none {V} (l : list (string * V)) : forall acc k, ~ In k (map fst l) -> oget scmp k (ins_all l acc) = oget scmp k acc.
  Proof.
    induction l as [|[a b] l IH]; intros acc k N; [reflexivity|]. cbn in *. unfold ins_all in *. rewrite IH by tauto. apply oget_other. intros ->. tauto.
  Qed.
  Lemma ins_get {V} (l : list (string * V)) k v : (forall v', In (k, v') l -> v' = v) -> forall acc, In (k, v) l -> oget scmp k (ins_all l acc) = Some v.
  Proof.
    intros U acc I. assert (H : In (k, v) l \/ oget scmp k acc = Some v) by now left. clear I. revert acc H.
    induction l as [|[a b] l IH]; intros acc [H|H]; [contradiction|exact H|..]; cbn; apply (IH (fun v' I => U v' (or_intror I))); destruct (string_dec a k) as [->|N].
    - right. rewrite (U b (or_introl eq_refl)). apply oget_same.
    - destruct H as [H|H]; [congruence|]. now left.
    - right. rewrite (U b (or_introl eq_refl)). apply oget_same.
    - right. rewrite oget_other by congruence. exact H.
  Qed.

  Lemma collect_args_ok f st st' : collect_args types unions f st = Some st' -> wf st -> settled st [] ->
    ext st st' /\ wf st' /\ settled st' [] /\ forall k a, In (k, a) (f_args f) -> In (type_name (arg_type a)) (us_visited st').
  Proof.
    unfold collect_args. revert st. induction (f_args f) as [|[k a] l IH]; intros st E W S; cbn [each snd] in E.
    - injection E as <-. split; [apply ext_refl|]. split; [exact W|]. split; [exact S|]. intros k a [].
    - destruct (collect (fuel types unions) (type_name (arg_type a)) st) as [st1|] eqn:C; [|discriminate].
      destruct (collect_ext _ _ _ _ C W) as (X1 & X2 & X3). assert (S1 : settled st1 []) by (eapply collect_settled; eauto; intros s []).
      destruct (IH _ E X2 S1) as (Y1 & Y2 & Y3 & Y4). split; [eapply ext_trans; eauto|]. split; [exact Y2|]. split; [exact Y3|].
      intros k' a' [I|I]; [injection I as <- <-; now apply (ext_visited _ _ Y1)|eapply Y4; eauto].
  Qed.
  Definition made_of (st : ustate) (k : string) (f : field) (vs : list (string * field)) : Prop :=
    exists stx, vs = map_args_to_fields stx k f /\ grow stx st /\ wf stx /\ forall x a, In (x, a) (f_args f) -> tn (type_name (arg_type a)) -> finished stx (type_name (arg_type a)).
  Lemma made_grow st st' k f vs : made_of st k f vs -> grow st st' -> made_of st' k f vs.
  Proof. intros (stx & E & G & W & F) G'. exists stx. split; [exact E|]. split; [eapply grow_trans; eauto|]. split; assumption. Qed.
  Lemma visit_fields_ok l : forall acc st fs st', visit_fields types unions l acc st = Some (fs, st') -> wf st -> settled st [] ->
    ext st st' /\ wf st' /\ settled st' [] /\ exists L, map fst L = l /\ fs = ins_all (flat_map snd L) acc /\ forall kf vs, In (kf, vs) L -> made_of st' (fst kf) (snd kf) vs.
  Proof.
    induction l as [|[k f] l IH]; intros acc st fs st' E W S; cbn in E.
    - injection E as <- <-. split; [apply ext_refl|]. split; [exact W|]. split; [exact S|]. exists []. split; [reflexivity|]. split; [reflexivity|]. intros kf vs [].
    - destruct (collect_args types unions f st) as [st1|] eqn:C; [|discriminate]. destruct (collect_args_ok _ _ _ C W S) as (X1 & X2 & X3 & X4).
      destruct (IH _ _ _ _ E X2 X3) as (Y1 & Y2 & Y3 & L & L1 & L2 & L3). split; [eapply ext_trans; eauto|]. split; [exact Y2|]. split; [exact Y3|].
      exists (((k, f), map_args_to_fields st1 k f) :: L). split; [cbn; now rewrite L1|]. split; [cbn [flat_map snd]; rewrite ins_app; exact L2|].
      intros kf vs [I|I]; [|now apply L3]. injection I as <- <-. exists st1. split; [reflexivity|]. split; [now apply ext_grow|]. split; [exact X2|].
      intros x a I T. apply X3; [eapply X4; eauto|exact T|intros []].
  Qed.
  Definition visited_type (st : ustate) (n : string) (g : gtype) : Prop :=
    exists L, map fst L = t_fields g /\ oget scmp n (us_types st) = Some (set_fields g (ins_all (flat_map snd L) [])) /\
      forall kf vs, In (kf, vs) L -> made_of st (fst kf) (snd kf) vs.
  Lemma visit_types_ok l : forall st st', visit_types types unions l st = Some st' -> wf st -> settled st [] -> (forall n, In n (map fst l) -> In n (map fst types)) -> NoDup (map fst l) ->
    grow st st' /\ wf st' /\ settled st' [] /\ (forall n g, In (n, g) l -> visited_type st' n g) /\ (forall x, plain_name x -> ~ In x (map fst l) -> oget scmp x (us_types st') = oget scmp x (us_types st)).
  Proof.
    induction l as [|[n g] l IH]; intros st st' E W S Sub N; cbn in E.
    - injection E as <-. split; [apply grow_refl|]. split; [exact W|]. split; [exact S|]. split; [intros n g []|auto].
    - destruct (visit_fields types unions (t_fields g) [] st) as [[fs st1]|] eqn:V; [|discriminate].
      destruct (visit_fields_ok _ _ _ _ _ V W S) as (X1 & X2 & X3 & L & L1 & L2 & L3).
      set (st2 := {| us_presence := us_presence st1; us_visited := us_visited st1; us_types := oins scmp n (set_fields g fs) (us_types st1) |}) in *.
      assert (Pn : plain_name n) by (apply plain_types, Sub; now left).
      assert (G2 : grow st1 st2).
      { constructor; [auto|]. intros m r K _. cbn. apply oget_other. intros X. exact (plain_not_under _ _ _ Pn (eq_sym X)). }
      assert (W2 : wf st2) by (destruct X2 as [A B]; constructor; [exact A|exact B]).
      assert (S2 : settled st2 []) by (intros m I T Nm; apply (finished_grow st1); auto).
      inversion N as [|? ? Nn N']; subst.
      destruct (IH _ _ E W2 S2 ltac:(intros m I; apply Sub; now right) N') as (Y1 & Y2 & Y3 & Y4 & Y5).
      assert (G1 : grow st1 st') by (eapply grow_trans; eauto).
      split; [eapply grow_trans; [apply ext_grow; exact X1|exact G1]|]. split; [exact Y2|]. split; [exact Y3|]. split.
      + intros m h [I|I]; [|now apply Y4]. injection I as <- <-. exists L. split; [exact L1|]. split.
        * rewrite Y5 by assumption. cbn. apply oget_same.
        * intros kf vs I. eapply made_grow; [now apply L3|exact G1].
      + intros x Px Nx. cbn in Nx. rewrite Y5 by tauto. cbn. rewrite oget_other by (intros ->; tauto). apply (ext_plain _ _ X1 x Px).
  Qed.

  (** ** Choices *)
  Lemma inner_sound ufs : forall n g x gx, In (x, gx) (inner_create n g ufs) -> NoDup (map fst ufs) ->
    (forall k l f, In (k, l) ufs -> oget scmp k (t_fields g) = Some f -> exists m, In m l /\ oget scmp k (t_fields gx) = Some (set_type f (with_name m (f_type f)))) /\
    (forall k, ~ In k (map fst ufs) -> oget scmp k (t_fields gx) = oget scmp k (t_fields g)).
  Proof.
    induction ufs as [|[k0 l0] ufs IH]; intros n g x gx I N; cbn [inner_create] in I.
    - destruct I as [I|[]]. injection I as <- <-. split; [intros k l f []|auto].
    - apply in_flat_map in I. destruct I as ([i m] & J & I). cbn [fst snd] in I. apply indexed_in in J. destruct J as [_ J].
      inversion N as [|? ? N0 N']; subst. destruct (IH _ _ _ _ I N') as [A B]. cbn [t_fields set_fields] in A, B.
      assert (Oth : forall k, k <> k0 -> oget scmp k match oget scmp k0 (t_fields g) with
         | Some f => oins scmp k0 (set_type f (with_name m (f_type f))) (t_fields g) | None => t_fields g end = oget scmp k (t_fields g)).
      { intros k Nk. destruct (oget scmp k0 (t_fields g)); [|reflexivity]. apply oget_other. congruence. }
      split.
      + intros k l f [X|X] F.
        * injection X as <- <-. exists m. split; [exact J|]. rewrite B by exact N0. rewrite F. apply oget_same.
        * apply (A k l f X). rewrite Oth; [exact F|]. intros ->. apply N0. apply in_map_iff. exists (k0, l). auto.
      + intros k Nk. cbn in Nk. rewrite B by tauto. apply Oth. intros ->. tauto.
  Qed.
  Lemma inner_complete (Q : string -> string -> Prop) ufs : (forall k l, In (k, l) ufs -> exists m, In m l /\ Q k m) -> NoDup (map fst ufs) ->
    forall n g, exists x gx, In (x, gx) (inner_create n g ufs) /\
      forall k l f, In (k, l) ufs -> oget scmp k (t_fields g) = Some f -> exists m, Q k m /\ oget scmp k (t_fields gx) = Some (set_type f (with_name m (f_type f))).
  Proof.
    induction ufs as [|[k0 l0] ufs IH]; intros H N n g.
    - exists n, g. split; [now left|]. intros k l f [].
    - inversion N as [|? ? N0 N']; subst. destruct (H k0 l0 (or_introl eq_refl)) as (m & M & Qm). destruct (indexed_of l0 0 m M) as (i & I).
      cbn [inner_create].
      set (g1 := set_fields g match oget scmp k0 (t_fields g) with
         | Some f => oins scmp k0 (set_type f (with_name m (f_type f))) (t_fields g) | None => t_fields g end).
      destruct (IH (fun k l X => H k l (or_intror X)) N' (n ++ "__" ++ k0 ++ Z_to_string i)%string g1) as (x & gx & In1 & P).
      exists x, gx. split; [apply in_flat_map; exists (i, m); split; [exact I|exact In1]|].
      intros k l f [X|X] F.
      + injection X as <- <-. exists m. split; [exact Qm|]. rewrite (proj2 (inner_sound _ _ _ _ _ In1 N') k0 N0). cbn. rewrite F. apply oget_same.
      + apply (P k l f X). cbn. assert (k <> k0) by (intros ->; apply N0; apply in_map_iff; exists (k0, l); auto).
        destruct (oget scmp k0 (t_fields g)); [|exact F]. rewrite oget_other by congruence. exact F.
  Qed.
  Lemma union_fields_in st fs k l : In (k, l) (union_fields st fs) <-> exists f, In (k, f) fs /\ union_types st (type_name (f_type f)) = Some l.
  Proof.
    unfold union_fields. rewrite in_flat_map. split.
    - intros ([k' f] & I & J). cbn [fst snd] in J. destruct (union_types st (type_name (f_type f))) as [l'|] eqn:U; [|contradiction].
      destruct J as [J|[]]. injection J as <- <-. eauto.
    - intros (f & I & U). exists (k, f). split; [exact I|]. cbn [fst snd]. rewrite U. now left.
  Qed.
  Lemma union_fields_nodup st fs : NoDup (map fst fs) -> NoDup (map fst (union_fields st fs)).
  Proof.
    induction fs as [|[k f] fs IH]; intros N; [constructor|]. inversion N as [|? ? Nk N']; subst. unfold union_fields in *. cbn [flat_map fst snd].
    destruct (union_types st (type_name (f_type f))); [|now apply IH]. cbn. constructor; [|now apply IH].
    intros I. apply in_map_iff in I. destruct I as ([k' l'] & E & I). cbn in E. subst k'. apply (union_fields_in st fs) in I. destruct I as (f' & I & _).
    apply Nk. apply in_map_iff. exists (k, f'). auto.
  Qed.
  Lemma member_types_in st members x : In x (member_types st members) <->
    exists m, In m members /\ match union_types st m with Some l => In x l | None => x = m end.
  Proof.
    unfold member_types. assert (H : forall acc, In x (fold_left (fun acc m => match union_types st m with Some l => sextend scmp acc l | None => sins scmp m acc end) members acc) <->
      In x acc \/ exists m, In m members /\ match union_types st m with Some l => In x l | None => x = m end).
    { induction members as [|m l IH]; intros acc; cbn; [split; [auto|intros [H|(m & [] & _)]; exact H]|]. rewrite IH. split.
      - intros [H|(y & Y & H)]; [|right; exists y; auto]. destruct (union_types st m) as [l'|] eqn:U.
        + apply (sextend_in scmp scmp_order) in H. destruct H as [H|H]; [now left|]. right. exists m. rewrite U. auto.
        + apply (sins_in scmp scmp_order) in H. destruct H as [H|H]; [right; exists m; rewrite U; auto|now left].
      - intros [H|(y & [<-|Y] & H)].
        + left. destruct (union_types st m); [apply (sextend_in scmp scmp_order)|apply (sins_in scmp scmp_order)]; auto.
        + left. destruct (union_types st m); [apply (sextend_in scmp scmp_order)|apply (sins_in scmp scmp_order)]; auto.
        + right. exists y. auto. }
    rewrite H. split; [intros [[]|X]; exact X|auto].
  Qed.

  (** ** Values *)
  Section Values.
    Variable leaf : string -> value -> Prop.
    Lemma fits_named A n b v : fits leaf A unions (TNamed n b) v <-> (b = false /\ v = VNull) \/ fits leaf A unions (TNamed n true) v.
    Proof.
      split.
      - intros F. inversion F; subst; [left; auto|right..]; [eapply fits_union|eapply fits_object|eapply fits_leaf]; eauto.
      - intros [[-> ->]|F]; [constructor|]. inversion F; subst; [eapply fits_union|eapply fits_object|eapply fits_leaf]; eauto.
    Qed.
    Lemma fits_lift A B t : (forall b v, fits leaf A unions (TNamed (type_name t) b) v <-> fits leaf B unions (TNamed (type_name t) b) v) ->
      forall v, fits leaf A unions t v <-> fits leaf B unions t v.
    Proof.
      induction t as [n b|t IH b]; intros H v; [apply H|]. specialize (IH H). split; intros F; inversion F; subst; try apply fits_null_list; apply fits_list; intros x X; apply IH; auto.
    Qed.
    Lemma free_intro A n : oget scmp n unions = None ->
      (forall g k f, oget scmp n A = Some g -> oget scmp k (t_fields g) = Some f -> union_free A unions (type_name (f_type f))) -> union_free A unions n.
    Proof.
      intros U C x R. assert (H : x = n \/ exists g k f, oget scmp n A = Some g /\ oget scmp k (t_fields g) = Some f /\ reaches A unions (type_name (f_type f)) x).
      { induction R as [|y u x R IH U' I|y g k f R IH U' G F]; [now left|..].
        - destruct IH as [->|(g & k & f & G & F & R')]; [congruence|]. right. exists g, k, f. split; [exact G|]. split; [exact F|]. eapply reaches_union; eauto.
        - right. destruct IH as [->|(g' & k' & f' & G' & F' & R')]; [exists g, k, f; split; [exact G|split; [exact F|apply reaches_self]]|].
          exists g', k', f'. split; [exact G'|]. split; [exact F'|]. eapply reaches_field; eauto. }
      destruct H as [->|(g & k & f & G & F & R')]; [exact U|]. exact (C _ _ _ G F _ R').
    Qed.

    Variable st : ustate.
    Hypothesis W : wf st.
    Hypothesis plain_same : forall x, plain_name x -> oget scmp x types = None -> oget scmp x (us_types st) = None.
    Hypothesis visited_all : forall n g, oget scmp n types = Some g -> visited_type st n g.
    Local Notation ts := (us_types st).
    Definition ok (n : string) : Prop :=
      match union_types st n with
      | None => union_free ts unions n /\ forall b v, fits leaf types unions (TNamed n b) v <-> fits leaf ts unions (TNamed n b) v
      | Some l => l <> [] /\ (forall m, In m l -> union_free ts unions m) /\
          forall v, fits leaf types unions (TNamed n true) v <-> exists m, In m l /\ fits leaf ts unions (TNamed m true) v
      end.
    Lemma ok_none t : ok (type_name t) -> union_types st (type_name t) = None -> union_free ts unions (type_name t) /\ forall v, fits leaf types unions t v <-> fits leaf ts unions t v.
    Proof. intros O U. unfold ok in O. rewrite U in O. destruct O as [F E]. split; [exact F|]. now apply fits_lift. Qed.
    Lemma ok_some t l : tame types unions t -> ok (type_name t) -> union_types st (type_name t) = Some l ->
      (exists n b, t = TNamed n b) /\ l <> [] /\ (forall m, In m l -> union_free ts unions m) /\
      forall v, fits leaf types unions t v <-> exists m, In m l /\ fits leaf ts unions (with_name m t) v.
    Proof.
      intros T O U. unfold ok in O. rewrite U in O. destruct O as (N & F & E). destruct t as [n b|t b].
      - split; [eauto|]. split; [exact N|]. split; [exact F|]. intros v. cbn in *. rewrite fits_named, E. split.
        + intros [X|(m & M & Y)].
          * destruct l as [|m l]; [congruence|]. exists m. split; [now left|]. apply fits_named. now left.
          * exists m. split; [exact M|]. apply fits_named. now right.
        + intros (m & M & Y). apply fits_named in Y. destruct Y as [Y|Y]; [now left|]. right. eauto.
      - exfalso. inversion T; subst. cbn in U. unfold union_types in U. destruct (aget (type_name t) (us_presence st)) as [[l'|]|] eqn:P; try discriminate.
        eapply (wf_unions _ W); eauto.
    Qed.
    Lemma plain_fields n g : tn n -> oget scmp n unions = None -> oget scmp n types = Some g ->
      exists g', oget scmp n ts = Some g' /\ (forall k, oget scmp k (t_fields g') = oget scmp k (t_fields g)) /\ (t_fields g' = [] <-> t_fields g = []).
    Proof.
      intros T U G. destruct (visited_all _ _ G) as (L & L1 & L2 & L3). eexists. split; [exact L2|]. cbn [t_fields set_fields].
      assert (Fl : flat_map snd L = t_fields g).
      { rewrite <- L1. assert (H : forall kf vs, In (kf, vs) L -> vs = [kf]).
        { intros [k f] vs I. destruct (L3 _ _ I) as (stx & -> & _ & _ & _). cbn [fst snd]. unfold map_args_to_fields.
          inversion T as [? ? u' U'|? ? g' U' G' F|? ? U' G'|]; subst; try congruence. rewrite G in G'. injection G' as <-.
          assert (In (k, f) (t_fields g)) as J by (rewrite <- L1; apply in_map_iff; exists ((k, f), map_args_to_fields stx k f); auto).
          destruct (F k f (field_get _ _ _ _ G J)) as [-> _]. reflexivity. }
        clear -H. induction L as [|[kf vs] L IH]; [reflexivity|]. cbn. rewrite (H kf vs (or_introl eq_refl)), IH; [reflexivity|]. intros a b I. apply H. now right. }
      rewrite Fl. assert (Sf := sorted_fields _ _ G). split.
      - intros k. destruct (oget scmp k (t_fields g)) as [f|] eqn:F.
        + apply ins_get; [|now apply (oget_in scmp scmp_order)]. intros f' I. apply (in_oget scmp scmp_order) in I; [congruence|exact Sf].
        + rewrite ins_none; [reflexivity|]. now apply oget_nokey.
      - split; [|intros ->; reflexivity]. destruct (t_fields g) as [|[k f] fs] eqn:E; [reflexivity|]. intros X. exfalso.
        assert (Y : oget scmp k (ins_all ((k, f) :: fs) []) = Some f).
        { apply ins_get; [|now left]. intros f' I. apply (in_oget scmp scmp_order) in I; [|exact Sf].
          assert (oget scmp k ((k, f) :: fs) = Some f) as Z by (apply (in_oget scmp scmp_order); [exact Sf|now left]). congruence. }
        rewrite X in Y. discriminate.
    Qed.
    Lemma finished_ok n : finished st n -> tn n -> ok n.
    Proof.
      induction 1 as [n u U P M IH|n g U G UF P M IH|n g U G UF P X M IH|n U G]; intros T; unfold ok.
      - unfold union_types. rewrite P.
        assert (Ot : forall m, In m (u_types u) -> ok m) by (intros m I; apply IH; [exact I|]; eapply tn_child; [exact T|]; eapply child_union; eauto).
        assert (Fr : forall m, In m (member_types st (u_types u)) -> union_free ts unions m).
        { intros x I. apply member_types_in in I. destruct I as (m & I & J). specialize (Ot m I). unfold ok in Ot. destruct (union_types st m) as [l|]; [now apply Ot|]. subst x. now apply Ot. }
        split; [|split; [exact Fr|]].
        + inversion T as [? ? u' U' N _|? ? g' U' _ _|? ? U' _ _|]; subst; try congruence. rewrite U in U'. injection U' as <-.
          destruct (u_types u) as [|m ms] eqn:Eu; [congruence|]. specialize (Ot m (or_introl eq_refl)). unfold ok in Ot. intros Z.
          assert (exists x, In x (member_types st (m :: ms))) as (x & Ix); [|rewrite Z in Ix; contradiction].
          destruct (union_types st m) as [[|x l]|] eqn:Um; [now destruct Ot| |].
          * exists x. apply member_types_in. exists m. rewrite Um. split; now left.
          * exists m. apply member_types_in. exists m. rewrite Um. split; [now left|reflexivity].
        + intros v. split.
          * intros F. inversion F as [| | |? ? u' m ? U' I Fm|? ? ? ? U'|? ? ? U']; subst; try congruence. rewrite U in U'. injection U' as <-.
            specialize (Ot m I). unfold ok in Ot. destruct (union_types st m) as [l|] eqn:Um.
            -- apply Ot in Fm. destruct Fm as (x & Ix & Fx). exists x. split; [apply member_types_in; exists m; rewrite Um; auto|exact Fx].
            -- apply Ot in Fm. exists m. split; [apply member_types_in; exists m; rewrite Um; auto|exact Fm].
          * intros (x & Ix & Fx). apply member_types_in in Ix. destruct Ix as (m & I & J). eapply fits_union; [exact U|exact I|].
            specialize (Ot m I). unfold ok in Ot. destruct (union_types st m) as [l|] eqn:Um; [apply Ot; eauto|]. subst x. now apply Ot.
      - unfold union_types. rewrite P. destruct (plain_fields n g T U G) as (g' & G' & Fs & Em).
        assert (Hf : forall k f, oget scmp k (t_fields g) = Some f -> union_free ts unions (type_name (f_type f)) /\ forall v, fits leaf types unions (f_type f) v <-> fits leaf ts unions (f_type f) v).
        { intros k f F. assert (I := oget_in scmp scmp_order _ _ _ F). apply ok_none.
          - apply (IH k f I). eapply tn_child; [exact T|]. eapply child_field; eauto.
          - destruct (union_types st (type_name (f_type f))) as [l|] eqn:Uf; [|reflexivity]. exfalso.
            assert (In (k, l) (union_fields st (t_fields g))) as J by (apply union_fields_in; eauto). rewrite UF in J. contradiction. }
        split.
        + apply free_intro; [exact U|]. intros g0 k f G0 F. rewrite G' in G0. injection G0 as <-. rewrite Fs in F. now apply Hf in F.
        + intros b v. split; intros F; inversion F as [| | |? ? u' ? ? U'|? ? g0 m U' G0 N K A|? ? v' U' Z N Lf]; subst; try congruence; try apply fits_null_name.
          * rewrite G in G0. injection G0 as <-. eapply fits_object; [exact U|exact G'|rewrite Em; exact N|intros k I; rewrite Fs; now apply K|].
            intros k f Ff. rewrite Fs in Ff. apply (Hf k f Ff). now apply A.
          * eapply fits_leaf; [exact U| |exact N|exact Lf]. intros g0 G0. rewrite G' in G0. injection G0 as <-. apply Em. now apply Z.
          * rewrite G' in G0. injection G0 as <-. eapply fits_object; [exact U|exact G|rewrite <- Em; exact N|intros k I; rewrite <- Fs; now apply K|].
            intros k f Ff. apply (Hf k f Ff). apply A. now rewrite Fs.
          * eapply fits_leaf; [exact U| |exact N|exact Lf]. intros g0 G0. rewrite G in G0. injection G0 as <-. apply Em. now apply Z.
      - unfold union_types. rewrite P. set (ufs := union_fields st (t_fields g)) in *.
        assert (Sf := sorted_fields _ _ G).
        assert (Nd : NoDup (map fst ufs)) by (apply union_fields_nodup, (osorted_nodup scmp scmp_order), Sf).
        assert (Okf : forall k f, oget scmp k (t_fields g) = Some f -> ok (type_name (f_type f))).
        { intros k f F. assert (I := oget_in scmp scmp_order _ _ _ F). apply (IH k f I). eapply tn_child; [exact T|]. eapply child_field; eauto. }
        assert (Tf : forall k f, oget scmp k (t_fields g) = Some f -> tame types unions (f_type f)).
        { intros k f F. inversion T as [? ? u' U'|? ? g' U' G' A|? ? U' G'|]; subst; try congruence. rewrite G in G'. injection G' as <-. apply (A _ _ F). }
        assert (Uin : forall k l f, oget scmp k (t_fields g) = Some f -> (In (k, l) ufs <-> union_types st (type_name (f_type f)) = Some l)).
        { intros k l f F. unfold ufs. rewrite union_fields_in. split; [|intros E; exists f; split; [now apply (oget_in scmp scmp_order)|exact E]].
          intros (f' & I & E). apply (in_oget scmp scmp_order) in I; [|exact Sf]. congruence. }
        assert (Unot : forall k f, oget scmp k (t_fields g) = Some f -> union_types st (type_name (f_type f)) = None -> ~ In k (map fst ufs)).
        { intros k f F E I. apply in_map_iff in I. destruct I as ([k' l] & E' & I). cbn in E'. subst k'. apply (Uin k l f F) in I. congruence. }
        assert (Ukey : forall k l, In (k, l) ufs -> exists f, oget scmp k (t_fields g) = Some f).
        { intros k l I. unfold ufs in I. apply union_fields_in in I. destruct I as (f & I & _). exists f. now apply (in_oget scmp scmp_order). }
        (* fields of a copy *)
        assert (Mir : forall x gx, In (x, gx) (inner_create n g ufs) -> oget scmp x ts = Some gx /\ oget scmp x unions = None /\ t_fields gx <> [] /\
          (forall k, oget scmp k (t_fields gx) = None <-> oget scmp k (t_fields g) = None) /\
          forall k f, oget scmp k (t_fields g) = Some f -> match union_types st (type_name (f_type f)) with
            | Some l => exists m, In m l /\ oget scmp k (t_fields gx) = Some (set_type f (with_name m (f_type f)))
            | None => oget scmp k (t_fields gx) = Some f end).
        { intros x gx I. destruct (inner_sound _ _ _ _ _ I Nd) as [A B].
          assert (C : forall k f, oget scmp k (t_fields g) = Some f -> match union_types st (type_name (f_type f)) with
            | Some l => exists m, In m l /\ oget scmp k (t_fields gx) = Some (set_type f (with_name m (f_type f)))
            | None => oget scmp k (t_fields gx) = Some f end).
          { intros k f F. destruct (union_types st (type_name (f_type f))) as [l|] eqn:Uf; [apply (A k l f); [exact (proj2 (Uin k l f F) Uf)|exact F]|]. rewrite B; [exact F|]. eapply Unot; eauto. }
          split; [now apply X|]. split; [|split; [|split; [|exact C]]].
          - destruct (inner_names _ _ _ _ _ I) as (r & -> & R). destruct (R UF) as (r' & ->). destruct (oget scmp (n ++ "__" ++ r')%string unions) as [u'|] eqn:Ux; [|reflexivity].
            exfalso. apply (oget_in scmp scmp_order) in Ux. eapply plain_not_under; [apply plain_unions; apply in_map_iff; eexists; split; [|exact Ux]; reflexivity|]. cbn. reflexivity.
          - destruct ufs as [|[k l] ufs'] eqn:Eu; [congruence|]. destruct (Ukey k l (or_introl eq_refl)) as (f & F). destruct (A k l f (or_introl eq_refl) F) as (m & _ & Z).
            intros Y. rewrite Y in Z. discriminate.
          - intros k. destruct (oget scmp k (t_fields g)) as [f|] eqn:F.
            + specialize (C k f F). destruct (union_types st (type_name (f_type f))) as [l|]; [destruct C as (m & _ & ->)|rewrite C]; split; discriminate.
            + rewrite B; [rewrite F; tauto|]. intros J. apply in_map_iff in J. destruct J as ([k' l] & E & J). cbn in E. subst k'. destruct (Ukey _ _ J) as (f & F'). congruence. }
        split; [|split].
        + destruct (inner_complete (fun _ _ => True) ufs) with (n := n) (g := g) as (x & gx & I & _); [|exact Nd|].
          * intros k l I. destruct (Ukey _ _ I) as (f & F). assert (Uf := proj1 (Uin k l f F) I). destruct (ok_some _ _ (Tf _ _ F) (Okf _ _ F) Uf) as (_ & N & _).
            destruct l as [|m l]; [congruence|]. exists m. split; [now left|exact Logic.I].
          * intros Z. apply (in_map fst) in I. rewrite Z in I. contradiction.
        + intros x I. apply in_map_iff in I. destruct I as ([x' gx] & E & I). cbn in E. subst x'. destruct (Mir x gx I) as (X1 & X2 & X3 & X4 & X5).
          apply free_intro; [exact X2|]. intros g0 k f' G0 F'. rewrite X1 in G0. injection G0 as <-.
          destruct (oget scmp k (t_fields g)) as [f|] eqn:F; [|apply X4 in F; congruence]. specialize (X5 k f F).
          destruct (union_types st (type_name (f_type f))) as [l|] eqn:Uf.
          * destruct X5 as (m & Im & E). rewrite E in F'. injection F' as <-. destruct (ok_some _ _ (Tf _ _ F) (Okf _ _ F) Uf) as ((n0 & b0 & Et) & _ & Fr & _).
            cbn [f_type set_type]. rewrite Et. cbn. now apply Fr.
          * rewrite X5 in F'. injection F' as <-. now apply (ok_none _ (Okf _ _ F) Uf).
        + intros v. split.
          * intros F. inversion F as [| | |? ? u' ? ? U'|? ? g0 m U' G0 N K A|? ? v' U' Z N Lf]; subst; try congruence.
            -- rewrite G in G0. injection G0 as <-.
               destruct (inner_complete (fun k x => forall f, oget scmp k (t_fields g) = Some f -> fits leaf ts unions (with_name x (f_type f)) (member k m)) ufs) with (n := n) (g := g) as (x & gx & I & Q); [|exact Nd|].
               ++ intros k l I. destruct (Ukey _ _ I) as (f & Ff). assert (Uf := proj1 (Uin k l f Ff) I). destruct (ok_some _ _ (Tf _ _ Ff) (Okf _ _ Ff) Uf) as (_ & _ & _ & Ev).
                  destruct (proj1 (Ev _) (A _ _ Ff)) as (y & Iy & Fy). exists y. split; [exact Iy|]. intros f' Ff'. congruence.
               ++ exists x. split; [apply in_map_iff; exists (x, gx); auto|]. destruct (Mir x gx I) as (X1 & X2 & X3 & X4 & X5).
                  eapply fits_object; [exact X2|exact X1|exact X3| |].
                  ** intros k Ik. destruct (K k Ik) as (f & Ff). destruct (oget scmp k (t_fields gx)) as [f'|] eqn:F'; [eauto|]. apply X4 in F'. congruence.
                  ** intros k f' F'. destruct (oget scmp k (t_fields g)) as [f|] eqn:Ff; [|apply X4 in Ff; congruence]. specialize (X5 k f Ff).
                     destruct (union_types st (type_name (f_type f))) as [l|] eqn:Uf.
                     --- destruct (Q k l f (proj2 (Uin k l f Ff) Uf) Ff) as (y & Qy & Ey). rewrite Ey in F'. injection F' as <-. cbn [f_type set_type]. now apply Qy.
                     --- rewrite X5 in F'. injection F' as <-. apply (ok_none _ (Okf _ _ Ff) Uf). now apply A.
            -- exfalso. apply UF. unfold ufs, union_fields. now rewrite (Z g G).
          * intros (x & I & F). apply in_map_iff in I. destruct I as ([x' gx] & E & I). cbn in E. subst x'. destruct (Mir x gx I) as (X1 & X2 & X3 & X4 & X5).
            inversion F as [| | |? ? u' ? ? U'|? ? g0 m U' G0 N K A|? ? v' U' Z N Lf]; subst; try congruence.
            -- rewrite X1 in G0. injection G0 as <-. eapply fits_object; [exact U|exact G| | |].
               ++ intros Y. apply UF. unfold ufs, union_fields. now rewrite Y.
               ++ intros k Ik. destruct (K k Ik) as (f' & F'). destruct (oget scmp k (t_fields g)) as [f|] eqn:Ff; [eauto|]. apply X4 in Ff. congruence.
               ++ intros k f Ff. specialize (X5 k f Ff). destruct (union_types st (type_name (f_type f))) as [l|] eqn:Uf.
                  ** destruct X5 as (y & Iy & Ey). destruct (ok_some _ _ (Tf _ _ Ff) (Okf _ _ Ff) Uf) as (_ & _ & _ & Ev). apply Ev. exists y. split; [exact Iy|].
                     exact (A k _ Ey).
                  ** apply (ok_none _ (Okf _ _ Ff) Uf). now apply A.
            -- exfalso. apply X3. now apply Z.
      - rewrite leaf_types by assumption.
        assert (Pn : plain_name n) by (inversion T as [? ? u' U'|? ? g' U' G'|? ? U' G' Q|]; subst; congruence || exact Q).
        assert (Gt := plain_same n Pn G). split.
        + apply free_intro; [exact U|]. intros; congruence.
        + intros b v. split; intros F; inversion F as [| | |? ? u' ? ? U'|? ? g0 m U' G0 N K A|? ? v' U' Z N Lf]; subst; try congruence; try apply fits_null_name; eapply fits_leaf; eauto; intros; congruence.
    Qed.
  End Values.

  (** ** Arguments *)
  Inductive vars : string -> Prop :=
  | vars_nil : vars ""
  | vars_more i r : (0 <= i)%Z -> vars r -> vars ("Var" ++ Z_to_string i ++ r)%string.
  Lemma vars_stop r : vars r -> stop r.
  Proof. destruct 1; [exact Logic.I|reflexivity]. Qed.
  Definition choice (st : ustate) (x y : string * arg) : Prop :=
    fst x = fst y /\ match union_types st (type_name (arg_type (snd x))) with
      | Some l => exists m, In m l /\ snd y = set_arg_type (snd x) (with_name m (arg_type (snd x)))
      | None => snd y = snd x
      end.
  Lemma set_args_self f : set_args f (f_args f) = f.
  Proof. destruct f. reflexivity. Qed.
  Lemma aset_mid {A} pre k (a b : A) rest : ~ In k (map fst pre) -> aset k b (pre ++ (k, a) :: rest) = pre ++ (k, b) :: rest.
  Proof.
    induction pre as [|[x y] pre IH]; intros N; cbn; [now rewrite String.eqb_refl|]. cbn in N. destruct (String.eqb_spec k x) as [->|]; [tauto|]. now rewrite IH by tauto.
  Qed.
  Lemma vn_trans a b c : variant_name b c -> variant_name a b -> variant_name a c.
  Proof. induction 1 as [|n i V IH Hi]; intros W; [exact W|]. apply vn_more; [now apply IH|exact Hi]. Qed.
  Lemma walk_names st rest : forall name f x f', In (x, f') (walk_arguments st rest name f) -> variant_name name x /\ exists r, x = (name ++ r)%string /\ vars r.
  Proof.
    induction rest as [|[k a] rest IH]; intros name f x f' I; cbn [walk_arguments] in I.
    - destruct I as [I|[]]. injection I as <- <-. split; [apply vn_self|]. exists "". split; [now rewrite str_app_nil_r|constructor].
    - destruct (union_types st (type_name (arg_type a))) as [l|]; [|eauto]. apply in_flat_map in I. destruct I as ([i m] & J & I). cbn [fst snd] in I.
      apply indexed_in in J. destruct J as [Hi _]. apply IH in I. destruct I as (V & r & -> & R). split.
      + eapply vn_trans; [exact V|]. apply vn_more; [apply vn_self|exact Hi].
      + exists ("Var" ++ Z_to_string i ++ r)%string. split; [rewrite !str_app_assoc; reflexivity|now constructor].
  Qed.
  Lemma walk_nodup st rest : forall name f, NoDup (map fst (walk_arguments st rest name f)).
  Proof.
    induction rest as [|[k a] rest IH]; intros name f; cbn [walk_arguments]; [cbn; constructor; [intros []|constructor]|].
    destruct (union_types st (type_name (arg_type a))) as [l|]; [|apply IH]. apply (branch_nodup _ (name ++ "Var")%string); [lia|intros; apply IH|].
    intros it x I J. apply in_map_iff in J. destruct J as ([y f'] & <- & J). apply walk_names in J. destruct J as (_ & r & -> & R).
    exists r. split; [cbn [fst]; now rewrite !str_app_assoc|now apply vars_stop].
  Qed.
  Lemma walk_sound st rest : forall pre name f x f', f_args f = pre ++ rest -> NoDup (map fst (pre ++ rest)) -> In (x, f') (walk_arguments st rest name f) ->
    exists rest', Forall2 (choice st) rest rest' /\ f' = set_args f (pre ++ rest').
  Proof.
    induction rest as [|[k a] rest IH]; intros pre name f x f' E N I; cbn [walk_arguments] in I.
    - destruct I as [I|[]]. injection I as <- <-. exists []. split; [constructor|]. rewrite <- E. symmetry. apply set_args_self.
    - assert (Nk : ~ In k (map fst pre)) by (rewrite map_app in N; cbn in N; apply NoDup_remove_2 in N; rewrite in_app_iff in N; tauto).
      destruct (union_types st (type_name (arg_type a))) as [l|] eqn:U.
      + apply in_flat_map in I. destruct I as ([i m] & J & I). cbn [fst snd] in I. apply indexed_in in J. destruct J as [_ J].
        rewrite E, aset_mid in I by exact Nk. set (a' := set_arg_type a (with_name m (arg_type a))) in *.
        destruct (IH (pre ++ [(k, a')]) (name ++ "Var" ++ Z_to_string i)%string (set_args f (pre ++ (k, a') :: rest)) x f') as (rest' & F & ->); [..|exact I|].
        * cbn. now rewrite <- app_assoc.
        * rewrite <- app_assoc. cbn. rewrite map_app in *. exact N.
        * exists ((k, a') :: rest'). split; [constructor; [split; [reflexivity|cbn [snd]; rewrite U; exists m; auto]|exact F]|]. rewrite <- app_assoc. reflexivity.
      + destruct (IH (pre ++ [(k, a)]) name f x f') as (rest' & F & ->); [rewrite E, <- app_assoc; reflexivity|rewrite <- app_assoc; exact N|exact I|].
        exists ((k, a) :: rest'). split; [constructor; [split; [reflexivity|cbn [snd]; rewrite U; reflexivity]|exact F]|]. rewrite <- app_assoc. reflexivity.
  Qed.
  Lemma walk_complete st rest : forall rest', Forall2 (choice st) rest rest' -> forall pre name f, f_args f = pre ++ rest -> NoDup (map fst (pre ++ rest)) ->
    exists x, In (x, set_args f (pre ++ rest')) (walk_arguments st rest name f).
  Proof.
    induction 1 as [|[k a] [k' a'] rest rest' C F IH]; intros pre name f E N; cbn [walk_arguments].
    - exists name. left. rewrite <- E, set_args_self. reflexivity.
    - assert (Nk : ~ In k (map fst pre)) by (rewrite map_app in N; cbn in N; apply NoDup_remove_2 in N; rewrite in_app_iff in N; tauto).
      destruct C as [Ek C]. cbn [fst snd] in *. subst k'. destruct (union_types st (type_name (arg_type a))) as [l|].
      + destruct C as (m & J & ->). set (a' := set_arg_type a (with_name m (arg_type a))) in *. destruct (indexed_of l 0 m J) as (i & Ii).
        destruct (IH (pre ++ [(k, a')]) (name ++ "Var" ++ Z_to_string i)%string (set_args f (pre ++ (k, a') :: rest))) as (x & I).
        * cbn. now rewrite <- app_assoc.
        * rewrite <- app_assoc. cbn. rewrite map_app in *. exact N.
        * exists x. apply in_flat_map. exists (i, m). split; [exact Ii|]. cbn [fst snd]. rewrite E, aset_mid by exact Nk. fold a'.
          rewrite <- app_assoc in I. cbn in I. exact I.
      + subst a'. destruct (IH (pre ++ [(k, a)]) name f) as (x & I); [rewrite E, <- app_assoc; reflexivity|rewrite <- app_assoc; exact N|].
        exists x. rewrite <- app_assoc in I. exact I.
  Qed.
  Lemma walk_eq st st' rest : (forall k a, In (k, a) rest -> union_types st' (type_name (arg_type a)) = union_types st (type_name (arg_type a))) ->
    forall name f, walk_arguments st' rest name f = walk_arguments st rest name f.
  Proof.
    induction rest as [|[k a] rest IH]; intros H name f; [reflexivity|]. cbn [walk_arguments]. rewrite (H k a (or_introl eq_refl)).
    assert (H' : forall k a, In (k, a) rest -> union_types st' (type_name (arg_type a)) = union_types st (type_name (arg_type a))) by (intros; eapply H; right; eauto).
    destruct (union_types st (type_name (arg_type a))) as [l|]; [|now apply IH]. apply flat_map_ext. intros it. now apply IH.
  Qed.
  Lemma walk_free st rest name f : (forall k a, In (k, a) rest -> union_types st (type_name (arg_type a)) = None) -> walk_arguments st rest name f = [(name, f)].
  Proof. induction rest as [|[k a] rest IH]; intros H; [reflexivity|]. cbn [walk_arguments]. rewrite (H k a (or_introl eq_refl)). apply IH. intros; eapply H; right; eauto. Qed.
  Lemma shape_with_name m t : same_shape t (with_name m t).
  Proof. induction t; cbn; constructor; auto. Qed.
  Lemma shape_refl t : same_shape t t.
  Proof. induction t; constructor; auto. Qed.
  Lemma choice_variant st x y : choice st x y -> arg_variant x y.
  Proof.
    intros [K C]. unfold arg_variant. split; [exact K|]. destruct (union_types st (type_name (arg_type (snd x)))).
    - destruct C as (m & _ & ->). cbn. split; [apply shape_with_name|auto].
    - rewrite C. split; [apply shape_refl|auto].
  Qed.
  Lemma Forall2_weaken {A B} (P Q : A -> B -> Prop) l l' : (forall x y, P x y -> Q x y) -> Forall2 P l l' -> Forall2 Q l l'.
  Proof. intros H. induction 1; constructor; auto. Qed.
  Lemma set_args_variant st f args' : Forall2 (choice st) (f_args f) args' -> field_variant f (set_args f args').
  Proof. intros F. unfold field_variant. cbn. split; [reflexivity|]. split; [eapply Forall2_weaken; [apply choice_variant|exact F]|]. repeat split. Qed.

  (** The fields of a type at the end. *)
  Lemma vars_split r a b : vars r -> r = (a ++ b)%string -> vars b -> a = "" \/ exists a', a = ("Var" ++ a')%string.
  Proof.
    intros V E B. destruct a as [|c1 [|c2 [|c3 a]]]; [now left|..].
    - exfalso. destruct V as [|i r Hi V]; [discriminate|]. cbn in E. injection E as <- E. destruct B as [|j r' Hj B]; cbn in E; discriminate.
    - exfalso. destruct V as [|i r Hi V]; [discriminate|]. cbn in E. injection E as <- <- E. destruct B as [|j r' Hj B]; cbn in E; discriminate.
    - right. destruct V as [|i r Hi V]; [discriminate|]. cbn in E. injection E as <- <- <- E. exists a. reflexivity.
  Qed.
  Lemma scmp_prefix k s : scmp k (k ++ s)%string <> Gt.
  Proof.
    induction k as [|c k IH]; cbn; [destruct s; discriminate|]. unfold scmp in *. cbn.
    assert (H : Ascii.compare c c = Eq) by apply (to_refl _ _ ascii_compare_order). rewrite H. exact IH.
  Qed.
  Lemma sorted_after {V} (l1 : list (string * V)) k v l2 : osorted scmp (l1 ++ (k, v) :: l2) -> forall k2, In k2 (map fst l2) -> scmp k k2 = Lt.
  Proof.
    induction l1 as [|[a b] l1 IH]; intros S k2 I; cbn in S; inversion S as [|? ? ? A S']; subst; [|eapply IH; eauto].
    apply in_map_iff in I. destruct I as ([k' v'] & <- & I). eapply A, I.
  Qed.
  Lemma ins_last {V} (a vs b acc : list (string * V)) x v : NoDup (map fst vs) -> In (x, v) vs -> ~ In x (map fst b) -> oget scmp x (ins_all (a ++ vs ++ b) acc) = Some v.
  Proof.
    intros N I B. rewrite !ins_app, ins_none by exact B. apply ins_get; [|exact I]. intros v' J. revert N I J. clear.
    induction vs as [|[p q] vs IH]; intros N I J; [contradiction|]. inversion N as [|? ? Na N']; subst. cbn in *. destruct I as [I|I]; destruct J as [J|J].
    - congruence.
    - injection I as -> ->. destruct Na. apply in_map_iff. exists (x, v'). auto.
    - injection J as -> ->. destruct Na. apply in_map_iff. exists (x, v). auto.
    - now apply IH.
  Qed.
  Lemma field_at st g k f L : map fst L = t_fields g -> osorted scmp (t_fields g) -> (forall kf vs, In (kf, vs) L -> made_of st (fst kf) (snd kf) vs) ->
    oget scmp k (t_fields g) = Some f -> forall x f' stx, In (x, f') (map_args_to_fields stx k f) ->
    (forall vs, In ((k, f), vs) L -> vs = map_args_to_fields stx k f) ->
    (x = k \/ forall k2 r, In k2 (map fst (t_fields g)) -> k2 <> (k ++ "Var" ++ r)%string) ->
    oget scmp x (ins_all (flat_map snd L) []) = Some f'.
  Proof.
    intros L1 Sf Md F x f' stx I Vs Ap. apply (oget_in scmp scmp_order) in F. rewrite <- L1 in F. apply in_map_iff in F. destruct F as ([kf vs] & E & J). cbn in E. subst kf.
    apply in_split in J. destruct J as (La & Lb & ->). assert (vs = map_args_to_fields stx k f) as -> by (apply Vs, in_app_iff; right; now left).
    rewrite flat_map_app. cbn [flat_map snd]. apply ins_last; [apply walk_nodup|exact I|].
    intros J. apply in_map_iff in J. destruct J as ([x' f2] & E & J). cbn in E. subst x'. apply in_flat_map in J. destruct J as ([[k2 f0] vs] & J & J2). cbn [snd] in J2.
    rewrite map_app in L1. cbn [map fst] in L1.
    assert (K2 : scmp k k2 = Lt). { rewrite <- L1 in Sf. eapply sorted_after; [exact Sf|]. apply in_map_iff. exists (k2, f0). split; [reflexivity|]. apply in_map_iff. exists ((k2, f0), vs). auto. }
    assert (K2' : In k2 (map fst (t_fields g))). { rewrite <- L1, map_app. apply in_app_iff. right. right. apply in_map_iff. exists (k2, f0). split; [reflexivity|]. apply in_map_iff. exists ((k2, f0), vs). auto. }
    destruct (Md (k2, f0) vs) as (sty & -> & _); [apply in_app_iff; right; now right|]. cbn [fst snd] in J2. unfold map_args_to_fields in *.
    destruct (walk_names _ _ _ _ _ _ J2) as (_ & r2 & E2 & R2). destruct (walk_names _ _ _ _ _ _ I) as (_ & r1 & E1 & R1). assert (E3 : (k ++ r1 = k2 ++ r2)%string) by congruence.
    destruct (app_cases _ _ _ _ E3) as [(s & Ek & X)|(s & Ek & X)].
    - destruct (vars_split _ _ _ R1 X R2) as [->|(a' & ->)].
      + rewrite str_app_nil_r in Ek. subst k2. rewrite (to_refl scmp _ scmp_order) in K2. discriminate.
      + destruct Ap as [Y|Y]; [|exact (Y _ a' K2' Ek)].
        assert (r1 = "") as Z by (apply (str_app_inv_head k); rewrite str_app_nil_r; congruence). rewrite Z in X. discriminate.
    - apply (scmp_prefix k2 s). rewrite <- Ek. rewrite (to_anti _ scmp_order), K2. reflexivity.
  Qed.
  Lemma ins_from {V} (l : list (string * V)) k v : forall acc, oget scmp k (ins_all l acc) = Some v -> In (k, v) l \/ oget scmp k acc = Some v.
  Proof.
    induction l as [|[a b] l IH]; intros acc H; [now right|]. cbn in H. apply IH in H. destruct H as [H|H]; [left; now right|].
    destruct (string_dec a k) as [->|N]; [rewrite oget_same in H; injection H as ->; left; now left|]. rewrite oget_other in H by congruence. now right.
  Qed.

  Section Final.
    Hypothesis sorted_types : osorted scmp types.
    Variable ts' : list (string * gtype).
    Hypothesis result : visit types unions = Some ts'.
    Lemma visit_ok : exists st, ts' = us_types st /\ wf st /\ (forall x, plain_name x -> oget scmp x types = None -> oget scmp x (us_types st) = None) /\
      forall n g, oget scmp n types = Some g -> visited_type st n g.
    Proof.
      unfold visit in result. destruct (visit_types types unions types _) as [st|] eqn:V; [|discriminate]. cbn in result. injection result as <-.
      destruct (visit_types_ok _ _ _ V) as (_ & Y2 & _ & Y4 & Y5).
      - constructor; cbn; intros; discriminate.
      - intros m [].
      - auto.
      - now apply (osorted_nodup scmp scmp_order).
      - exists st. split; [reflexivity|]. split; [exact Y2|]. split.
        + intros x P N. rewrite Y5; [reflexivity|exact P|]. now apply oget_nokey.
        + intros n g G. apply Y4. now apply (oget_in scmp scmp_order).
    Qed.
    Lemma arguments_ok leaf T g k f : oget scmp T types = Some g -> oget scmp k (t_fields g) = Some f -> NoDup (map fst (f_args f)) ->
      (forall x a, In (x, a) (f_args f) -> tame types unions (arg_type a)) -> apart g k ->
      exists g' variants, oget scmp T ts' = Some g' /\ NoDup (map fst variants) /\
        (forall k' f', In (k', f') variants -> oget scmp k' (t_fields g') = Some f' /\ variant_name k k' /\ field_variant f f' /\
          forall x a, In (x, a) (f_args f') -> union_free ts' unions (type_name (arg_type a))) /\
        forall vals, args_fit leaf types unions f vals <-> exists k' f', In (k', f') variants /\ args_fit leaf ts' unions f' vals.
    Proof.
      intros G F N Ta Ap. destruct visit_ok as (st & -> & W & Pl & Va). destruct (Va _ _ G) as (L & L1 & L2 & L3).
      assert (Sf := sorted_fields _ _ G).
      assert (Mk : forall vs, In ((k, f), vs) L -> vs = map_args_to_fields st k f /\ forall x a, In (x, a) (f_args f) -> finished st (type_name (arg_type a))).
      { intros vs I. destruct (L3 _ _ I) as (stx & -> & Gr & Wx & Fx). cbn [fst snd] in *.
        assert (Fa : forall x a, In (x, a) (f_args f) -> finished stx (type_name (arg_type a))) by (intros x a J; eapply Fx; eauto; apply tame_tn; eauto).
        split; [|intros x a J; apply (finished_grow stx); eauto]. unfold map_args_to_fields. symmetry. apply walk_eq. intros x a J. apply finished_types; eauto. }
      assert (Fa : forall x a, In (x, a) (f_args f) -> finished st (type_name (arg_type a))).
      { assert (I := oget_in scmp scmp_order _ _ _ F). rewrite <- L1 in I. apply in_map_iff in I. destruct I as ([kf vs] & E & J). cbn in E. subst kf. apply (Mk vs J). }
      assert (Oka : forall x a, In (x, a) (f_args f) -> ok leaf st (type_name (arg_type a))).
      { intros x a I. apply finished_ok; auto; [eapply Fa; eauto|apply tame_tn; eauto]. }
      eexists. exists (map_args_to_fields st k f). split; [exact L2|]. split; [apply walk_nodup|].
      assert (Snd : forall k' f', In (k', f') (map_args_to_fields st k f) -> exists args', Forall2 (choice st) (f_args f) args' /\ f' = set_args f args').
      { intros k' f' I. apply (walk_sound st (f_args f) [] k f k' f'); auto. }
      assert (Arg : forall x a y b, In (x, a) (f_args f) -> choice st (x, a) (y, b) -> x = y /\ union_free (us_types st) unions (type_name (arg_type b)) /\
        forall v, fits leaf (us_types st) unions (arg_type b) v -> fits leaf types unions (arg_type a) v).
      { intros x a y b I [C1 C2]. cbn [fst snd] in *. split; [exact C1|]. destruct (union_types st (type_name (arg_type a))) as [l|] eqn:U.
        - destruct C2 as (m & Im & ->). destruct (ok_some leaf st W _ _ (Ta _ _ I) (Oka _ _ I) U) as ((n0 & b0 & Et) & _ & Fr & Ev). split.
          + cbn [arg_type set_arg_type]. rewrite Et. cbn. now apply Fr.
          + intros v Fv. apply Ev. exists m. auto.
        - subst b. destruct (ok_none leaf st _ (Oka _ _ I) U) as [Fr Ev]. split; [exact Fr|]. intros v. apply Ev. }
      split.
      - intros k' f' I. split; [|split; [|split]].
        + cbn [t_fields set_fields]. eapply (field_at st g k f L L1 Sf L3 F); [exact I| |].
          * intros vs J. apply (Mk vs J).
          * right. exact Ap.
        + now apply (walk_names _ _ _ _ _ _ I).
        + destruct (Snd _ _ I) as (args' & Fc & ->). now apply (set_args_variant st).
        + destruct (Snd _ _ I) as (args' & Fc & ->). cbn. intros x a J. assert (exists y, In y (f_args f) /\ choice st y (x, a)) as ([y b] & Iy & C).
          { revert J. clear -Fc. induction Fc as [|u v l l' C Fc IH]; intros J; [contradiction|]. destruct J as [->|J]; [exists u; split; [now left|exact C]|].
            destruct (IH J) as (y & Iy & Cy). exists y. split; [now right|exact Cy]. }
          now destruct (Arg _ _ _ _ Iy C) as (_ & Fr & _).
      - intros vals. split.
        + intros Fv. assert (exists args', Forall2 (choice st) (f_args f) args' /\ forall x b, In (x, b) args' -> fits leaf (us_types st) unions (arg_type b) (member x vals)) as (args' & Fc & Fb).
          { assert (H : forall l, incl l (f_args f) -> exists args', Forall2 (choice st) l args' /\ forall x b, In (x, b) args' -> fits leaf (us_types st) unions (arg_type b) (member x vals)).
            { induction l as [|[x a] l IH]; intros Sub; [exists []; split; [constructor|intros ? ? []]|]. destruct IH as (args' & Fc & Fb); [intros z Z; apply Sub; now right|].
              assert (I : In (x, a) (f_args f)) by (apply Sub; now left). specialize (Fv x a I).
              assert (exists b, choice st (x, a) (x, b) /\ fits leaf (us_types st) unions (arg_type b) (member x vals)) as (b & Cb & Fx).
              { unfold choice. cbn [fst snd]. destruct (union_types st (type_name (arg_type a))) as [ms|] eqn:U.
                - destruct (ok_some leaf st W _ _ (Ta _ _ I) (Oka _ _ I) U) as (_ & _ & _ & Ev). apply Ev in Fv. destruct Fv as (m & Im & Fm).
                  exists (set_arg_type a (with_name m (arg_type a))). split; [split; [reflexivity|exists m; auto]|exact Fm].
                - exists a. split; [auto|]. now apply (ok_none leaf st _ (Oka _ _ I) U). }
              exists ((x, b) :: args'). split; [constructor; assumption|]. intros y c [E|J]; [injection E as <- <-; exact Fx|eauto]. }
            apply H. apply incl_refl. }
          destruct (walk_complete st _ _ Fc [] k f eq_refl N) as (x & I). exists x, (set_args f args'). split; [exact I|]. intros y b J. cbn in J. eauto.
        + intros (k' & f' & I & Fv) x a J. destruct (Snd _ _ I) as (args' & Fc & ->).
          assert (exists y, In y args' /\ choice st (x, a) y) as ([y b] & Iy & C).
          { revert J. clear -Fc. induction Fc as [|u v l l' C Fc IH]; intros J; [contradiction|]. destruct J as [->|J]; [exists v; split; [now left|exact C]|].
            destruct (IH J) as (y & Iy & Cy). exists y. split; [now right|exact Cy]. }
          destruct (Arg _ _ _ _ J C) as (<- & _ & Ev). apply Ev. apply Fv. exact Iy.
    Qed.
    Lemma others_ok T g : oget scmp T types = Some g -> exists g', oget scmp T ts' = Some g' /\ same_but_fields g g' /\
      (forall k f, oget scmp k (t_fields g) = Some f -> (forall x a, In (x, a) (f_args f) -> union_free types unions (type_name (arg_type a))) -> oget scmp k (t_fields g') = Some f) /\
      ((forall k f, oget scmp k (t_fields g) = Some f -> NoDup (map fst (f_args f))) ->
        forall k' f', oget scmp k' (t_fields g') = Some f' -> exists k f, oget scmp k (t_fields g) = Some f /\ variant_name k k' /\ field_variant f f').
    Proof.
      intros G. destruct visit_ok as (st & -> & W & Pl & Va). destruct (Va _ _ G) as (L & L1 & L2 & L3). assert (Sf := sorted_fields _ _ G).
      eexists. split; [exact L2|]. split; [repeat split|]. cbn [t_fields set_fields]. split.
      - intros k f F Fr.
        assert (Mk : forall stx, wf stx -> map_args_to_fields stx k f = [(k, f)]).
        { intros stx Wx. apply walk_free. intros x a I. unfold union_types. destruct (aget (type_name (arg_type a)) (us_presence stx)) as [[l|]|] eqn:P; try reflexivity.
          exfalso. eapply (wf_unions _ Wx); eauto. }
        eapply (field_at st g k f L L1 Sf L3 F k f st).
        + rewrite Mk by exact W. now left.
        + intros vs J. destruct (L3 _ _ J) as (stx & -> & _ & Wx & _). cbn [fst snd]. now rewrite !Mk.
        + now left.
      - intros Nd k' f' I. apply ins_from in I. destruct I as [I|I]; [|discriminate]. apply in_flat_map in I. destruct I as ([[k f] vs] & J & I). cbn [snd] in I.
        assert (K : In (k, f) (t_fields g)) by (rewrite <- L1; apply in_map_iff; exists ((k, f), vs); auto). apply (in_oget scmp scmp_order) in K; [|exact Sf].
        destruct (L3 _ _ J) as (stx & -> & _ & Wx & _). cbn [fst snd] in I. exists k, f. split; [exact K|]. split; [now apply (walk_names _ _ _ _ _ _ I)|].
        destruct (walk_sound stx (f_args f) [] k f k' f' eq_refl (Nd _ _ K) I) as (args' & Fc & ->). now apply (set_args_variant stx).
    Qed.
  End Final.
End Collect.

(** ** Names of types *)
Section Names.
  Variable types : list (string * gtype).
  Variable unions : list (string * gunion).
  Definition named (st : ustate) : Prop := forall x t, oget scmp x (us_types st) = Some t ->
    In x (map fst types) \/ exists n g r, oget scmp n types = Some g /\ x = (n ++ "__" ++ r)%string /\ same_but_fields g t.
  Lemma inner_same ufs : forall n g x t, In (x, t) (inner_create n g ufs) -> same_but_fields g t.
  Proof.
    induction ufs as [|[k l] ufs IH]; intros n g x t I; cbn [inner_create] in I.
    - destruct I as [I|[]]. injection I as <- <-. repeat split.
    - apply in_flat_map in I. destruct I as (it & _ & I). apply IH in I. exact I.
  Qed.
  Lemma each_keep {A} (P : ustate -> Prop) (f : A -> ustate -> option ustate) l : (forall x st st', f x st = Some st' -> P st -> P st') ->
    forall st st', each f l st = Some st' -> P st -> P st'.
  Proof.
    intros H. induction l as [|x l IH]; intros st st' E S; cbn in E; [now injection E as <-|]. destruct (f x st) as [st1|] eqn:F; [|discriminate]. eapply IH; eauto.
  Qed.
  Lemma collect_named fuel : forall n st st', collect_type types unions fuel n st = Some st' -> named st -> named st'.
  Proof.
    induction fuel as [|fuel IH]; intros n st st' H S; [discriminate|]. cbn [collect_type] in H.
    destruct (_ || _)%bool; [now injection H as <-|]. assert (Sv : named (visited st n)) by exact S.
    destruct (oget scmp n unions) as [u|].
    - destruct (each (collect_type types unions fuel) (u_types u) (visited st n)) as [st1|] eqn:E; [|discriminate]. injection H as <-.
      apply (each_keep named) in E; [exact E|intros; eapply IH; eauto|exact Sv].
    - destruct (oget scmp n types) as [g|] eqn:G; [|now injection H as <-].
      destruct (each (fun kf => collect_type types unions fuel (type_name (f_type (snd kf)))) (t_fields g) (visited st n)) as [st1|] eqn:E; [|discriminate].
      apply (each_keep named) in E; [|intros x; intros; eapply IH; eauto|exact Sv].
      destruct (union_fields st1 (t_fields g)) as [|uf ufs]; apply some_eq in H; subst st'; [exact E|].
      intros x t I. cbn [us_types extend_types present] in I. apply (ins_from (inner_create n g (uf :: ufs))) in I. destruct I as [I|I]; [|exact (E _ _ I)].
      right. assert (Sm := inner_same _ _ _ _ _ I). destruct (inner_names _ _ _ _ _ I) as (r & -> & R). destruct (R ltac:(discriminate)) as (r' & ->). eauto 6.
  Qed.
  Lemma visit_named ts' : visit types unions = Some ts' -> forall x t, oget scmp x ts' = Some t ->
    In x (map fst types) \/ exists n g r, oget scmp n types = Some g /\ x = (n ++ "__" ++ r)%string /\ same_but_fields g t.
  Proof.
    assert (Hf : forall l acc st fs st', visit_fields types unions l acc st = Some (fs, st') -> named st -> named st').
    { induction l as [|[k f] l IH]; intros acc st fs st' E S; cbn [visit_fields] in E; [now injection E as <- <-|].
      destruct (collect_args types unions f st) as [st1|] eqn:C; [|discriminate]. eapply IH; [exact E|]. unfold collect_args in C.
      apply (each_keep named) in C; [exact C|intros x; intros; eapply collect_named; eauto|exact S]. }
    assert (Ht : forall l st st', incl (map fst l) (map fst types) -> visit_types types unions l st = Some st' -> named st -> named st').
    { induction l as [|[n g] l IH]; intros st st' Sub E S; cbn [visit_types] in E; [now injection E as <-|].
      destruct (visit_fields types unions (t_fields g) [] st) as [[fs st1]|] eqn:V; [|discriminate]. eapply IH; [|exact E|].
      - intros x X. apply Sub. now right.
      - intros x t I. cbn in I. destruct (string_dec x n) as [->|N]; [left; apply Sub; now left|]. rewrite oget_other in I by congruence. eapply Hf; eauto. }
    unfold visit. destruct (visit_types types unions types _) as [st|] eqn:V; [|discriminate]. cbn. intros E. injection E as <-.
    exact (Ht _ _ _ (incl_refl _) V ltac:(intros x t I; discriminate)).
  Qed.
  Lemma visit_ends : visit types unions <> None.
  Proof.
    assert (Hf : forall l acc st, exists fs st', visit_fields types unions l acc st = Some (fs, st')).
    { induction l as [|[k f] l IH]; intros acc st; cbn [visit_fields]; [eauto|].
      assert (exists st1, collect_args types unions f st = Some st1) as (st1 & ->); [|apply IH].
      destruct (each_some (fun ka => collect_type types unions (fuel types unions) (type_name (arg_type (snd ka)))) (fun _ => True) (f_args f)) with (st := st) as (st1 & E & _);
        [|exact Logic.I|eauto]. intros ka st0 _ _. destruct (collect_ends types unions (fuel types unions) (type_name (arg_type (snd ka))) st0 (todo_fuel _ _ _)) as (st1 & -> & _). eauto. }
    assert (Ht : forall l st, exists st', visit_types types unions l st = Some st').
    { induction l as [|[n g] l IH]; intros st; cbn [visit_types]; [eauto|]. destruct (Hf (t_fields g) [] st) as (fs & st1 & ->). apply IH. }
    unfold visit. destruct (Ht types {| us_presence := []; us_visited := []; us_types := [] |}) as (st & ->). discriminate.
  Qed.
End Names.
