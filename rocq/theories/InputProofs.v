(** Proofs about arguments (C38). *)
From Coq Require Import String Ascii ZArith NArith Bool Arith Lia List.
From Verif Require Import Base BaseFacts JsonModel TypeModel BuilderModel InputModel InputSpec.
Import ListNotations.
Open Scope list_scope.
Open Scope string_scope.

(** *** Variables *)
Section QInd.
  Variable P : qvalue -> Prop.
  Hypothesis Hvar : forall n, P (QVar n).
  Hypothesis Hnull : P QNull.
  Hypothesis Hbool : forall b, P (QBool b).
  Hypothesis Hnum : forall n, P (QNum n).
  Hypothesis Hstr : forall s, P (QStr s).
  Hypothesis Henum : forall s, P (QEnum s).
  Hypothesis Hlist : forall l, Forall P l -> P (QList l).
  Hypothesis Hobj : forall m, Forall (fun kv => P (snd kv)) m -> P (QObj m).
  Fixpoint q_ind (q : qvalue) : P q :=
    match q with
    | QVar n => Hvar n | QNull => Hnull | QBool b => Hbool b | QNum n => Hnum n | QStr s => Hstr s | QEnum s => Henum s
    | QList l => Hlist l ((fix go (l : list qvalue) : Forall P l :=
        match l with [] => Forall_nil _ | q :: t => Forall_cons _ (q_ind q) (go t) end) l)
    | QObj m => Hobj m ((fix go (m : list (string * qvalue)) : Forall (fun kv => P (snd kv)) m :=
        match m with [] => Forall_nil _ | kv :: t => Forall_cons _ (q_ind (snd kv)) (go t) end) m)
    end.
End QInd.

Lemma resolve_list vars l : resolve_value vars (QList l) = rmap VList (mapM (resolve_value vars) l).
Proof.
  cbn [resolve_value]. f_equal. induction l as [|q l IH]; cbn [mapM]; [auto|]. rewrite IH.
  destruct (resolve_value vars q); cbn; auto.
Qed.
Lemma resolve_obj vars m : resolve_value vars (QObj m) =
  rmap VObj (mapM (fun kq => rmap (fun v => (fst kq, v)) (resolve_value vars (snd kq))) m).
Proof.
  cbn [resolve_value]. f_equal. induction m as [|[k q] l IH]; cbn [mapM fst snd]; [auto|]. rewrite IH.
  destruct (resolve_value vars q); cbn; auto.
Qed.
Lemma mapM_ok {A B E} (f : A -> result B E) l bs : mapM f l = Ok bs <-> Forall2 (fun a b => f a = Ok b) l bs.
Proof.
  revert bs. induction l as [|a l IH]; intros bs; cbn.
  - split; [intros H; injection H as <-; constructor|intros H; inversion H; auto].
  - destruct (f a) as [b|e] eqn:F.
    + destruct (mapM f l) as [bs'|e].
      * split.
        -- intros H. injection H as <-. constructor; [exact F|]. now apply IH.
        -- intros H. inversion H as [|? b' ? bs'' H1 H2]; subst. apply IH in H2. congruence.
      * split; [discriminate|]. intros H. inversion H as [|? b' ? bs'' H1 H2]; subst. apply IH in H2. discriminate.
    + split; [discriminate|]. intros H. inversion H; congruence.
Qed.
Lemma mapM_err {A B E} (f : A -> result B E) l e : mapM f l = Err e -> exists a, In a l /\ f a = Err e.
Proof.
  induction l as [|a l IH]; cbn; [discriminate|]. destruct (f a) as [b|e'] eqn:F.
  - destruct (mapM f l); [discriminate|]. intros H. destruct IH as (x & I & X); [congruence|]. exists x. auto.
  - intros H. injection H as <-. exists a. auto.
Qed.
Lemma mapM_total {A B E} (f : A -> result B E) l : (forall a, In a l -> exists b, f a = Ok b) -> exists bs, mapM f l = Ok bs.
Proof.
  induction l as [|a l IH]; cbn; intros H; [eauto|].
  destruct (H a (or_introl eq_refl)) as (b & ->). destruct IH as (bs & ->); eauto.
Qed.

Lemma resolve_sound vars q : forall v, resolve_value vars q = Ok v <-> instance vars q v.
Proof.
  induction q as [n| |b|n|s|s|l IH|m IH] using q_ind; intros v.
  - cbn. destruct (aget n vars) as [w|] eqn:A.
    + split; [intros H; injection H as <-; now constructor|intros H; inversion H; congruence].
    + split; [discriminate|intros H; inversion H; congruence].
  - cbn. split; [intros H; injection H as <-; constructor|intros H; inversion H; auto].
  - cbn. split; [intros H; injection H as <-; constructor|intros H; inversion H; auto].
  - cbn. split; [intros H; injection H as <-; constructor|intros H; inversion H; auto].
  - cbn. split; [intros H; injection H as <-; constructor|intros H; inversion H; auto].
  - cbn. split; [intros H; injection H as <-; constructor|intros H; inversion H; auto].
  - rewrite resolve_list.
    assert (X : forall bs, mapM (resolve_value vars) l = Ok bs <-> Forall2 (instance vars) l bs).
    { intros bs. rewrite mapM_ok. revert bs. induction IH as [|q l Hq Hl IHl]; intros bs.
      - split; intros H; inversion H; constructor.
      - split; intros H; inversion H; subst; constructor; try apply Hq; try apply IHl; auto. }
    destruct (mapM (resolve_value vars) l) as [bs|e]; cbn.
    + split; [intros H; injection H as <-; constructor; now apply X|].
      intros H. inversion H as [| | | | | |? l' F|]; subst. apply X in F. congruence.
    + split; [discriminate|]. intros H. inversion H as [| | | | | |? l' F|]; subst. apply X in F. discriminate.
  - rewrite resolve_obj.
    assert (X : forall bs, mapM (fun kq => rmap (fun v => (fst kq, v)) (resolve_value vars (snd kq))) m = Ok bs <->
                           Forall2 (fun a b => fst a = fst b /\ instance vars (snd a) (snd b)) m bs).
    { intros bs. rewrite mapM_ok. revert bs. induction IH as [|[k q] l Hq Hl IHl]; intros bs.
      - split; intros H; inversion H; constructor.
      - cbn [snd] in Hq. split; intros H; inversion H as [|? [k' w] ? bs' H1 H2]; subst; cbn [fst snd] in *;
          (constructor; [|now apply IHl]); cbn [fst snd].
        + destruct (resolve_value vars q) as [x|]; [|discriminate]. injection H1 as <- <-. split; [auto|]. now apply Hq.
        + destruct H1 as [-> H1]. apply Hq in H1. now rewrite H1. }
    destruct (mapM _ m) as [bs|e]; cbn.
    + split; [intros H; injection H as <-; constructor; now apply X|].
      intros H. inversion H as [| | | | | | |? l' F]; subst. apply X in F. congruence.
    + split; [discriminate|]. intros H. inversion H as [| | | | | | |? l' F]; subst. apply X in F. discriminate.
Qed.

Lemma resolve_missing vars q : forall e, resolve_value vars q = Err e ->
  exists n, e = VariableIsNotFound n /\ mentions n q /\ aget n vars = None.
Proof.
  induction q as [n| |b|n|s|s|l IH|m IH] using q_ind; intros e; try (cbn; discriminate).
  - cbn. destruct (aget n vars) eqn:A; [discriminate|]. intros H. injection H as <-. exists n. repeat split; auto. constructor.
  - rewrite resolve_list. destruct (mapM (resolve_value vars) l) as [|e'] eqn:M; cbn; [discriminate|]. intros H. injection H as ->.
    apply mapM_err in M as (q & I & Q). rewrite Forall_forall in IH. destruct (IH q I e Q) as (n & A & B & C).
    exists n. repeat split; auto. econstructor; eauto.
  - rewrite resolve_obj. destruct (mapM _ m) as [|e'] eqn:M; cbn; [discriminate|]. intros H. injection H as ->.
    apply mapM_err in M as ([k q] & I & Q). cbn [fst snd] in Q. rewrite Forall_forall in IH.
    destruct (resolve_value vars q) as [|e'] eqn:R; [discriminate|]. injection Q as ->.
    destruct (IH (k, q) I e R) as (n & A & B & C). exists n. repeat split; auto. econstructor; eauto.
Qed.
Lemma mentions_missing vars q n : mentions n q -> aget n vars = None -> exists e, resolve_value vars q = Err e.
Proof.
  induction 1 as [|q l I M IH|k q m I M IH]; intros A.
  - cbn. rewrite A. eauto.
  - destruct (resolve_value vars (QList l)) as [v|e] eqn:R; [|eauto]. exfalso.
    apply resolve_sound in R. inversion R as [| | | | | |? l' F|]; subst. destruct (IH A) as (e & E).
    clear -F I E. induction F as [|x y a b X F IH]; [destruct I|]. destruct I as [->|I]; [|auto].
    apply resolve_sound in X. congruence.
  - destruct (resolve_value vars (QObj m)) as [v|e] eqn:R; [|eauto]. exfalso.
    apply resolve_sound in R. inversion R as [| | | | | | |? l' F]; subst. destruct (IH A) as (e & E).
    clear -F I E. induction F as [|x y a b [X X'] F IH]; [destruct I|]. destruct I as [->|I]; [|auto].
    apply resolve_sound in X'. cbn in X'. congruence.
Qed.

(** *** Arguments *)
Section Args.
  Variable inputs : string -> option (list (string * input_field)).
  Notation parse := (parse_arg inputs).
  Notation reader := (string -> string -> typ -> option value -> option value -> result (option value) input_error).

  Lemma choose_cases p a ty d v :
    match choose p a ty d v with
    | Ok None => v = None /\ d = None /\ is_nullable ty = true
    | Ok (Some w) => (v = Some w /\ (w = VNull -> is_nullable ty = true)) \/ (v = None /\ d = Some w)
    | Err e => e = ArgumentIsRequired a p /\ is_nullable ty = false /\ (v = Some VNull \/ v = None /\ d = None)
    end.
  Proof.
    unfold choose. destruct (is_nullable ty) eqn:N, v as [w|]; cbn.
    - left. auto.
    - destruct d; auto.
    - destruct w; cbn; try (left; split; [auto|discriminate]). auto.
    - destruct d; auto.
  Qed.

  (** **** More steps never change an outcome. *)
  Definition agrees (r1 r2 : reader) : Prop :=
    forall p a ty d v, r1 p a ty d v <> Err Endless -> r2 p a ty d v = r1 p a ty d v.

  Lemma fields_agree r1 r2 : agrees r1 r2 -> forall p fs m, parse_fields r1 p fs m <> Err Endless ->
    parse_fields r2 p fs m = parse_fields r1 p fs m.
  Proof.
    intros A p. induction fs as [|[n f] fs IH]; intros m H; cbn [parse_fields] in *; [auto|].
    rewrite A; [|intros E; rewrite E in H; congruence].
    destruct (r1 p n (if_type f) (if_default f) (aget n m)) as [[w|]|e]; auto.
  Qed.
  Lemma items_agree r1 r2 : agrees r1 r2 -> forall p ty l i, parse_items r1 p ty i l <> Err Endless ->
    parse_items r2 p ty i l = parse_items r1 p ty i l.
  Proof.
    intros A p ty. induction l as [|x l IH]; intros i H; cbn [parse_items] in *; [auto|].
    rewrite A; [|intros E; rewrite E in H; congruence].
    destruct (r1 (p ++ "." ++ nat_to_string i) (nat_to_string i) ty None (Some x)) as [w|e]; [|auto].
    rewrite IH; [auto|]. intros E. rewrite E in H. cbn in H. congruence.
  Qed.
  Lemma parse_step : forall n, agrees (parse n) (parse (S n)).
  Proof.
    induction n as [|n IH]; intros p a ty d v H; [cbn in H; congruence|].
    set (k := S n) in IH |- * at 1. cbn [parse_arg] in *.
    destruct (choose p a ty d v) as [[w|]|e]; auto. destruct (inputs (type_name ty)) as [def|]; auto.
    destruct w; auto.
    - rewrite (items_agree (parse n) (parse k)); auto. intros E. rewrite E in H. cbn in H. congruence.
    - rewrite (fields_agree (parse n) (parse k)); auto. intros E. rewrite E in H. cbn in H. congruence.
  Qed.
  Lemma parse_more n k p a ty d v : n <= k -> parse n p a ty d v <> Err Endless -> parse k p a ty d v = parse n p a ty d v.
  Proof.
    induction 1 as [|k L IH]; intros H; [auto|]. rewrite parse_step; [auto|]. rewrite IH; auto.
  Qed.
  Lemma resolved_fun p a ty d v r1 r2 : resolved inputs p a ty d v r1 -> resolved inputs p a ty d v r2 -> r1 = r2.
  Proof.
    intros (n & N) (k & K). assert (A := parse_more n (max n k) p a ty d v). assert (B := parse_more k (max n k) p a ty d v).
    rewrite N in A. rewrite K in B. rewrite B in A by (try lia; discriminate).
    specialize (A ltac:(lia) ltac:(discriminate)). congruence.
  Qed.

  (** **** The loops *)
  Definition keeps (r : reader) : Prop := forall p a ty d v w, r p a ty d (Some v) = Ok w -> exists x, w = Some x.

  Lemma fields_ok (r : reader) p : keeps r -> forall fs m m', parse_fields r p fs m = Ok m' -> NoDup (map fst fs) ->
    (forall k, ~ In k (map fst fs) -> aget k m' = aget k m) /\
    (forall k f, In (k, f) fs -> r p k (if_type f) (if_default f) (aget k m) = Ok (aget k m')) /\
    (exists new, akeys m' = (akeys m ++ new)%list).
  Proof.
    intros K. induction fs as [|[n f] fs IH]; cbn [parse_fields map fst]; intros m m' H D.
    - injection H as <-. refine (conj _ (conj _ _)); [auto|intros k f []|exists []; now rewrite app_nil_r].
    - apply NoDup_cons_iff in D as [N D].
      destruct (r p n (if_type f) (if_default f) (aget n m)) as [[w|]|e] eqn:R; [| |discriminate].
      + destruct (IH _ _ H D) as (A & B & C). refine (conj _ (conj _ _)).
        * intros k Nk. cbn in Nk. rewrite A by tauto. apply aget_aset_other. intros ->. tauto.
        * intros k g [I|I].
          -- injection I as <- <-. rewrite A by exact N. now rewrite aget_aset_same.
          -- rewrite <- (B k g I). rewrite aget_aset_other; [auto|]. intros ->. apply N. apply in_map_iff. now exists (n, g).
        * destruct C as (new & C). destruct (aget n m) as [x|] eqn:G.
          -- exists new. rewrite C. f_equal. apply akeys_aset_in. eapply aget_Some_key; eauto.
          -- exists (n :: new). rewrite C. rewrite akeys_aset_notin by (now apply aget_None). rewrite <- app_assoc. reflexivity.
      + destruct (IH _ _ H D) as (A & B & C). refine (conj _ (conj _ _)); auto.
        * intros k Nk. cbn in Nk. apply A. tauto.
        * intros k g [I|I]; [|auto]. injection I as <- <-. rewrite A by exact N.
          destruct (aget n m) as [x|] eqn:G; [|exact R]. destruct (K _ _ _ _ _ _ R). discriminate.
  Qed.

  Lemma items_ok (r : reader) p ty : keeps r -> forall l i l', parse_items r p ty i l = Ok l' ->
    Forall2 (fun x y => exists j, r (p ++ "." ++ nat_to_string j) (nat_to_string j) ty None (Some x) = Ok (Some y)) l l'.
  Proof.
    intros K. induction l as [|x l IH]; intros i l' H; cbn [parse_items] in H.
    - injection H as <-. constructor.
    - destruct (r _ _ ty None (Some x)) as [w|e] eqn:R; [|discriminate].
      destruct (K _ _ _ _ _ _ R) as (y & ->). destruct (parse_items r p ty (S i) l) as [t|e] eqn:T; [|discriminate].
      injection H as <-. constructor; [eauto|]. eapply IH; eauto.
  Qed.

  Lemma parse_keeps n : keeps (parse n).
  Proof.
    intros p a ty d v w. destruct n; cbn [parse_arg]; [discriminate|].
    assert (C := choose_cases p a ty d (Some v)). destruct (choose p a ty d (Some v)) as [[x|]|e]; [| |discriminate].
    - destruct (inputs (type_name ty)) as [def|]; [|intros H; injection H as <-; eauto].
      destruct x; try (intros H; injection H as <-; eauto).
      + destruct (parse_items _ _ _ _ _); [|discriminate]. cbn. intros H; injection H as <-; eauto.
      + destruct (parse_fields _ _ _ _); [|discriminate]. cbn. intros H; injection H as <-; eauto.
    - destruct C as [C _]. discriminate.
  Qed.

  Hypothesis distinct : names_distinct inputs.

  (** **** Given values are only extended. *)
  Lemma value_extended : forall n p a ty d v w, parse n p a ty d (Some v) = Ok (Some w) -> extended v w.
  Proof.
    induction n as [|n IH]; intros p a ty d v w H; [discriminate|]. cbn [parse_arg] in H.
    assert (C := choose_cases p a ty d (Some v)). destruct (choose p a ty d (Some v)) as [[x|]|e]; [|discriminate|discriminate].
    destruct C as [[C _]|[C _]]; [|discriminate]. injection C as <-.
    destruct (inputs (type_name ty)) as [def|] eqn:I; [|injection H as <-; apply ext_same].
    destruct v; try (injection H as <-; apply ext_same).
    - destruct (parse_items _ _ _ _ _) as [l'|] eqn:L; [|discriminate]. injection H as <-. apply ext_list.
      apply (items_ok _ _ _ (parse_keeps n)) in L. clear -L IH. induction L as [|x y l l' (j & X) L IHL]; constructor; auto.
      eapply IH. exact X.
    - destruct (parse_fields _ _ _ _) as [m'|] eqn:L; [|discriminate]. injection H as <-.
      destruct (fields_ok _ _ (parse_keeps n) _ _ _ L (distinct _ _ I)) as (A & B & C). apply ext_obj; [|exact C].
      intros k v G. destruct (in_dec string_dec k (map fst def)) as [J|J].
      + apply in_map_iff in J as ([k' f] & E & J). cbn in E. subst k'. specialize (B k f J). rewrite G in B.
        destruct (parse_keeps n _ _ _ _ _ _ B) as (y & Y). rewrite Y in B. exists y. split; [auto|]. eapply IH. exact B.
      + rewrite A by exact J. rewrite G. exists v. split; [auto|apply ext_same].
  Qed.

  (** **** What is resolved is filled. *)
  Hypothesis defaults : defaults_non_null inputs.

  Lemma parse_non_null n p a ty d v r : parse n p a ty d v = Ok r -> is_nullable ty = false -> d <> Some VNull ->
    exists w, r = Some w /\ w <> VNull.
  Proof.
    destruct n; cbn [parse_arg]; [discriminate|]. intros H N D.
    assert (C := choose_cases p a ty d v). destruct (choose p a ty d v) as [[x|]|e]; [| |discriminate].
    - assert (X : x <> VNull).
      { destruct C as [[_ C]|[_ C]]; [intros E; specialize (C E); congruence|congruence]. }
      destruct (inputs (type_name ty)) as [def|]; [|injection H as <-; eauto].
      destruct x; try (injection H as <-; eauto).
      + destruct (parse_items _ _ _ _ _); [|discriminate]. injection H as <-. eexists; split; [eauto|discriminate].
      + destruct (parse_fields _ _ _ _); [|discriminate]. injection H as <-. eexists; split; [eauto|discriminate].
    - destruct C as (_ & _ & C). congruence.
  Qed.

  Lemma parse_none n p a ty d v : parse n p a ty d v = Ok None -> v = None /\ d = None /\ is_nullable ty = true.
  Proof.
    destruct n; cbn [parse_arg]; [discriminate|]. intros H.
    assert (C := choose_cases p a ty d v). destruct (choose p a ty d v) as [[x|]|e]; [|exact C|discriminate].
    destruct (inputs (type_name ty)) as [def|]; [|discriminate]. destruct x; try discriminate.
    - destruct (parse_items _ _ _ _ _); discriminate.
    - destruct (parse_fields _ _ _ _); discriminate.
  Qed.

  Lemma value_filled : forall n p a ty d v w, parse n p a ty d v = Ok (Some w) -> filled inputs (type_name ty) w.
  Proof.
    induction n as [|n IH]; intros p a ty d v w H; [discriminate|]. cbn [parse_arg] in H.
    destruct (choose p a ty d v) as [[x|]|e]; [|discriminate|discriminate].
    destruct (inputs (type_name ty)) as [def|] eqn:I; [|injection H as <-; now apply filled_other].
    destruct x; try (injection H as <-; apply filled_atom; discriminate).
    - destruct (parse_items _ _ _ _ _) as [l'|] eqn:L; [|discriminate]. injection H as <-. apply filled_list.
      apply (items_ok _ _ _ (parse_keeps n)) in L. clear -L IH. induction L as [|x y l l' (j & X) L IHL]; intros z; [intros []|].
      intros [<-|J]; [|auto]. eapply IH. exact X.
    - destruct (parse_fields _ _ _ _) as [m'|] eqn:L; [|discriminate]. injection H as <-.
      destruct (fields_ok _ _ (parse_keeps n) _ _ _ L (distinct _ _ I)) as (A & B & C). eapply filled_obj; [exact I| |].
      + intros k f J. specialize (B k f J). destruct (aget k m') as [y|] eqn:G.
        * intros ->. destruct (is_nullable (if_type f)) eqn:N; [auto|].
          destruct (parse_non_null _ _ _ _ _ _ _ B N (defaults _ _ _ _ I J N)) as (w & W & Z). congruence.
        * apply parse_none in B. tauto.
      + intros k f y J G. specialize (B k f J). rewrite G in B. eapply IH. exact B.
  Qed.

  (** **** Defaults *)
  Lemma absent_takes_default n p a ty d d' : d <> VNull ->
    parse n p a ty (Some d) None = parse n p a ty d' (Some d).
  Proof.
    intros N. destruct n; cbn [parse_arg]; [auto|].
    assert (X : choose p a ty (Some d) None = choose p a ty d' (Some d)); [|now rewrite X].
    unfold choose. destruct (is_nullable ty); cbn; [auto|]. destruct d; congruence.
  Qed.

  Lemma members_resolved n p a ty d m m' def : inputs (type_name ty) = Some def ->
    parse n p a ty d (Some (VObj m)) = Ok (Some (VObj m')) ->
    (forall k f, In (k, f) def -> resolved inputs (p ++ "." ++ a) k (if_type f) (if_default f) (aget k m) (aget k m')) /\
    (forall k, ~ In k (map fst def) -> aget k m' = aget k m).
  Proof.
    intros I H. destruct n as [|n]; [discriminate|]. cbn [parse_arg] in H.
    assert (C := choose_cases p a ty d (Some (VObj m))). destruct (choose p a ty d (Some (VObj m))) as [[x|]|e]; [|discriminate|discriminate].
    destruct C as [[C _]|[C _]]; [|discriminate]. injection C as <-. rewrite I in H.
    destruct (parse_fields _ _ _ _) as [m''|] eqn:L; [|discriminate]. cbn in H. injection H as ->.
    destruct (fields_ok _ _ (parse_keeps n) _ _ _ L (distinct _ _ I)) as (A & B & C). split; [|exact A].
    intros k f J. exists n. auto.
  Qed.

  (** **** What is accepted *)
  Lemma parse_accepted : forall n p a ty d v r, parse n p a ty d v = Ok r -> accepted inputs ty d v.
  Proof.
    induction n as [|n IH]; intros p a ty d v r H; [discriminate|]. cbn [parse_arg] in H.
    assert (C := choose_cases p a ty d v). destruct (choose p a ty d v) as [[x|]|e]; [| |discriminate].
    - assert (V : accepted_value inputs ty x).
      { destruct (inputs (type_name ty)) as [def|] eqn:I; [|now apply acc_other].
        destruct x; try (apply acc_atom; discriminate).
        - destruct (parse_items _ _ _ _ _) as [l'|] eqn:L; [|discriminate]. apply acc_list.
          apply (items_ok _ _ _ (parse_keeps n)) in L. clear -L IH.
          induction L as [|x y l l' (j & X) L IHL]; intros z; [intros []|]. intros [<-|J]; [|auto]. eapply IH. exact X.
        - destruct (parse_fields _ _ _ _) as [m'|] eqn:L; [|discriminate].
          destruct (fields_ok _ _ (parse_keeps n) _ _ _ L (distinct _ _ I)) as (A & B & C'). eapply acc_obj; [exact I|].
          intros k f J. eapply IH. exact (B k f J). }
      destruct C as [[-> C]|[-> ->]]; [now apply acc_given|now apply acc_default].
    - destruct C as (-> & -> & C). now apply acc_nothing.
  Qed.

  Definition ends ty d v : Prop := forall p a, exists n r, parse n p a ty d v = Ok r.

  Lemma fields_end fs : forall p m, (forall k f, In (k, f) fs -> forall p, exists n r, parse n p k (if_type f) (if_default f) (aget k m) = Ok r) ->
    NoDup (map fst fs) -> exists n m', forall k, n <= k -> parse_fields (parse k) p fs m = Ok m'.
  Proof.
    induction fs as [|[n f] fs IH]; intros p m H D; cbn [map fst] in D.
    - exists 0, m. auto.
    - apply NoDup_cons_iff in D as [N D]. destruct (H n f (or_introl eq_refl) p) as (n1 & r & R).
      set (m1 := match r with Some w => aset n w m | None => m end).
      assert (G : forall k, k <> n -> aget k m1 = aget k m).
      { intros k Nk. unfold m1. destruct r; [|auto]. now apply aget_aset_other. }
      destruct (IH p m1) as (n2 & m' & M).
      + intros k g J q. rewrite G; [apply H; now right|]. intros ->. apply N. apply in_map_iff. now exists (n, g).
      + exact D.
      + exists (max n1 n2), m'. intros k L. cbn [parse_fields].
        rewrite (parse_more n1 k) by (try lia; rewrite R; discriminate). rewrite R. unfold m1 in M.
        destruct r; apply M; lia.
  Qed.
  Lemma items_end ty l : (forall x, In x l -> ends ty None (Some x)) -> forall p i,
    exists n l', forall k, n <= k -> parse_items (parse k) p ty i l = Ok l'.
  Proof.
    induction l as [|x l IH]; intros H p i.
    - exists 0, []. auto.
    - destruct (H x (or_introl eq_refl) (p ++ "." ++ nat_to_string i) (nat_to_string i)) as (n1 & r & R).
      destruct (IH (fun y J => H y (or_intror J)) p (S i)) as (n2 & l' & L').
      exists (max n1 n2). eexists. intros k L. cbn [parse_items].
      rewrite (parse_more n1 k) by (try lia; rewrite R; discriminate). rewrite R. rewrite L' by lia. reflexivity.
  Qed.

  Scheme accepted_ind2 := Induction for accepted Sort Prop
    with accepted_value_ind2 := Induction for accepted_value Sort Prop.

  Definition value_ends ty (x : value) : Prop :=
    forall p a d v, choose p a ty d v = Ok (Some x) -> exists n r, parse n p a ty d v = Ok r.

  Lemma accepted_ends ty d v : accepted inputs ty d v -> ends ty d v.
  Proof.
    intros A. refine (accepted_ind2 inputs (fun ty d v _ => ends ty d v) (fun ty x _ => value_ends ty x) _ _ _ _ _ _ _ ty d v A); clear ty d v A.
    - intros ty N p a. exists 1, None. cbn. unfold choose. rewrite N. reflexivity.
    - intros ty d _ IH p a. apply IH. unfold choose. destruct (is_nullable ty); reflexivity.
    - intros ty d v N _ IH p a. apply IH. unfold choose. destruct (is_nullable ty) eqn:X; cbn; [auto|].
      destruct v; cbn; auto. specialize (N eq_refl). discriminate.
    - intros ty x I p a d v C. exists 1, (Some x). cbn [parse_arg]. now rewrite C, I.
    - intros ty x NL NO p a d v C. exists 1, (Some x). cbn [parse_arg]. rewrite C. destruct (inputs (type_name ty)); [|auto].
      destruct x as [| | | | |l0|m0]; auto; [now destruct (NL l0)|now destruct (NO m0)].
    - intros ty l H IH p a d v C. destruct (items_end ty l IH (p ++ "." ++ a) 0) as (n & l' & L).
      destruct (inputs (type_name ty)) as [def|] eqn:I.
      + exists (S n), (Some (VList l')). cbn [parse_arg]. rewrite C, I. rewrite L by lia. reflexivity.
      + exists 1, (Some (VList l)). cbn [parse_arg]. now rewrite C, I.
    - intros ty def m I H IH p a d v C.
      destruct (fields_end def (p ++ "." ++ a) m (fun k f J q => IH k f J q k)) as (n & m' & M); [exact (distinct _ _ I)|].
      exists (S n), (Some (VObj m')). cbn [parse_arg]. rewrite C, I. rewrite M by lia. reflexivity.
  Qed.

  Lemma accepts_exactly p a ty d v : (exists r, resolved inputs p a ty d v r) <-> accepted inputs ty d v.
  Proof.
    split.
    - intros (r & n & H). eapply parse_accepted. exact H.
    - intros A. destruct (accepted_ends _ _ _ A p a) as (n & r & H). exists r, n. exact H.
  Qed.

  (** **** It ends if defaults bring in no objects or lists. *)
  Fixpoint depth (v : value) : nat :=
    match v with
    | VList l => S ((fix go (l : list value) : nat := match l with [] => 0 | x :: t => max (depth x) (go t) end) l)
    | VObj m => S ((fix go (m : list (string * value)) : nat := match m with [] => 0 | (_, x) :: t => max (depth x) (go t) end) m)
    | _ => 1
    end.
  Lemma depth_item x l : In x l -> depth x < depth (VList l).
  Proof.
    intros I. cbn [depth]. induction l as [|y l IH]; [destruct I|]. destruct I as [->|I]; [lia|]. specialize (IH I). lia.
  Qed.
  Lemma depth_member k x m : aget k m = Some x -> depth x < depth (VObj m).
  Proof.
    intros G. apply aget_In in G. cbn [depth]. induction m as [|[j y] m IH]; [destruct G|].
    destruct G as [G|G]; [injection G as -> ->; lia|]. specialize (IH G). lia.
  Qed.
  Definition odepth (v : option value) : nat := match v with Some v => depth v | None => 0 end.

  Hypothesis flat_d : flat_defaults inputs.
  Lemma flat_ends : forall n p a ty d v, (inputs (type_name ty) <> None -> forall w, d = Some w -> flat w) ->
    odepth v < n -> parse n p a ty d v <> Err Endless.
  Proof.
    induction n as [|n IH]; intros p a ty d v F L; [lia|]. cbn [parse_arg].
    assert (C := choose_cases p a ty d v). destruct (choose p a ty d v) as [[x|]|e]; [|discriminate|destruct C; congruence].
    destruct (inputs (type_name ty)) as [def|] eqn:I; [|discriminate].
    destruct C as [[-> C]|[-> ->]].
    - cbn [odepth] in L. destruct x; try discriminate.
      + assert (X : forall q i, parse_items (parse n) q ty i l <> Err Endless).
        { assert (Y : forall x, In x l -> depth x < n) by (intros x J; apply depth_item in J; lia). clear L.
          induction l as [|x l IHl]; intros q i; cbn [parse_items]; [discriminate|].
          assert (P := IH (q ++ "." ++ nat_to_string i) (nat_to_string i) ty None (Some x)).
          destruct (parse n _ _ ty None (Some x)) as [w|e] eqn:R.
          - specialize (IHl ltac:(intros N; discriminate) (fun y J => Y y (or_intror J)) q (S i)). destruct (parse_items _ _ _ _ _); cbn; congruence.
          - intros E. injection E as ->. apply P; [intros _ w W; discriminate|exact (Y x (or_introl eq_refl))|reflexivity]. }
        intros E. apply (X (p ++ "." ++ a) 0). destruct (parse_items _ _ _ _ _); cbn in E; congruence.
      + assert (X : forall q fs m0, NoDup (map fst fs) -> (forall k f, In (k, f) fs -> In (k, f) def) ->
                      (forall k, In k (map fst fs) -> aget k m0 = aget k m) -> parse_fields (parse n) q fs m0 <> Err Endless).
        { intros q. induction fs as [|[k f] fs IHf]; intros m0 D Sub G; cbn [parse_fields]; [discriminate|].
          cbn [map fst] in D, G. apply NoDup_cons_iff in D as [Nk D].
          assert (P := IH q k (if_type f) (if_default f) (aget k m0)).
          assert (Q : parse n q k (if_type f) (if_default f) (aget k m0) <> Err Endless).
          { apply P.
            - intros N w W. eapply flat_d; eauto. apply Sub. now left.
            - rewrite (G k (or_introl eq_refl)). destruct (aget k m) as [y|] eqn:Gk; cbn [odepth].
              + apply depth_member in Gk. lia.
              + cbn [depth] in L. lia. }
          destruct (parse n q k (if_type f) (if_default f) (aget k m0)) as [[w|]|e]; [| |congruence].
          - apply IHf; [exact D|intros; apply Sub; now right|]. intros j J. rewrite aget_aset_other; [apply G; now right|]. intros ->. tauto.
          - apply IHf; [exact D|intros; apply Sub; now right|]. intros j J. apply G. now right. }
        intros E. apply (X (p ++ "." ++ a) def m (distinct _ _ I)); auto. destruct (parse_fields _ _ _ _); cbn in E; congruence.
    - destruct (F ltac:(discriminate) x eq_refl) as [NL NO]. destruct x; try discriminate; [now destruct (NL l)|now destruct (NO m)].
  Qed.
End Args.

(** *** Whole selections *)
Section Plans.
  Variable inputs : string -> option (list (string * input_field)).
  Variable vars : list (string * value).

  Section FInd.
    Variable V : Type.
    Variable P : rfield V -> Prop.
    Hypothesis H : forall n args sel, Forall P sel -> P (RField n args sel).
    Fixpoint rfield_ind' (f : rfield V) : P f :=
      match f with
      | RField n args sel => H n args sel ((fix go (l : list (rfield V)) : Forall P l :=
          match l with [] => Forall_nil _ | f :: t => Forall_cons _ (rfield_ind' f) (go t) end) sel)
      end.
  End FInd.

  Lemma map_field_eq n args sel : map_field vars (RField n args sel) =
    rbind (mapM (map_field vars) sel) (fun sel' => rmap (fun args' => RField n args' sel') (mapM (map_arg vars) args)).
  Proof.
    cbn [map_field]. f_equal. induction sel as [|f l IH]; cbn [mapM]; [auto|]. rewrite IH. destruct (map_field vars f); cbn; auto.
  Qed.
  Lemma resolve_field_eq fuel n args sel : resolve_field inputs fuel (RField n args sel) =
    rbind (mapM (resolve_arg inputs fuel n) args) (fun args' => rmap (RField n args') (mapM (resolve_field inputs fuel) sel)).
  Proof.
    cbn [resolve_field]. destruct (mapM (resolve_arg inputs fuel n) args); cbn; [|auto]. f_equal.
    induction sel as [|f l IH]; cbn [mapM]; [auto|]. rewrite IH. destruct (resolve_field inputs fuel f); cbn; auto.
  Qed.

  Lemma opt_resolve_ok o r : opt_resolve vars o = Ok r -> opt_instance vars o r.
  Proof.
    destruct o as [q|]; cbn.
    - destruct (resolve_value vars q) as [v|] eqn:R; cbn; [|discriminate]. intros H. injection H as <-. now apply resolve_sound.
    - intros H. now injection H as <-.
  Qed.

  Lemma forall2_compose {A B C} (R : A -> B -> Prop) (S : B -> C -> Prop) (T : A -> C -> Prop) l m n :
    Forall2 R l m -> Forall2 S m n -> Forall (fun a => forall b c, R a b -> S b c -> T a c) l -> Forall2 T l n.
  Proof.
    intros H. revert n. induction H as [|a b l m Rab H IH]; intros n G F; inversion G; subst; constructor.
    - inversion F; subst. eauto.
    - inversion F; subst. apply IH; auto.
  Qed.

  Lemma field_ready fuel : forall f g h, map_field vars f = Ok g -> resolve_field inputs fuel g = Ok h -> ready inputs vars f h.
  Proof.
    induction f as [n args sel IH] using rfield_ind'. intros g h M R. rewrite map_field_eq in M.
    destruct (mapM (map_field vars) sel) as [sel'|] eqn:MS; [|discriminate]. cbn [rbind] in M.
    destruct (mapM (map_arg vars) args) as [args'|] eqn:MA; [|discriminate]. cbn [rmap] in M. injection M as <-.
    rewrite resolve_field_eq in R. destruct (mapM (resolve_arg inputs fuel n) args') as [args''|] eqn:RA; [|discriminate].
    cbn [rbind] in R. destruct (mapM (resolve_field inputs fuel) sel') as [sel''|] eqn:RS; [|discriminate].
    cbn [rmap] in R. injection R as <-. apply mapM_ok in MS, MA, RA, RS. constructor.
    - eapply forall2_compose; [exact MA|exact RA|]. apply Forall_forall. intros a _ b c Hb Hc.
      unfold map_arg in Hb. destruct (opt_resolve vars (ra_value a)) as [v|] eqn:OV; [|discriminate]. cbn [rbind] in Hb.
      destruct (opt_resolve vars (ra_default a)) as [d|] eqn:OD; [|discriminate]. cbn [rmap] in Hb. injection Hb as <-.
      unfold resolve_arg in Hc. cbn in Hc. destruct (parse_arg _ _ _ _ _ _ _) as [r|] eqn:P; [|discriminate].
      cbn in Hc. injection Hc as <-. split; [reflexivity|]. split; [reflexivity|].
      exists v, d. split; [now apply opt_resolve_ok|]. split; [now apply opt_resolve_ok|]. exists fuel. exact P.
    - eapply forall2_compose; [exact MS|exact RS|]. rewrite Forall_forall in IH |- *. intros f I b c. apply IH. exact I.
  Qed.
  Lemma plan_ready fuel sel out : resolve_input inputs vars fuel sel = Ok out -> Forall2 (ready inputs vars) sel out.
  Proof.
    intros H. apply mapM_ok in H. induction H as [|f h l l' F H IH]; constructor; [|exact IH].
    destruct (map_field vars f) as [g|] eqn:M; [|discriminate]. eapply field_ready; eauto.
  Qed.
End Plans.
