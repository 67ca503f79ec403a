(** Proofs about generated configurations. *)
From Coq Require Import String Ascii ZArith NArith Arith Bool Lia List.
From Verif Require Import Base Ordered JsonModel TypeModel ConfigModel MustacheModel GenModel GenSpec BaseFacts OrderedFacts JsonProofs.
Import ListNotations.
Open Scope string_scope.
Open Scope list_scope.

Local Notation oget_same := (oget_oins_same scmp scmp_order).
Local Notation oget_other := (oget_oins_other scmp scmp_order).

Lemma in_oins {V} k (v : V) m k' v' : In (k', v') (oins scmp k v m) -> (k' = k /\ v' = v) \/ In (k', v') m.
Proof.
  induction m as [|[a b] m IH]; cbn.
  - intros [H|[]]. injection H as <- <-. auto.
  - destruct (scmp k a) eqn:C; cbn.
    + intros [H|H]; [|auto]. injection H as <- <-. left. split; [|reflexivity].
      symmetry. now apply (to_eq _ scmp_order).
    + intros [H|[H|H]]; auto. injection H as <- <-. auto.
    + intros [H|H]; auto. destruct (IH H); auto.
Qed.
Lemma oget_oins_some {V} k k' (v : V) m : oget scmp k m <> None -> oget scmp k (oins scmp k' v m) <> None.
Proof.
  intros H. destruct (string_dec k k') as [-> |N]; [rewrite oget_same; discriminate|]. now rewrite oget_other.
Qed.

Lemma alpha_iff c : is_alpha c = true <-> letter c.
Proof.
  unfold is_alpha, letter. rewrite orb_true_iff, !andb_true_iff, !N.leb_le. tauto.
Qed.
Lemma word_iff c : is_word c = true <-> letter_digit c.
Proof.
  unfold is_word, letter_digit, is_digit. rewrite !orb_true_iff, alpha_iff, andb_true_iff, !N.leb_le, Ascii.eqb_eq. tauto.
Qed.
Lemma field_name_iff s : is_valid_field_name s = true <-> graphql_name s.
Proof.
  unfold is_valid_field_name, graphql_name. destruct (list_ascii_of_string s) as [|c t].
  - split; [discriminate|]. intros (c & t & H & _). discriminate.
  - rewrite andb_true_iff, alpha_iff, forallb_forall. split.
    + intros [A B]. exists c, t. split; [reflexivity|]. split; [exact A|]. apply Forall_forall. intros x X. now apply word_iff, B.
    + intros (c' & t' & H & A & B). injection H as <- <-. split; [exact A|]. intros x X. apply word_iff. rewrite Forall_forall in B. auto.
Qed.

(** * Merging *)
Lemma merge_field_in acc k f k' f' : In (k', f') (merge_field acc (k, f)) -> In (k', f') acc \/ (k' = k /\ f' = f).
Proof.
  unfold merge_field. destruct (oget scmp k acc); [destruct (_ || _)|]; auto; intros H; apply in_oins in H; tauto.
Qed.
Lemma merge_field_some acc k f k' : oget scmp k' acc <> None \/ k' = k -> oget scmp k' (merge_field acc (k, f)) <> None.
Proof.
  unfold merge_field. intros H.
  destruct (oget scmp k acc) eqn:E; [destruct (_ || _)|]; destruct H as [H| ->]; auto using (@oget_oins_some field);
    try (rewrite oget_same; discriminate). congruence.
Qed.
Lemma fold_in fs : forall acc k f, In (k, f) (fold_left merge_field fs acc) -> In (k, f) acc \/ In (k, f) fs.
Proof.
  induction fs as [|[a b] fs IH]; cbn [fold_left]; [auto|]. intros acc k f H. destruct (IH _ _ _ H) as [X|X].
  - apply merge_field_in in X. destruct X as [X|[-> ->]]; [auto|right; now left].
  - right. now right.
Qed.
Lemma fold_some fs : forall acc k, oget scmp k acc <> None \/ In k (map fst fs) -> oget scmp k (fold_left merge_field fs acc) <> None.
Proof.
  induction fs as [|[a b] fs IH]; cbn; [tauto|]. intros acc k H. apply IH. destruct H as [H|[<-|H]].
  - left. apply merge_field_some. auto.
  - left. apply merge_field_some. auto.
  - auto.
Qed.
Lemma merged_in l : forall acc k f, In (k, f) (fold_left (fun acc fs => fold_left merge_field fs acc) l acc) ->
  In (k, f) acc \/ exists fs, In fs l /\ In (k, f) fs.
Proof.
  induction l as [|fs l IH]; cbn; [auto|]. intros acc k f H. destruct (IH _ _ _ H) as [X|(fs' & I & X)].
  - apply fold_in in X. destruct X; eauto.
  - right. eauto.
Qed.
Lemma merged_some l : forall acc k, oget scmp k acc <> None \/ (exists fs, In fs l /\ In k (map fst fs)) ->
  oget scmp k (fold_left (fun acc fs => fold_left merge_field fs acc) l acc) <> None.
Proof.
  induction l as [|fs l IH]; cbn; [intros acc k [H|(fs & [] & _)]; auto|]. intros acc k H. apply IH.
  destruct H as [H|(fs' & [<-|I] & H)]; [left; apply fold_some; auto|left; apply fold_some; auto|right; eauto].
Qed.

Section Gen.
  Variable prefix : string.
  Local Notation nm := (gen_name prefix).
  Local Notation gen := (generate_types prefix).
  Local Notation create := (create_type_from_object gen).

  Lemma nm_inj a b : nm a = nm b -> a = b.
  Proof.
    unfold gen_name. intros H. apply Z_to_string_inj. induction prefix as [|c p IH]; cbn in H; [exact H|]. injection H as H. auto.
  Qed.

  Definition named (a b : Z) (n : string) : Prop := plain_scalar n \/ exists k, (a <= k < b)%Z /\ n = nm k.
  Definition step (st st' : gstate) : Prop :=
    (gs_next st <= gs_next st')%Z /\
    (forall n, (forall k, (gs_next st <= k < gs_next st')%Z -> n <> nm k) -> oget scmp n (gs_types st') = oget scmp n (gs_types st)) /\
    (forall k, (gs_next st <= k < gs_next st')%Z -> exists t, oget scmp (nm k) (gs_types st') = Some t /\ t_fields t <> [] /\
       forall n f, oget scmp n (t_fields t) = Some f -> graphql_name n /\ named (gs_next st) k (type_name (f_type f))).
  Definition fresh (st : gstate) : Prop := forall k, (gs_next st <= k)%Z -> oget scmp (nm k) (gs_types st) = None.
  Definition extends (t t' : list (string * gtype)) : Prop := forall n x, oget scmp n t = Some x -> oget scmp n t' = Some x.

  Lemma step_refl st : step st st.
  Proof. split; [lia|]. split; [auto|]. intros k H. lia. Qed.
  Lemma named_weaken a b a' b' n : named a b n -> (a' <= a)%Z -> (b <= b')%Z -> named a' b' n.
  Proof. intros [H|(k & K & ->)] A B; [now left|]. right. exists k. split; [lia|reflexivity]. Qed.
  Lemma step_trans a b c : step a b -> step b c -> step a c.
  Proof.
    intros (L1 & F1 & N1) (L2 & F2 & N2). split; [lia|]. split.
    - intros n H. rewrite F2; [apply F1|]; intros k K; apply H; lia.
    - intros k K. destruct (Z.lt_ge_cases k (gs_next b)) as [X|X].
      + destruct (N1 k ltac:(lia)) as (t & T & R). exists t. split; [|exact R]. rewrite F2; [exact T|].
        intros k' K' E. apply nm_inj in E. lia.
      + destruct (N2 k ltac:(lia)) as (t & T & E & R). exists t. split; [exact T|]. split; [exact E|].
        intros n f G. destruct (R n f G) as [R1 R2]. split; [exact R1|]. eapply named_weaken; [exact R2|lia|lia].
  Qed.
  Lemma step_fresh a b : step a b -> fresh a -> fresh b.
  Proof.
    intros (L & F & N) H k K. rewrite F; [apply H; lia|]. intros k' K' E. apply nm_inj in E. lia.
  Qed.
  Lemma step_extends a b : step a b -> fresh a -> extends (gs_types a) (gs_types b).
  Proof.
    intros (L & F & N) H n x X. rewrite F; [exact X|]. intros k K ->. rewrite H in X; [discriminate|lia].
  Qed.
  Lemma describes_mono t t' ty v : extends t t' -> describes t ty v -> describes t' ty v.
  Proof.
    intros E. revert v ty. fix IH 3. intros v ty H. destruct H as [n|v b|x b|z b B|s b|ty b l A|n b g m G A].
    - constructor.
    - constructor.
    - constructor.
    - now constructor.
    - constructor.
    - constructor. intros v I. apply IH. apply A, I.
    - apply describes_object with g; [apply E, G|]. intros k v I. destruct (A k v I) as (f & F & D). exists f. split; [exact F|]. apply IH, D.
  Qed.

  (** What is claimed of the type made for a value. *)
  Definition good (types : list (string * gtype)) (ty : typ) (v : value) : Prop :=
    (forall s v', shaped s v -> shaped s v' -> describes types ty v') /\ (regular v -> describes types ty v).
  Lemma good_mono t t' ty v : extends t t' -> good t ty v -> good t' ty v.
  Proof. intros E [A B]. split; eauto using describes_mono. Qed.
  Lemma good_json types v b : good types (TNamed "JSON" b) v.
  Proof. split; constructor. Qed.
  Lemma good_json_list types l b : good types (TList (TNamed "JSON" b) false) (VList l).
  Proof.
    split.
    - intros s v' H H'. inversion H; subst. inversion H'; subst; constructor. constructor.
    - constructor. constructor.
  Qed.

  Definition gen_ok (v : value) : Prop := forall st name st', gen v st = (name, st') -> fresh st ->
    step st st' /\ named (gs_next st) (gs_next st') name /\ good (gs_types st') (sample_type v name) v.

  Lemma gen_incompatible v st : is_graphql_compatible v = false -> gen v st = ("JSON", st).
  Proof.
    destruct v as [| | | | |l|m]; try discriminate.
    - destruct l; [reflexivity|discriminate].
    - intros H. cbn [generate_types]. now rewrite H.
  Qed.
  Lemma gen_primitive v st : is_primitive v = true -> gen v st = (to_gql_type v, st).
  Proof. destruct v; try reflexivity; discriminate. Qed.
  Lemma create_cons k v m fs st : create ((k, v) :: m) fs st =
    let '(name, st) := gen v st in create m (oins scmp k (field_of (sample_type v name)) fs) st.
  Proof.
    cbn [create_type_from_object]. destruct (is_graphql_compatible v) eqn:C; cbn [negb].
    - destruct (is_primitive v) eqn:P; [rewrite gen_primitive by exact P|]; [|destruct (gen v st) as [n s]]; unfold sample_type; destruct (is_array v); reflexivity.
    - rewrite gen_incompatible by exact C. unfold sample_type. destruct (is_array v); reflexivity.
  Qed.
  Lemma sample_type_name v n : type_name (sample_type v n) = n.
  Proof. unfold sample_type. destruct (is_array v); reflexivity. Qed.

  Lemma create_ok m : Forall (fun kv => gen_ok (snd kv)) m -> forall fs st fs' st', create m fs st = (fs', st') -> fresh st ->
    step st st' /\
    (forall k f, In (k, f) fs' -> In (k, f) fs \/ exists v, In (k, v) m /\
       named (gs_next st) (gs_next st') (type_name (f_type f)) /\ good (gs_types st') (f_type f) v) /\
    (forall k, oget scmp k fs <> None \/ In k (map fst m) -> oget scmp k fs' <> None).
  Proof.
    induction 1 as [|[k v] m G _ IH]; intros fs st fs' st' H Fr.
    - cbn in H. injection H as <- <-. split; [apply step_refl|]. split; [auto|]. intros k [X|[]]. exact X.
    - rewrite create_cons in H. destruct (gen v st) as [name s1] eqn:E. destruct (G st name s1 E Fr) as (S1 & N1 & D1).
      cbn in D1. pose proof (step_fresh _ _ S1 Fr) as Fr1. destruct (IH _ _ _ _ H Fr1) as (S2 & A2 & B2).
      pose proof (step_extends _ _ S2 Fr1) as Ex. pose proof (proj1 S1). pose proof (proj1 S2).
      split; [now apply step_trans with s1|]. split.
      + intros k' f X. destruct (A2 k' f X) as [Y|(w & Y & N & D)].
        * apply in_oins in Y. destruct Y as [(-> & ->)|Y]; [|auto]. right. exists v. split; [now left|].
          cbn [field_of f_type]. rewrite sample_type_name. split; [eapply named_weaken; [exact N1|lia|lia]|].
          eapply good_mono; eauto.
        * right. exists w. split; [now right|]. split; [eapply named_weaken; [exact N|lia|lia]|exact D].
      + intros k' [X|[<-|X]]; apply B2; auto; left; [now apply oget_oins_some|cbn; rewrite oget_same; discriminate].
  Qed.

  Lemma add_type_ok fs st name st' a : add_type prefix fs st = (name, st') -> fresh st -> (a <= gs_next st)%Z -> fs <> [] ->
    (forall k f, oget scmp k fs = Some f -> graphql_name k /\ named a (gs_next st) (type_name (f_type f))) ->
    (gs_next st' = gs_next st + 1)%Z /\ name = nm (gs_next st) /\ oget scmp name (gs_types st') = Some (with_fields fs) /\
    extends (gs_types st) (gs_types st') /\
    (forall s0, gs_next s0 = a -> step s0 st -> step s0 st').
  Proof.
    unfold add_type. intros H Fr La Ne A. injection H as <- <-. cbn [gs_next gs_types]. split; [reflexivity|]. split; [reflexivity|].
    split; [apply oget_same|]. split.
    - intros n x X. rewrite oget_other; [exact X|]. intros ->. rewrite Fr in X; [discriminate|lia].
    - intros s0 E (L & F & N). split; [cbn; lia|]. cbn [gs_next gs_types]. split.
      + intros n H. rewrite oget_other; [apply F; intros k K; apply H; lia|]. apply H. lia.
      + intros k K. destruct (Z.eq_dec k (gs_next st)) as [-> |Nk].
        * exists (with_fields fs). split; [apply oget_same|]. split; [exact Ne|]. cbn [t_fields with_fields]. subst a. exact A.
        * destruct (N k ltac:(lia)) as (t & T & R). exists t. split; [|exact R]. rewrite oget_other; [exact T|].
          intros X. apply nm_inj in X. congruence.
  Qed.

  Lemma compatible_names m k v : is_graphql_compatible (VObj m) = true -> In (k, v) m -> graphql_name k.
  Proof.
    cbn. destruct m; [discriminate|]. intros H I. rewrite forallb_forall in H. apply field_name_iff. exact (H _ I).
  Qed.
  Lemma compatible_some m : is_graphql_compatible (VObj m) = true -> exists k, In k (map fst m).
  Proof. destruct m as [|[k v] m]; [discriminate|]. exists k. now left. Qed.

  Lemma shaped_object_inv s m : shaped s (VObj m) -> exists fs, s = KObj fs /\
    (forall k, aget k m = None <-> aget k fs = None) /\ (forall k v s, In (k, v) m -> aget k fs = Some s -> shaped s v).
  Proof. intros H. inversion H; subst. eauto. Qed.
  Lemma aget_in_some {V} k (v : V) m : In (k, v) m -> aget k m <> None.
  Proof.
    induction m as [|[a b] m IH]; [contradiction|]. cbn. destruct (String.eqb_spec k a) as [-> |N]; [discriminate|].
    intros [H|H]; [injection H as -> ->; congruence|auto].
  Qed.
  Lemma aget_some_in {V} k (m : list (string * V)) v : aget k m = Some v -> In (k, v) m.
  Proof.
    induction m as [|[a b] m IH]; [discriminate|]. cbn. destruct (String.eqb_spec k a) as [-> |N]; [|auto].
    intros H. injection H as ->. now left.
  Qed.
  Lemma in_fst {V} k (m : list (string * V)) : In k (map fst m) <-> exists v, In (k, v) m.
  Proof.
    rewrite in_map_iff. split; [intros ([a b] & <- & H); eauto|]. intros (v & H). exists (k, v). auto.
  Qed.

  Lemma nodup_same {V} (k : string) (v w : V) m : NoDup (map fst m) -> In (k, v) m -> In (k, w) m -> v = w.
  Proof.
    induction m as [|[a b] m IH]; [contradiction|]. cbn. intros N. inversion N as [|? ? X Y]; subst.
    intros [H|H] [H'|H']; [congruence| | |auto]; exfalso; apply X; apply in_fst; [injection H as <- <-|injection H' as <- <-]; eauto.
  Qed.

  (** What became of a list. *)
  Inductive outcome (types : list (string * gtype)) (L : list value) : string -> Prop :=
  | out_json : outcome types L "JSON"
  | out_scalar item : In item L -> is_primitive item = true -> item <> VNull -> outcome types L (to_gql_type item)
  | out_list l n : In (VList l) L -> outcome types L n
  | out_merged n t m0 : oget scmp n types = Some t -> In (VObj m0) L ->
      (forall k f, oget scmp k (t_fields t) = Some f -> exists m v, In (VObj m) L /\ In (k, v) m /\ good types (f_type f) v) ->
      (forall m k, In (VObj m) L -> In k (map fst m) -> oget scmp k (t_fields t) <> None) -> outcome types L n.

  Lemma scalar_shape types item s w : is_primitive item = true -> item <> VNull -> (forall e, item <> VEnum e) -> shaped s item -> shaped s w ->
    describes types (TNamed (to_gql_type item) false) w.
  Proof.
    intros P N E H H'. destruct item; try discriminate; inversion H; subst; inversion H'; subst; cbn; constructor; auto.
  Qed.
  Lemma no_enum s e : ~ shaped s (VEnum e).
  Proof. intros H. inversion H. Qed.

  Lemma outcome_good types L n : outcome types L n -> good types (TList (TNamed n false) false) (VList L).
  Proof.
    intros O.
    assert (X : forall s, flat s -> (forall v, In v L -> shaped s v) -> forall w, shaped s w -> describes types (TNamed n false) w).
    { intros s Fl A w W. destruct O as [|item I P N|l n I|n t m0 T I C1 C2].
      - constructor.
      - eapply scalar_shape; eauto. intros e ->. apply (no_enum s e), A, I.
      - exfalso. specialize (A _ I). inversion A; subst. exact Fl.
      - pose proof (A _ I) as S0. apply shaped_object_inv in S0. destruct S0 as (fs & -> & K0 & V0).
        inversion W as [| | | | |fs' m K V]; subst; [constructor|]. apply describes_object with t; [exact T|].
        intros k v J. assert (aget k m <> None) by eauto using aget_in_some.
        destruct (aget k fs) as [s|] eqn:E; [|apply K in E; contradiction].
        assert (J0 : In k (map fst m0)).
        { destruct (aget k m0) as [x|] eqn:E0; [apply aget_some_in in E0; apply in_fst; eauto|]. apply K0 in E0. congruence. }
        destruct (oget scmp k (t_fields t)) as [f|] eqn:F; [|now apply C2 in J0; auto].
        exists f. split; [reflexivity|]. destruct (C1 k f F) as (m1 & v1 & I1 & J1 & G1 & _).
        pose proof (A _ I1) as S1. apply shaped_object_inv in S1. destruct S1 as (fs1 & Q & _ & V1). injection Q as <-.
        eapply G1; eauto. }
    split.
    - intros s v' H H'. inversion H as [| | | |s0 l Fl A|]; subst. inversion H'; subst; constructor. intros w W. eapply X; eauto.
    - intros R. constructor. inversion R as [| | | | |s l B A|fs l A]; subst.
      + intros w W. apply (X s); auto. cbn in B. intuition subst; exact Logic.I.
      + destruct O as [|item I P N|l n I|n t m0 T I C1 C2].
        * constructor.
        * destruct (A _ I) as [-> |(m & -> & _)]; [congruence|discriminate].
        * destruct (A _ I) as [Y|(m & Y & _)]; discriminate.
        * intros w W. destruct (A _ W) as [-> |(m & -> & M)]; [constructor|]. apply describes_object with t; [exact T|].
          intros k v J. destruct (M k v J) as (s & Es & Ss).
          destruct (oget scmp k (t_fields t)) as [f|] eqn:F; [|exfalso; apply (C2 m k W); [apply in_fst; eauto|exact F]].
          exists f. split; [reflexivity|]. destruct (C1 k f F) as (m1 & v1 & I1 & J1 & G1 & _).
          destruct (A _ I1) as [Y|(m' & Y & M')]; [discriminate|]. injection Y as <-.
          destruct (M' k v1 J1) as (s' & Es' & Ss'). assert (s' = s) by congruence. subst s'. eauto.
  Qed.

  (** The loop over the items of a list. *)
  Fixpoint loop (l : list value) (types : list (list (string * field))) (st : gstate) : string * gstate :=
    match l with
    | [] => match types with
            | [] => ("JSON", st)
            | _ => add_type prefix (merge_fields types) st
            end
    | item :: rest =>
        match item with
        | VObj m =>
            if negb (is_graphql_compatible item) then ("JSON", st)
            else let '(fs, st) := create m [] st in loop rest (types ++ [fs]) st
        | _ => gen item st
        end
    end.
  Lemma gen_list l st : gen (VList l) st = loop l [] st.
  Proof.
    reflexivity.
  Qed.
  Lemma loop_not_object item rest acc st : (forall m, item <> VObj m) -> loop (item :: rest) acc st = gen item st.
  Proof. destruct item; try reflexivity. intros H. exfalso. eapply H. reflexivity. Qed.

  Definition deep_ok (v : value) : Prop :=
    gen_ok v /\ match v with VObj m => Forall (fun kv => gen_ok (snd kv)) m | _ => True end.

  Lemma loop_ok l : Forall deep_ok l -> forall done acc s0 st name st',
    loop l acc st = (name, st') -> fresh s0 -> step s0 st ->
    (acc = [] -> done = []) ->
    (forall v, In v done -> exists m fs, v = VObj m /\ In fs acc /\ forall k, In k (map fst m) -> oget scmp k fs <> None) ->
    (forall fs, In fs acc -> fs <> []) ->
    (forall fs k f, In fs acc -> In (k, f) fs -> exists m v, In (VObj m) done /\ In (k, v) m /\ graphql_name k /\
       named (gs_next s0) (gs_next st) (type_name (f_type f)) /\ good (gs_types st) (f_type f) v) ->
    step s0 st' /\ named (gs_next s0) (gs_next st') name /\ outcome (gs_types st') (done ++ l) name.
  Proof.
    induction 1 as [|item l [Gi Mi] _ IH]; intros done acc s0 st name st' H Fr S0 Em Done Ne Cand.
    - cbn [loop] in H. rewrite app_nil_r. destruct acc as [|fs0 acc].
      + injection H as <- <-. split; [exact S0|]. split; [left; cbn; auto 6|constructor].
      + set (ac := fs0 :: acc) in *. pose proof (step_fresh _ _ S0 Fr) as Fr'.
        assert (In0 : In fs0 ac) by (now left).
        assert (Mne : merge_fields ac <> []).
        { specialize (Ne _ In0). destruct fs0 as [|[k f] fs0]; [congruence|]. intros E.
          assert (X : oget scmp k (merge_fields ac) <> None) by (apply merged_some; right; exists ((k, f) :: fs0); split; [exact In0|now left]).
          rewrite E in X. now apply X. }
        assert (Mc : forall k f, oget scmp k (merge_fields ac) = Some f -> exists m v, In (VObj m) done /\ In (k, v) m /\ graphql_name k /\
           named (gs_next s0) (gs_next st) (type_name (f_type f)) /\ good (gs_types st) (f_type f) v).
        { intros k f X. apply (oget_in scmp scmp_order) in X. apply merged_in in X. destruct X as [[]|(fs & I & X)]. eapply Cand; eauto. }
        destruct (add_type_ok _ _ _ _ (gs_next s0) H Fr' (proj1 S0) Mne) as (N & -> & T & Ex & St).
        { intros k f X. destruct (Mc k f X) as (m & v & _ & _ & A & B & _). auto. }
        split; [now apply St|]. split; [right; exists (gs_next st); split; [pose proof (proj1 S0); lia|reflexivity]|].
        destruct fs0 as [|[k0 f0] fs0']; [now destruct (Ne [] In0)|].
        destruct (Cand _ k0 f0 In0 (or_introl eq_refl)) as (m0 & _ & I0 & _).
        eapply out_merged with (m0 := m0); [exact T|exact I0| |].
        * cbn [with_fields t_fields]. intros k f X. destruct (Mc k f X) as (m & v & A & B & _ & _ & D).
          exists m, v. split; [exact A|]. split; [exact B|]. eapply good_mono; eauto.
        * cbn [with_fields t_fields]. intros m k I K. destruct (Done _ I) as (m' & fs & E & F & A). injection E as <-.
          apply merged_some. right. exists fs. split; [exact F|].
          specialize (A k K). destruct (oget scmp k fs) as [f|] eqn:O; [|congruence].
          apply (oget_in scmp scmp_order) in O. apply in_fst. eauto.
    - assert (C : (exists m, item = VObj m) \/ forall m, item <> VObj m) by (destruct item; eauto; right; discriminate).
      destruct C as [(m & ->)|C].
      + cbn [loop] in H. destruct (is_graphql_compatible (VObj m)) eqn:Co; cbn [negb] in H.
        * destruct (create m [] st) as [fs s1] eqn:E. pose proof (step_fresh _ _ S0 Fr) as Fr'.
          destruct (create_ok m Mi _ _ _ _ E Fr') as (S1 & A1 & B1).
          pose proof (step_trans _ _ _ S0 S1) as S01. pose proof (step_extends _ _ S1 Fr') as Ex.
          replace (done ++ VObj m :: l) with ((done ++ [VObj m]) ++ l) by (rewrite <- app_assoc; reflexivity).
          apply (IH (done ++ [VObj m]) (acc ++ [fs]) s0 s1 name st' H Fr S01).
          -- intros X. destruct acc; discriminate.
          -- intros v I. apply in_app_or in I. destruct I as [I|[<-|[]]].
             ++ destruct (Done v I) as (m' & fs' & -> & F & K). exists m', fs'. split; [reflexivity|]. split; [apply in_or_app; auto|exact K].
             ++ exists m, fs. split; [reflexivity|]. split; [apply in_or_app; right; now left|]. intros k K. apply B1. auto.
          -- intros fs' I. apply in_app_or in I. destruct I as [I|[<-|[]]]; [auto|]. destruct (compatible_some m Co) as (k & K).
             specialize (B1 k (or_intror K)). destruct fs; [now cbn in B1|discriminate].
          -- intros fs' k f I J. apply in_app_or in I. destruct I as [I|[<-|[]]].
             ++ destruct (Cand fs' k f I J) as (m' & v & X1 & X2 & X3 & X4 & X5). exists m', v. split; [apply in_or_app; auto|].
                split; [exact X2|]. split; [exact X3|]. pose proof (proj1 S1). split; [eapply named_weaken; [exact X4|lia|lia]|eapply good_mono; eauto].
             ++ destruct (A1 k f J) as [[]|(v & X1 & X2 & X3)]. exists m, v. split; [apply in_or_app; right; now left|].
                split; [exact X1|]. split; [eapply compatible_names; eauto|]. pose proof (proj1 S0).
                split; [eapply named_weaken; [exact X2|lia|lia]|exact X3].
        * injection H as <- <-. split; [exact S0|]. split; [left; cbn; auto 6|constructor].
      + rewrite loop_not_object in H by exact C. pose proof (step_fresh _ _ S0 Fr) as Fr'.
        destruct (Gi st name st' H Fr') as (S1 & N1 & _). split; [now apply step_trans with st|].
        split; [pose proof (proj1 S0); eapply named_weaken; [exact N1|lia|lia]|].
        assert (I : In item (done ++ item :: l)) by (apply in_or_app; right; now left).
        destruct (is_primitive item) eqn:P.
        * rewrite gen_primitive in H by exact P. injection H as <- <-.
          destruct item; try discriminate; [apply out_json|..]; (apply out_scalar; [exact I|exact P|discriminate]).
        * destruct item; try discriminate; [apply (out_list _ _ l0); exact I|]. now destruct (C m).
  Qed.

  Local Ltac desc := first [apply describes_null | apply describes_json | apply describes_bool | apply describes_text | now apply describes_int].
  Lemma all_ok v : deep_ok v.
  Proof.
    induction v as [| | | | |l IH|m IH] using value_ind'.
    1-5: (split; [|exact Logic.I]; intros st name st' H Fr; cbn in H; injection H as <- <-; split; [apply step_refl|];
          split; [left; cbn; auto 6|]; unfold sample_type; cbn [is_array]; split;
          [intros sh v' H H'; inversion H; subst; inversion H'; subst; desc|intros H; inversion H; subst; desc]).
    - split; [|exact Logic.I]. intros st name st' H Fr. rewrite gen_list in H.
      destruct (loop_ok l IH [] [] st st name st' H Fr (step_refl st)) as (S1 & N1 & O); auto; try (intros; contradiction).
      split; [exact S1|]. split; [exact N1|]. unfold sample_type. cbn. now apply outcome_good.
    - assert (G : Forall (fun kv => gen_ok (snd kv)) m) by (eapply Forall_impl; [|exact IH]; intros kv [X _]; exact X).
      split; [|exact G]. intros st name st' H Fr. destruct (is_graphql_compatible (VObj m)) eqn:Co.
      2:{ rewrite gen_incompatible in H by exact Co. injection H as <- <-. split; [apply step_refl|]. split; [left; cbn; auto 6|]. apply good_json. }
      cbn [generate_types] in H. rewrite Co in H. cbn [negb] in H. destruct (create m [] st) as [fs s1] eqn:E.
      destruct (create_ok m G _ _ _ _ E Fr) as (S1 & A1 & B1). pose proof (step_fresh _ _ S1 Fr) as Fr1.
      assert (Ne : fs <> []). { destruct (compatible_some m Co) as (k & K). specialize (B1 k (or_intror K)). destruct fs; [now cbn in B1|discriminate]. }
      destruct (add_type_ok _ _ _ _ (gs_next st) H Fr1 (proj1 S1) Ne) as (N & -> & T & Ex & St).
      { intros k f X. apply (oget_in scmp scmp_order) in X. destruct (A1 k f X) as [[]|(v & I & Nm & _)]. split; [|exact Nm]. eapply compatible_names; eauto. }
      split; [apply St; auto|]. split; [right; exists (gs_next s1); split; [pose proof (proj1 S1); lia|reflexivity]|].
      unfold sample_type. cbn [is_array]. split.
      + intros s v' H1 H2. apply shaped_object_inv in H1. destruct H1 as (shs & -> & K & V).
        inversion H2 as [| | | | |fs' m' K' V']; subst; [constructor|]. apply describes_object with (with_fields fs); [exact T|].
        cbn [with_fields t_fields]. intros k v I. assert (aget k m' <> None) by eauto using aget_in_some.
        destruct (aget k shs) as [s|] eqn:Es; [|apply K' in Es; contradiction].
        assert (J : In k (map fst m)).
        { destruct (aget k m) as [x|] eqn:E0; [apply aget_some_in in E0; apply in_fst; eauto|]. apply K in E0. congruence. }
        specialize (B1 k (or_intror J)). destruct (oget scmp k fs) as [f|] eqn:F; [|congruence]. exists f. split; [reflexivity|].
        apply (oget_in scmp scmp_order) in F. destruct (A1 k f F) as [[]|(w & Iw & _ & D & _)].
        eapply describes_mono; [exact Ex|]. eapply D; eauto.
      + intros R. inversion R as [| | | |m' Nd A| |]; subst. apply describes_object with (with_fields fs); [exact T|].
        cbn [with_fields t_fields]. intros k v I.
        assert (J : In k (map fst m)) by (apply in_fst; eauto).
        specialize (B1 k (or_intror J)). destruct (oget scmp k fs) as [f|] eqn:F; [|congruence]. exists f. split; [reflexivity|].
        apply (oget_in scmp scmp_order) in F. destruct (A1 k f F) as [[]|(w & Iw & _ & _ & D)].
        assert (w = v) by (eapply nodup_same; eauto). subst w.
        eapply describes_mono; [exact Ex|]. apply D. eapply A; eauto.
  Qed.
End Gen.

Section Known.
  Variable prefix : string.
  Local Notation gen := (generate_types prefix).
  Local Notation create := (create_type_from_object gen).

  Lemma create_other m : forall fs st fs' st' k, create m fs st = (fs', st') -> ~ In k (map fst m) -> oget scmp k fs' = oget scmp k fs.
  Proof.
    induction m as [|[a v] m IH]; intros fs st fs' st' k H N; [cbn in H; injection H as <- <-; reflexivity|].
    rewrite create_cons in H. destruct (gen v st) as [n s1]. cbn in N. apply IH with (k := k) in H; [|tauto].
    rewrite H. apply oget_other. intros E. apply N. left. congruence.
  Qed.
  Lemma create_primitive m : forall fs st fs' st' k v, create m fs st = (fs', st') -> NoDup (map fst m) -> In (k, v) m ->
    is_primitive v = true -> oget scmp k fs' = Some (field_of (TNamed (to_gql_type v) false)).
  Proof.
    induction m as [|[a w] m IH]; intros fs st fs' st' k v H N I P; [contradiction|].
    rewrite create_cons in H. destruct (gen w st) as [n s1] eqn:E. cbn in N. inversion N as [|? ? X Y]; subst.
    destruct I as [I|I].
    - injection I as -> ->. rewrite gen_primitive in E by exact P. injection E as <- <-.
      rewrite (create_other _ _ _ _ _ k H X), oget_same. unfold sample_type. destruct v; try discriminate; reflexivity.
    - eapply IH; eauto.
  Qed.
  Lemma create_in m : forall fs st fs' st' k f, create m fs st = (fs', st') -> In (k, f) fs' -> In (k, f) fs \/
    exists v, In (k, v) m /\ (is_primitive v = true -> f_type f = TNamed (to_gql_type v) false).
  Proof.
    induction m as [|[a w] m IH]; intros fs st fs' st' k f H I; [cbn in H; injection H as <- <-; auto|].
    rewrite create_cons in H. destruct (gen w st) as [n s1] eqn:E.
    destruct (IH _ _ _ _ _ _ H I) as [X|(v & X & Y)]; [|right; exists v; split; [now right|exact Y]].
    apply in_oins in X. destruct X as [(-> & ->)|X]; [|auto]. right. exists w. split; [now left|]. intros P.
    rewrite gen_primitive in E by exact P. injection E as <- <-. cbn. unfold sample_type. destruct w; try discriminate; reflexivity.
  Qed.

  Lemma loop_objects l : Forall typed_object l -> forall acc st name st', loop prefix l acc st = (name, st') -> acc ++ [] <> [] \/ l <> [] ->
    exists fss st1, add_type prefix (merge_fields (acc ++ fss)) st1 = (name, st') /\
      Forall2 (fun v fs => exists m s s', v = VObj m /\ create m [] s = (fs, s')) l fss.
  Proof.
    induction 1 as [|v l (m & -> & Ne & Nd & Nm) _ IH]; intros acc st name st' H E.
    - exists [], st. rewrite app_nil_r in *. destruct acc; [destruct E; congruence|]. split; [exact H|constructor].
    - cbn [loop] in H.
      assert (C : is_graphql_compatible (VObj m) = true).
      { cbn. destruct m as [|kv m]; [congruence|]. apply forallb_forall. intros [k w] I. apply field_name_iff. eapply Nm. exact I. }
      rewrite C in H. cbn [negb] in H. destruct (create m [] st) as [fs s1] eqn:K.
      destruct (IH _ _ _ _ H) as (fss & st1 & A & B); [left; destruct acc; discriminate|].
      exists (fs :: fss), st1. rewrite <- app_assoc in A. split; [exact A|]. constructor; [eauto 6|exact B].
  Qed.

  Section Scalar.
    Variables (k S0 : string).
    Hypothesis real : S0 <> "" /\ S0 <> "Empty" /\ S0 <> "JSON".
    Definition known (acc : list (string * field)) : Prop := exists f, oget scmp k acc = Some f /\ f_type f = TNamed S0 false.
    Definition one_of (f : field) : Prop := f_type f = TNamed S0 false \/ f_type f = TNamed "JSON" false.
    Definition clean (acc : list (string * field)) : Prop := forall f, oget scmp k acc = Some f -> one_of f.

    Lemma keep_known acc kf : known acc -> known (merge_field acc kf).
    Proof.
      intros (f & G & T). destruct kf as [a b]. unfold merge_field. destruct (string_dec a k) as [->|N].
      - rewrite G, T. cbn [type_name]. destruct real as (R1 & R2 & R3).
        rewrite (proj2 (String.eqb_neq _ _) R1), (proj2 (String.eqb_neq _ _) R2), (proj2 (String.eqb_neq _ _) R3). exists f. auto.
      - destruct (oget scmp a acc); [destruct (_ || _)|]; exists f; split; auto; rewrite oget_other; congruence.
    Qed.
    Lemma keep_clean acc a b : clean acc -> (a = k -> one_of b) -> clean (merge_field acc (a, b)).
    Proof.
      intros C O f G. unfold merge_field in G. destruct (string_dec a k) as [->|N].
      - destruct (oget scmp k acc) eqn:E; [destruct (_ || _)|]; try (rewrite oget_same in G; injection G as <-; auto); auto.
      - destruct (oget scmp a acc); [destruct (_ || _)|]; try (rewrite oget_other in G by congruence); auto.
    Qed.
    Lemma become_known acc b : clean acc -> f_type b = TNamed S0 false -> known (merge_field acc (k, b)).
    Proof.
      intros C T. unfold merge_field. destruct real as (R1 & R2 & R3). destruct (oget scmp k acc) as [f|] eqn:G.
      - destruct (C f G) as [X|X]; rewrite X; cbn [type_name].
        + rewrite (proj2 (String.eqb_neq _ _) R1), (proj2 (String.eqb_neq _ _) R2), (proj2 (String.eqb_neq _ _) R3). exists f. auto.
        + rewrite T. cbn [type_name]. rewrite (proj2 (String.eqb_neq _ _) R2). cbn. exists b. rewrite oget_same. auto.
      - exists b. rewrite oget_same. auto.
    Qed.
    Lemma fold_known fs : forall acc, clean acc -> (forall f, In (k, f) fs -> one_of f) ->
      clean (fold_left merge_field fs acc) /\
      (known acc \/ (exists f, In (k, f) fs /\ f_type f = TNamed S0 false) -> known (fold_left merge_field fs acc)).
    Proof.
      induction fs as [|[a b] fs IH]; intros acc C O; [split; [exact C|]; intros [H|(f & [] & _)]; exact H|].
      cbn [fold_left]. assert (C' : clean (merge_field acc (a, b))) by (apply keep_clean; [exact C|intros ->; apply O; now left]).
      destruct (IH _ C') as [A B]; [intros f I; apply O; now right|]. split; [exact A|]. intros H. apply B.
      destruct H as [H|(f & [H|H] & T)]; [left; now apply keep_known|injection H as -> ->; left; now apply become_known|right; eauto].
    Qed.
    Lemma merge_known l : forall acc, clean acc -> (forall fs f, In fs l -> In (k, f) fs -> one_of f) ->
      known acc \/ (exists fs f, In fs l /\ In (k, f) fs /\ f_type f = TNamed S0 false) ->
      known (fold_left (fun acc fs => fold_left merge_field fs acc) l acc).
    Proof.
      induction l as [|fs l IH]; intros acc C O H; [destruct H as [H|(fs & f & [] & _)]; exact H|].
      cbn [fold_left]. destruct (fold_known fs acc C) as [A B]; [intros f; apply O; now left|].
      apply IH; [exact A|intros fs' f I; apply O; now right|].
      destruct H as [H|(fs' & f & [<-|I] & J & T)]; [left; auto|left; apply B; eauto|right; eauto].
    Qed.
  End Scalar.

  Lemma forall2_right {A B} (R : A -> B -> Prop) l l' : Forall2 R l l' -> forall b, In b l' -> exists a, In a l /\ R a b.
  Proof. induction 1 as [|a b l l' H _ IH]; intros x I; [contradiction|]. destruct I as [<-|I]; [exists a; split; [now left|exact H]|].
    destruct (IH x I) as (y & Y & Z). exists y. split; [now right|exact Z]. Qed.
  Lemma forall2_left {A B} (R : A -> B -> Prop) l l' : Forall2 R l l' -> forall a, In a l -> exists b, In b l' /\ R a b.
  Proof. induction 1 as [|a b l l' H _ IH]; intros x I; [contradiction|]. destruct I as [<-|I]; [exists b; split; [now left|exact H]|].
    destruct (IH x I) as (y & Y & Z). exists y. split; [now right|exact Z]. Qed.
  Lemma known_anywhere l st name st' k s : Forall typed_object l -> In s [KBool; KInt; KText] ->
    (forall m w, In (VObj m) l -> In (k, w) m -> shaped s w) ->
    (exists m w, In (VObj m) l /\ In (k, w) m /\ w <> VNull) ->
    gen (VList l) st = (name, st') ->
    exists t f, oget scmp name (gs_types st') = Some t /\ oget scmp k (t_fields t) = Some f /\ f_type f = TNamed (scalar_name s) false.
  Proof.
    intros Ob Sc Sh (m & w & Im & Iw & Nw) H. rewrite gen_list in H.
    destruct (loop_objects l Ob [] st name st' H) as (fss & st1 & A & B); [right; intros ->; contradiction|].
    cbn [app] in A. unfold add_type in A. injection A as <- <-. cbn [gs_types].
    assert (Sn : forall w, shaped s w -> is_primitive w = true /\ (TNamed (to_gql_type w) false = TNamed (scalar_name s) false \/ w = VNull)).
    { intros x X. cbn in Sc. destruct Sc as [<-|[<-|[<-|[]]]]; inversion X; subst; cbn; auto. }
    assert (K : known k (scalar_name s) (merge_fields fss)).
    { apply merge_known.
      - cbn in Sc. destruct Sc as [<-|[<-|[<-|[]]]]; cbn; repeat split; discriminate.
      - intros f F. discriminate.
      - intros fs f I J. destruct (forall2_right _ _ _ B _ I) as (v & Iv & m1 & s1 & s2 & -> & C).
        destruct (create_in _ _ _ _ _ _ _ C J) as [[]|(v & Iw' & Tv)]. destruct (Sn v) as (P & T); [eapply Sh; eauto|].
        specialize (Tv P). unfold one_of. rewrite Tv. destruct T as [T| ->]; [left; congruence|right; reflexivity].
      - right.
        destruct (forall2_left _ _ _ B _ Im) as (fs & If & m1 & s1 & s2 & E & C). injection E as <-.
        rewrite Forall_forall in Ob. destruct (Ob _ Im) as (m1 & E & _ & Nd & _). injection E as <-.
        destruct (Sn w (Sh _ _ Im Iw)) as (P & [T|T]); [|congruence].
        exists fs, (field_of (TNamed (to_gql_type w) false)). split; [exact If|]. split; [|cbn; exact T].
        apply (oget_in scmp scmp_order). eapply create_primitive; eauto. }
    destruct K as (f & G & T). exists (with_fields (merge_fields fss)), f. split; [apply oget_same|]. auto.
  Qed.
End Known.

Lemma well_formed prefix v st name st' : generate_types prefix v st = (name, st') ->
  (forall k, (gs_next st <= k)%Z -> oget scmp (numbered prefix k) (gs_types st) = None) ->
  (gs_next st <= gs_next st')%Z /\
  (forall n, (forall k, (gs_next st <= k < gs_next st')%Z -> n <> numbered prefix k) ->
     oget scmp n (gs_types st') = oget scmp n (gs_types st)) /\
  (plain_scalar name \/ exists t, oget scmp name (gs_types st') = Some t) /\
  (forall k, (gs_next st <= k < gs_next st')%Z -> exists t, oget scmp (numbered prefix k) (gs_types st') = Some t /\ t_fields t <> [] /\
     forall n f, oget scmp n (t_fields t) = Some f -> graphql_name n /\
       (plain_scalar (type_name (f_type f)) \/ exists j, (gs_next st <= j < k)%Z /\ type_name (f_type f) = numbered prefix j)).
Proof.
  intros H Fr. destruct (proj1 (all_ok prefix v) st name st' H Fr) as ((L & F & N) & Nm & _).
  split; [exact L|]. split; [exact F|]. split; [|exact N].
  destruct Nm as [X|(k & K & ->)]; [now left|right]. destruct (N k K) as (t & T & _). eauto.
Qed.
Lemma sample_fits prefix v st name st' : generate_types prefix v st = (name, st') ->
  (forall k, (gs_next st <= k)%Z -> oget scmp (numbered prefix k) (gs_types st) = None) ->
  regular v -> describes (gs_types st') (sample_type v name) v.
Proof. intros H Fr R. destruct (proj1 (all_ok prefix v) st name st' H Fr) as (_ & _ & _ & G). auto. Qed.

Section Detail.
  Variable prefix : string.
  Local Notation gen := (generate_types prefix).
  Local Notation create := (create_type_from_object gen).

  Lemma detailed_mono t t' ty v : extends t t' -> detailed t ty v -> detailed t' ty v.
  Proof.
    intros E. revert v ty. fix IH 3. intros v ty H. destruct H as [| | | | |m k w I N|m n g T G K A|l n Z A].
    1-5: constructor.
    - eapply detailed_odd; eauto.
    - apply detailed_object with g; [exact T|apply E, G|exact K|]. intros k v f I F. apply IH. eapply A; eauto.
    - apply detailed_list; [exact Z|]. intros Ne T. destruct (A Ne T) as (g & G & R). exists g. split; [apply E, G|exact R].
  Qed.

  Definition detail_ok (v : value) : Prop := forall st name st', gen v st = (name, st') -> fresh prefix st -> distinct v ->
    detailed (gs_types st') (sample_type v name) v.

  Lemma create_step m fs st fs' st' : create m fs st = (fs', st') -> fresh prefix st ->
    step prefix st st' /\ (forall k, oget scmp k fs <> None \/ In k (map fst m) -> oget scmp k fs' <> None).
  Proof.
    intros H Fr. destruct (create_ok prefix m) with (1 := proj2 (Forall_forall (fun kv : string * value => gen_ok prefix (snd kv)) m) (fun kv _ => proj1 (all_ok prefix (snd kv)))) (2 := H) (3 := Fr) as (S & _ & B).
    auto.
  Qed.
  Lemma create_detail m : Forall (fun kv => detail_ok (snd kv)) m -> forall fs st fs' st', create m fs st = (fs', st') -> fresh prefix st ->
    NoDup (map fst m) -> (forall k v, In (k, v) m -> distinct v) -> forall k v f, In (k, v) m -> oget scmp k fs' = Some f -> detailed (gs_types st') (f_type f) v.
  Proof.
    induction 1 as [|[a w] m W _ IH]; intros fs st fs' st' H Fr N D k v f I F; [contradiction|].
    rewrite create_cons in H. destruct (gen w st) as [n s1] eqn:E. cbn in N. inversion N as [|? ? X Y]; subst.
    destruct (proj1 (all_ok prefix w) st n s1 E Fr) as (S1 & _). pose proof (step_fresh _ _ _ S1 Fr) as Fr1.
    destruct I as [I|I].
    - injection I as -> ->. rewrite (create_other _ _ _ _ _ _ k H X), oget_same in F. injection F as <-. cbn [field_of f_type].
      destruct (create_step _ _ _ _ _ H Fr1) as (S2 & _).
      eapply detailed_mono; [eapply step_extends; eauto|]. eapply W; [exact E|exact Fr|]. eapply D. now left.
    - eapply IH; eauto. intros k' v' J. eapply D. right. exact J.
  Qed.

  Lemma create_some m : forall fs st fs' st' k, create m fs st = (fs', st') -> oget scmp k fs <> None \/ In k (map fst m) -> oget scmp k fs' <> None.
  Proof.
    induction m as [|[a v] m IH]; intros fs st fs' st' k H O; [cbn in H; injection H as <- <-; destruct O as [O|[]]; exact O|].
    rewrite create_cons in H. destruct (gen v st) as [n s1]. eapply IH; [exact H|].
    destruct O as [O|[<-|O]]; [left; now apply oget_oins_some|left; cbn; rewrite oget_same; discriminate|now right].
  Qed.
  Lemma all_detailed v : detail_ok v.
  Proof.
    induction v as [| | | | |l IH|m IH] using value_ind'; intros st name st' H Fr D.
    1-5: cbn in H; injection H as <- <-; inversion D; constructor.
    - unfold sample_type. cbn [is_array into_list]. apply detailed_list.
      + intros ->. cbn in H. now injection H as <- <-.
      + intros Ne T. rewrite gen_list in H. destruct (loop_objects prefix l T [] st name st' H (or_intror Ne)) as (fss & st1 & A & B).
        cbn [app] in A. unfold add_type in A. injection A as <- <-. exists (with_fields (merge_fields fss)). split; [apply oget_same|].
        cbn [with_fields t_fields]. intros k. split.
        * intros F. destruct (oget scmp k (merge_fields fss)) as [f|] eqn:G; [|congruence]. apply (oget_in scmp scmp_order) in G.
          apply merged_in in G. destruct G as [[]|(fs & I & G)]. destruct (forall2_right _ _ _ B _ I) as (v & Iv & m & s & s' & -> & C).
          exists m. split; [exact Iv|]. destruct (create_in _ _ _ _ _ _ _ _ C G) as [[]|(v & J & _)]. apply in_fst. eauto.
        * intros (m & I & K). apply merged_some. right. destruct (forall2_left _ _ _ B _ I) as (fs & J & m' & s & s' & E & C).
          injection E as <-. exists fs. split; [exact J|]. rewrite Forall_forall in T. destruct (T _ I) as (m' & E & _ & Nd & _). injection E as <-.
          specialize (create_some _ _ _ _ _ k C (or_intror K)) as X. destruct (oget scmp k fs) as [f|] eqn:G; [|congruence].
          apply (in_fst k). exists f. now apply (oget_in scmp scmp_order).
    - inversion D as [| | | | |m' Nd Dm]; subst. unfold sample_type. cbn [is_array]. destruct (is_graphql_compatible (VObj m)) eqn:Co.
      2:{ rewrite gen_incompatible in H by exact Co. injection H as <- <-. cbn in Co. destruct m as [|kv m]; [constructor|].
          assert (exists k w, In (k, w) (kv :: m) /\ is_valid_field_name k = false) as (k & w & I & V).
          { revert Co. generalize (kv :: m) as l. clear. induction l as [|[k w] l IH]; cbn; [discriminate|]. intros H. apply andb_false_iff in H.
            destruct H as [H|H]; [exists k, w; auto|]. destruct (IH H) as (k' & w' & I & V). exists k', w'. auto. }
          eapply detailed_odd; [exact I|]. intros G. apply field_name_iff in G. congruence. }
      cbn [generate_types] in H. rewrite Co in H. cbn [negb] in H. destruct (create m [] st) as [fs s1] eqn:E.
      destruct (create_step _ _ _ _ _ E Fr) as (S1 & B1). pose proof (step_fresh _ _ _ S1 Fr) as Fr1.
      unfold add_type in H. injection H as <- <-. cbn [gs_types].
      assert (Ex : extends (gs_types s1) (oins scmp (gen_name prefix (gs_next s1)) (with_fields fs) (gs_types s1))).
      { intros n x X. rewrite oget_other; [exact X|]. intros ->. rewrite Fr1 in X; [discriminate|lia]. }
      apply detailed_object with (with_fields fs); [|apply oget_same| |].
      + exists m. split; [reflexivity|]. split; [intros ->; discriminate|]. split; [exact Nd|]. intros k w I. eapply compatible_names; eauto.
      + cbn [with_fields t_fields]. intros k. split; [|intros K; apply B1; auto]. intros F.
        destruct (oget scmp k fs) as [f|] eqn:G; [|congruence]. apply (oget_in scmp scmp_order) in G.
        destruct (create_in _ _ _ _ _ _ _ _ E G) as [[]|(v & J & _)]. apply in_fst. eauto.
      + cbn [with_fields t_fields]. intros k v f I F. eapply detailed_mono; [exact Ex|]. eapply create_detail; eauto.
  Qed.
End Detail.
