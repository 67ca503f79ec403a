(** Proofs about merging subgraphs. *)
From Coq Require Import String Ascii ZArith NArith Bool Arith Lia List.
From Verif Require Import Base BaseFacts Ordered OrderedFacts JsonModel TypeModel TypeSpec BuilderModel ConfigModel MergeModel MergeProofs RenameSpec AmbModel AmbSpec AmbProofs FedModel FedSpec.
Import ListNotations.
Open Scope string_scope.
Open Scope list_scope.

(** *** Maps *)
Lemma aget_oget {V} k (m : list (string * V)) : aget k m = oget scmp k m.
Proof.
  induction m as [|[k' v] m IH]; cbn; [auto|]. destruct (String.eqb_spec k k') as [->|N].
  - now rewrite (to_refl _ k' scmp_order).
  - destruct (scmp k k') eqn:E; auto. apply (to_eq _ scmp_order) in E. congruence.
Qed.
Lemma amem_oget {V} k (m : list (string * V)) : amem k m = match oget scmp k m with Some _ => true | None => false end.
Proof. unfold amem. now rewrite aget_oget. Qed.
Lemma oget_app {V} k (a b : list (string * V)) : oget scmp k (a ++ b) = match oget scmp k a with Some v => Some v | None => oget scmp k b end.
Proof. induction a as [|[k' v] a IH]; cbn; [auto|]. destruct (scmp k k'); auto. Qed.
Lemma oget_filter {V} (p : string -> bool) k (m : list (string * V)) :
  oget scmp k (filter (fun kv => p (fst kv)) m) = if p k then oget scmp k m else None.
Proof.
  induction m as [|[k' v] m IH]; cbn; [now destruct (p k)|].
  destruct (scmp k k') eqn:E.
  - apply (to_eq _ scmp_order) in E. subst k'. destruct (p k) eqn:P; cbn; [now rewrite (to_refl _ k scmp_order)|]. rewrite IH. auto.
  - destruct (p k'); cbn; rewrite ?E; auto.
  - destruct (p k'); cbn; rewrite ?E; auto.
Qed.
Lemma nodup_in_oget {V} k v (m : list (string * V)) : NoDup (map fst m) -> In (k, v) m -> oget scmp k m = Some v.
Proof. intros N I. rewrite <- aget_oget. now apply NoDup_aget. Qed.

(** Inserting the entries of a list one after the other. *)
Lemma insert_all {V} k : forall (l acc : list (string * V)), NoDup (map fst l) ->
  oget scmp k (fold_left (fun acc kv => oins scmp (fst kv) (snd kv) acc) l acc) =
  match oget scmp k l with Some v => Some v | None => oget scmp k acc end.
Proof.
  induction l as [|[k' v] l IH]; intros acc N; cbn [fold_left fst snd oget]; [auto|].
  inversion N as [|? ? N1 N2]; subst. rewrite IH by auto. destruct (scmp k k') eqn:E.
  - apply (to_eq _ scmp_order) in E. subst k'.
    assert (X : oget scmp k l = None) by (apply oget_none; [exact scmp_order|auto]). rewrite X.
    apply oget_oins_same. exact scmp_order.
  - destruct (oget scmp k l); [auto|]. apply oget_oins_other; [exact scmp_order|]. intros ->. rewrite (to_refl _ k' scmp_order) in E. discriminate.
  - destruct (oget scmp k l); [auto|]. apply oget_oins_other; [exact scmp_order|]. intros ->. rewrite (to_refl _ k' scmp_order) in E. discriminate.
Qed.
Lemma insert_all_sorted {V} : forall (l acc : list (string * V)), osorted scmp acc ->
  osorted scmp (fold_left (fun acc kv => oins scmp (fst kv) (snd kv) acc) l acc).
Proof.
  induction l as [|[k v] l IH]; intros acc N; cbn [fold_left]; [auto|]. apply IH. apply osorted_oins; [exact scmp_order|auto].
Qed.
Lemma filter_sorted {V} (p : string * V -> bool) m : osorted scmp m -> osorted scmp (filter p m).
Proof.
  induction 1 as [|k v t L S IH]; cbn; [constructor|]. destruct (p (k, v)); [|auto]. constructor; [|auto].
  intros k' v' I. apply filter_In in I as [I _]. eauto.
Qed.

(** *** Collected results *)
Lemma vfuse_ok {A B} (a : valid A) (b : valid B) p : vfuse a b = Ok p -> a = Ok (fst p) /\ b = Ok (snd p).
Proof. destruct a, b; cbn; try discriminate. intros E. now injection E as <-. Qed.
Lemma rmap_ok {A B E} (f : A -> B) (x : result A E) y : rmap f x = Ok y -> exists a, x = Ok a /\ y = f a.
Proof. destruct x; cbn; [|discriminate]. intros H. injection H as <-. eauto. Qed.
Lemma viter_ok {A B} (f : A -> valid B) : forall l bs, viter f l = Ok bs -> Forall2 (fun a b => f a = Ok b) l bs.
Proof.
  induction l as [|a l IH]; cbn; intros bs E; [injection E as <-; constructor|].
  apply rmap_ok in E as ([b bs'] & E & ->). apply vfuse_ok in E as [E1 E2]. constructor; auto.
Qed.
Lemma forall2_keys {V W X} (f : string * V -> valid (string * W)) (P : X) : forall l bs,
  (forall kv b, f kv = Ok b -> fst b = fst kv) -> Forall2 (fun a b => f a = Ok b) l bs -> map fst bs = map fst l.
Proof. intros l bs H F. induction F; cbn; [auto|]. f_equal; eauto. Qed.

(** *** Type references *)
(** [narrower a b]: the same type, with at least the bangs of [b]. *)
Inductive narrower : typ -> typ -> Prop :=
| nar_named n a b : (b = true -> a = true) -> narrower (TNamed n a) (TNamed n b)
| nar_list t u a b : narrower t u -> (b = true -> a = true) -> narrower (TList t a) (TList u b).
Lemma narrower_refl t : narrower t t.
Proof. induction t; constructor; auto. Qed.
Lemma narrower_trans a b c : narrower a b -> narrower b c -> narrower a c.
Proof.
  intros H. revert c. induction H as [n x y H|t u x y H IH Hb]; intros c K; inversion K; subst; constructor; auto.
Qed.
Lemma narrower_name a b : narrower a b -> type_name a = type_name b.
Proof. induction 1; cbn; auto. Qed.
Lemma narrower_null a b : narrower a b -> is_nullable a = true -> is_nullable b = true.
Proof.
  intros H. destruct H as [n a b H|t u a b _ H]; cbn; destruct a, b; cbn; auto.
Qed.
Lemma typ_merge_ok g : forall a b c, typ_merge g a b = Ok c ->
  (forall x y, g x y = orb x y) -> narrower c a /\ narrower c b.
Proof.
  induction a as [n x|a IH x]; intros [m y|b y] c E G; cbn in E; try discriminate.
  - destruct (String.eqb_spec n m) as [->|]; [|discriminate]. injection E as <-. rewrite G. split; constructor; intros ->; auto using orb_true_r.
  - apply rmap_ok in E as (t & E & ->). destruct (IH b t E G) as [A B]. rewrite G. split; constructor; auto; intros ->; auto using orb_true_r.
Qed.
Lemma typ_shrink_ok a b c : typ_shrink a b = Ok c -> narrower c a /\ narrower c b.
Proof. intros E. eapply typ_merge_ok; eauto. Qed.
Lemma typ_expand_ok : forall a b c, typ_expand a b = Ok c -> narrower a c /\ narrower b c.
Proof.
  unfold typ_expand. induction a as [n x|a IH x]; intros [m y|b y] c E; cbn in E; try discriminate.
  - destruct (String.eqb_spec n m) as [->|]; [|discriminate]. injection E as <-. split; constructor; destruct x, y; cbn; auto.
  - apply rmap_ok in E as (t & E & ->). destruct (IH b t E) as [A B]. split; constructor; auto; destruct x, y; cbn; auto.
Qed.
(** The shrunken type is the widest below both. *)
Lemma typ_shrink_glb : forall a b c d, typ_shrink a b = Ok c -> narrower d a -> narrower d b -> narrower d c.
Proof.
  unfold typ_shrink. induction a as [n x|a IH x]; intros [m y|b y] c d E A B; cbn in E; try discriminate.
  - destruct (String.eqb_spec n m) as [->|]; [|discriminate]. injection E as <-. inversion A; inversion B; subst.
    match goal with H : TNamed _ _ = TNamed _ _ |- _ => injection H as -> end.
    constructor. intros H. apply orb_true_iff in H as [-> | ->]; auto.
  - apply rmap_ok in E as (t & E & ->). inversion A; inversion B; subst.
    match goal with H : TList _ _ = TList _ _ |- _ => injection H as -> -> end.
    constructor; [eauto|]. intros H. apply orb_true_iff in H as [-> | ->]; auto.
Qed.

(** *** Entries *)
Section Entries.
  Context {V : Type} (type_of : V -> typ).

  (** What happens to one name. *)
  Lemma entries_shrink_ok (shrink : V -> V -> valid V) a b l : NoDup (map fst b) -> entries_shrink type_of shrink a b = Ok l ->
    NoDup (map fst l) /\
    forall k,
    match oget scmp k a, oget scmp k b with
    | Some x, Some y => exists z, shrink x y = Ok z /\ oget scmp k l = Some z
    | Some x, None => is_nullable (type_of x) = true /\ oget scmp k l = None
    | None, Some y => is_nullable (type_of y) = true /\ oget scmp k l = None
    | None, None => oget scmp k l = None
    end.
  Proof.
    unfold entries_shrink. intros N E. apply rmap_ok in E as ([ms us] & E & ->). apply vfuse_ok in E as [E1 E2].
    cbn [fst snd] in *. apply viter_ok in E1. apply viter_ok in E2.
    assert (B : incl (map fst (flat_map opt_list ms)) (map fst b) /\ NoDup (map fst (flat_map opt_list ms)) /\ forall k,
      match oget scmp k b with
      | Some y => match oget scmp k a with
                  | Some x => exists z, shrink x y = Ok z /\ oget scmp k (flat_map opt_list ms) = Some z
                  | None => is_nullable (type_of y) = true /\ oget scmp k (flat_map opt_list ms) = None
                  end
      | None => oget scmp k (flat_map opt_list ms) = None
      end).
    { clear E2. revert N. induction E1 as [|[k0 y] m b' ms' H F IH]; intros N.
      - refine (conj (incl_refl _) (conj _ _)); [constructor|]. intros k. reflexivity.
      - inversion N as [|? ? N1 N2]; subst. specialize (IH N2) as (I1 & I2 & I3). cbn [fst snd] in H. rewrite aget_oget in H.
        assert (X : oget scmp k0 b' = None) by (apply oget_none; [exact scmp_order|auto]).
        destruct (oget scmp k0 a) as [x|] eqn:Ga.
        + apply rmap_ok in H as (z & H & ->). cbn [flat_map opt_list app map fst]. refine (conj _ (conj _ _)).
          * intros k [<-|I]; [now left|right; auto].
          * constructor; auto.
          * intros k. cbn [oget]. destruct (scmp k k0) eqn:C; [|apply I3|apply I3].
            apply (to_eq _ scmp_order) in C. subst k. rewrite Ga. eauto.
        + destruct (is_nullable (type_of y)) eqn:Nu; [|discriminate]. injection H as <-. cbn [flat_map opt_list app map fst]. refine (conj _ (conj I2 _)).
          * intros k I. right. auto.
          * intros k. cbn [oget]. destruct (scmp k k0) eqn:C; [|apply I3|apply I3].
            apply (to_eq _ scmp_order) in C. subst k. rewrite Ga. split; [auto|]. specialize (I3 k0). now rewrite X in I3. }
    destruct B as (_ & B2 & B3). split; [auto|]. intros k. specialize (B3 k).
    destruct (oget scmp k a) as [x|] eqn:Ga, (oget scmp k b) as [y|] eqn:Gb; auto. split; [|auto].
    assert (I : In (k, x) (filter (fun na => negb (amem (fst na) b)) a)).
    { apply filter_In. split; [now apply (oget_in scmp scmp_order)|]. cbn [fst]. now rewrite amem_oget, Gb. }
    clear - E2 I. induction E2 as [|na u l' us' H F IH]; [destruct I|]. destruct I as [->|I]; [|auto].
    cbn [snd] in H. destruct (is_nullable (type_of x)); [auto|discriminate].
  Qed.

  Lemma merged_entries (one : string -> V -> V -> valid V) a : forall b l, NoDup (map fst b) ->
    viter (fun nb => match aget (fst nb) a with Some x => rmap (fun m => (fst nb, m)) (one (fst nb) x (snd nb)) | None => Ok nb end) b = Ok l ->
    map fst l = map fst b /\
    forall k,
      match oget scmp k b with
      | Some y => match oget scmp k a with
                  | Some x => exists z, one k x y = Ok z /\ oget scmp k l = Some z
                  | None => oget scmp k l = Some y
                  end
      | None => oget scmp k l = None
      end.
  Proof.
    intros b l N E. apply viter_ok in E. induction E as [|[k0 y] m b' ms' H F IH].
    - split; [auto|]. intros k. reflexivity.
    - inversion N as [|? ? N1 N2]; subst. specialize (IH N2) as (I1 & I3). cbn [fst snd] in H. rewrite aget_oget in H.
      assert (Fm : fst m = k0 /\ match oget scmp k0 a with Some x => one k0 x y = Ok (snd m) | None => snd m = y end).
      { destruct (oget scmp k0 a) as [x|] eqn:Ga; [|now injection H as <-]. apply rmap_ok in H as (z & H & ->). auto. }
      destruct m as [k1 z]. cbn [fst snd] in Fm. destruct Fm as [-> Fm]. cbn [map fst]. split; [now f_equal|].
      intros k. cbn [oget]. destruct (scmp k k0) eqn:C; [|apply I3|apply I3].
      apply (to_eq _ scmp_order) in C. subst k. destruct (oget scmp k0 a); [eauto|congruence].
  Qed.

  Lemma entries_expand_ok (expand : V -> V -> valid V) a b l : NoDup (map fst a) -> NoDup (map fst b) -> entries_expand expand a b = Ok l ->
    NoDup (map fst l) /\
    forall k,
    match oget scmp k a, oget scmp k b with
    | Some x, Some y => exists z, expand x y = Ok z /\ oget scmp k l = Some z
    | Some x, None => oget scmp k l = Some x
    | None, Some y => oget scmp k l = Some y
    | None, None => oget scmp k l = None
    end.
  Proof.
    unfold entries_expand. intros Na N E. apply rmap_ok in E as (ms & E & ->).
    apply (merged_entries (fun _ => expand)) in E as (E1 & E2); [|auto]. split.
    - rewrite map_app, E1. clear E2. assert (X : forall k, In k (map fst (filter (fun na : string * V => negb (amem (fst na) b)) a)) -> ~ In k (map fst b)).
      { intros k I. apply in_map_iff in I as ([k' v] & <- & I). apply filter_In in I as [_ I]. cbn in I |- *. rewrite amem_oget in I.
        destruct (oget scmp k' b) eqn:G; [discriminate|]. apply oget_none in G; [auto|exact scmp_order]. }
      assert (Y : NoDup (map fst (filter (fun na : string * V => negb (amem (fst na) b)) a))).
      { clear - Na. induction a as [|[k v] a IH]; cbn; [constructor|]. inversion Na; subst. destruct (negb (amem k b)); cbn; [|auto].
        constructor; [|auto]. intros I. apply in_map_iff in I as ([k' w] & <- & I). apply filter_In in I as [I _]. cbn in *.
        match goal with H : ~ In _ _ |- _ => apply H end. apply in_map_iff. now exists (k', w). }
      clear - N X Y. revert X Y. generalize (map fst (filter (fun na : string * V => negb (amem (fst na) b)) a)) as r. revert N. generalize (map fst b) as q.
      induction q as [|k q IH]; cbn; intros N r X Y; [auto|]. inversion N; subst. constructor.
      + rewrite in_app_iff. intros [I|I]; [auto|]. apply (X k I). now left.
      + apply IH; auto. intros k' I J. apply (X k' I). now right.
    - intros k. specialize (E2 k). rewrite oget_app, (oget_filter (fun k => negb (amem k b))), amem_oget.
      destruct (oget scmp k b) as [y|].
      + destruct (oget scmp k a) as [x|]; [|now rewrite E2]. destruct E2 as (z & E2 & ->). eauto.
      + rewrite E2. cbn. now destruct (oget scmp k a).
  Qed.

  Lemma unify_definitions_ok (one : string -> V -> V -> valid V) a b l : NoDup (map fst b) -> unify_definitions one a b = Ok l ->
    forall k,
    match oget scmp k a, oget scmp k b with
    | Some x, Some y => exists z, one k x y = Ok z /\ oget scmp k l = Some z
    | Some x, None => oget scmp k l = Some x
    | None, Some y => oget scmp k l = Some y
    | None, None => oget scmp k l = None
    end.
  Proof.
    unfold unify_definitions. intros N E k. apply rmap_ok in E as (ms & E & ->).
    apply merged_entries in E as (E1 & E2); [|auto]. specialize (E2 k). rewrite insert_all by (rewrite E1; auto).
    rewrite (oget_filter (fun k => negb (amem k b))), amem_oget. destruct (oget scmp k b) as [y|].
    - destruct (oget scmp k a) as [x|]; [|now rewrite E2]. destruct E2 as (z & E2 & ->). eauto.
    - rewrite E2. cbn. now destruct (oget scmp k a).
  Qed.
  Lemma unify_definitions_sorted (one : string -> V -> V -> valid V) a b l : osorted scmp a -> unify_definitions one a b = Ok l -> osorted scmp l.
  Proof.
    unfold unify_definitions. intros So E. apply rmap_ok in E as (ms & E & ->). apply insert_all_sorted. now apply filter_sorted.
  Qed.
End Entries.

(** *** Narrower and wider definitions *)
Definition narrow {V} (type_of : V -> typ) (A A1 : list (string * V)) : Prop :=
  (forall k a, oget scmp k A = Some a -> exists a1, oget scmp k A1 = Some a1 /\ narrower (type_of a) (type_of a1)) /\
  (forall k a1, oget scmp k A1 = Some a1 -> is_nullable (type_of a1) = false -> oget scmp k A <> None).
Definition wide (A1 A : list (string * field)) : Prop :=
  forall k f1, oget scmp k A1 = Some f1 ->
    exists f, oget scmp k A = Some f /\ narrower (f_type f1) (f_type f) /\ narrow arg_type (f_args f) (f_args f1).

Lemma narrow_refl {V} (type_of : V -> typ) A : narrow type_of A A.
Proof. split; [intros k a H; eauto using narrower_refl|congruence]. Qed.
Lemma narrow_trans {V} (type_of : V -> typ) A B C : narrow type_of A B -> narrow type_of B C -> narrow type_of A C.
Proof.
  intros [A1 A2] [B1 B2]. split.
  - intros k a H. apply A1 in H as (b & H & N). apply B1 in H as (c & H & N'). eauto using narrower_trans.
  - intros k c0 H N. destruct (oget scmp k B) as [b|] eqn:Gb; [|exfalso; now apply (B2 k c0 H N)].
    apply (A2 k b Gb). destruct (B1 k b Gb) as (c' & G & Nr). rewrite H in G. injection G as <-.
    destruct (is_nullable (type_of b)) eqn:E; [|auto]. rewrite (narrower_null _ _ Nr E) in N. discriminate.
Qed.
Lemma wide_refl A : wide A A.
Proof. intros k f H. exists f. auto using narrower_refl, narrow_refl. Qed.
Lemma wide_trans A B C : wide A B -> wide B C -> wide A C.
Proof.
  intros H K k f E. apply H in E as (g & E & N & R). apply K in E as (h & E & N' & R'). exists h.
  eauto using narrower_trans, narrow_trans.
Qed.

Lemma entries_narrow {V} (type_of : V -> typ) shrink a b l :
  (forall x y z, shrink x y = Ok z -> narrower (type_of z) (type_of x) /\ narrower (type_of z) (type_of y)) ->
  NoDup (map fst b) -> entries_shrink type_of shrink a b = Ok l -> narrow type_of l a /\ narrow type_of l b.
Proof.
  intros S N E. apply entries_shrink_ok in E as [_ E]; [|auto]. split; split.
  - intros k z H. specialize (E k). destruct (oget scmp k a) as [x|], (oget scmp k b) as [y|]; rewrite ?H in E.
    + destruct E as (z' & E & E'). injection E' as <-. apply S in E as []. eauto.
    + destruct E; discriminate.
    + destruct E; discriminate.
    + discriminate.
  - intros k x H Nu. specialize (E k). rewrite H in E. destruct (oget scmp k b) as [y|].
    + destruct E as (z & _ & ->). discriminate.
    + destruct E; congruence.
  - intros k z H. specialize (E k). destruct (oget scmp k a) as [x|], (oget scmp k b) as [y|]; rewrite ?H in E.
    + destruct E as (z' & E & E'). injection E' as <-. apply S in E as []. eauto.
    + destruct E; discriminate.
    + destruct E; discriminate.
    + discriminate.
  - intros k y H Nu. specialize (E k). rewrite H in E. destruct (oget scmp k a) as [x|].
    + destruct E as (z & _ & ->). discriminate.
    + destruct E; congruence.
Qed.

Lemma arg_shrink_ok a b c : arg_shrink a b = Ok c -> narrower (arg_type c) (arg_type a) /\ narrower (arg_type c) (arg_type b).
Proof. unfold arg_shrink. intros E. apply rmap_ok in E as (t & E & ->). cbn. now apply typ_shrink_ok. Qed.
Lemma args_shrink_ok a b l : NoDup (map fst b) -> args_shrink a b = Ok l -> narrow arg_type l a /\ narrow arg_type l b.
Proof. apply entries_narrow. apply arg_shrink_ok. Qed.
Lemma field_shrink_ok a b c : field_shrink a b = Ok c -> typ_shrink (f_type a) (f_type b) = Ok (f_type c).
Proof. unfold field_shrink. intros E. apply rmap_ok in E as ([t l] & E & ->). now apply vfuse_ok in E as [E _]. Qed.
Lemma field_expand_ok a b c : NoDup (map fst (f_args b)) -> field_expand a b = Ok c ->
  (narrower (f_type a) (f_type c) /\ narrow arg_type (f_args c) (f_args a)) /\
  (narrower (f_type b) (f_type c) /\ narrow arg_type (f_args c) (f_args b)).
Proof.
  unfold field_expand. intros N E. apply rmap_ok in E as ([t l] & E & ->). apply vfuse_ok in E as [E1 E2]. cbn in *.
  apply typ_expand_ok in E1 as []. apply args_shrink_ok in E2 as []; auto.
Qed.

Lemma omap_of_get {V} k (l : list (string * V)) : NoDup (map fst l) -> oget scmp k (omap_of scmp l) = oget scmp k l.
Proof. intros N. unfold omap_of. rewrite insert_all by auto. now destruct (oget scmp k l). Qed.
Lemma narrow_ext {V} (type_of : V -> typ) A B C : (forall k, oget scmp k A = oget scmp k B) -> narrow type_of A C -> narrow type_of B C.
Proof. intros H [N1 N2]. split; intros k a; rewrite <- H; eauto. Qed.

(** Merging one type for input. *)
Lemma gtype_shrink_ok a b t : NoDup (map fst (t_fields b)) -> gtype_shrink a b = Ok t ->
  osorted scmp (t_fields t) /\
  narrow f_type (t_fields t) (t_fields a) /\ narrow f_type (t_fields t) (t_fields b) /\
  (forall k, match oget scmp k (t_fields a), oget scmp k (t_fields b) with
             | Some x, Some y => exists z, typ_shrink (f_type x) (f_type y) = Ok (f_type z) /\ oget scmp k (t_fields t) = Some z
             | _, _ => oget scmp k (t_fields t) = None
             end).
Proof.
  unfold gtype_shrink. intros N E. apply rmap_ok in E as (l & E & ->). cbn [gtype_with t_fields].
  assert (X := E). apply entries_narrow in X as [X1 X2]; [|intros x y z H; now apply typ_shrink_ok, field_shrink_ok|auto].
  apply entries_shrink_ok in E as [Nl E]; [|auto]. refine (conj _ (conj _ (conj _ _))).
  - apply osorted_omap_of. exact scmp_order.
  - eapply narrow_ext; [|exact X1]. intros k. now rewrite omap_of_get.
  - eapply narrow_ext; [|exact X2]. intros k. now rewrite omap_of_get.
  - intros k. specialize (E k). rewrite omap_of_get by auto. destruct (oget scmp k (t_fields a)), (oget scmp k (t_fields b)); auto.
    + destruct E as (z & E & E'). apply field_shrink_ok in E. eauto.
    + now destruct E.
    + now destruct E.
Qed.
(** ... and for output. *)
Lemma gtype_expand_ok a b t : NoDup (map fst (t_fields a)) -> NoDup (map fst (t_fields b)) ->
  (forall k f, oget scmp k (t_fields b) = Some f -> NoDup (map fst (f_args f))) -> gtype_expand a b = Ok t ->
  osorted scmp (t_fields t) /\
  (wide (t_fields a) (t_fields t) /\ incl (t_implements a) (t_implements t)) /\
  (wide (t_fields b) (t_fields t) /\ incl (t_implements b) (t_implements t)) /\
  (forall k, oget scmp k (t_fields t) <> None -> oget scmp k (t_fields a) <> None \/ oget scmp k (t_fields b) <> None).
Proof.
  unfold gtype_expand. intros Na Nb Ar E. apply rmap_ok in E as (l & E & ->). cbn [gtype_with t_fields t_implements].
  apply entries_expand_ok in E as [Nl E]; [|auto|auto]. refine (conj _ (conj (conj _ _) (conj (conj _ _) _))).
  - apply osorted_omap_of. exact scmp_order.
  - intros k f H. rewrite omap_of_get by auto. specialize (E k). rewrite H in E. destruct (oget scmp k (t_fields b)) as [y|] eqn:Gb.
    + destruct E as (z & E & ->). apply field_expand_ok in E as [[] _]; eauto.
    + rewrite E. eauto using narrower_refl, narrow_refl.
  - intros x I. unfold m_set. apply sextend_in; [exact scmp_order|auto].
  - intros k f H. rewrite omap_of_get by auto. specialize (E k). rewrite H in E. destruct (oget scmp k (t_fields a)) as [y|] eqn:Gb.
    + destruct E as (z & E & ->). apply field_expand_ok in E as [_ []]; eauto.
    + rewrite E. eauto using narrower_refl, narrow_refl.
  - intros x I. unfold m_set. apply sextend_in; [exact scmp_order|auto].
  - intros k. rewrite omap_of_get by auto. specialize (E k). destruct (oget scmp k (t_fields a)), (oget scmp k (t_fields b)); try (left; discriminate); try (right; discriminate).
    congruence.
Qed.

Lemma vcmp_order : total_order vcmp.
Proof. apply cmp_pair_order; [exact scmp_order|]. apply cmp_opt_order, cmp_list_order, scmp_order. Qed.
Lemma has_variant_in v l : has_variant v l = true <-> In v l.
Proof.
  unfold has_variant. rewrite existsb_exists. split.
  - intros (w & I & E). destruct (vcmp v w) eqn:C; try discriminate. apply (to_eq _ vcmp_order) in C. now subst.
  - intros I. exists v. split; [auto|]. now rewrite (to_refl _ v vcmp_order).
Qed.
Lemma genum_eqb_ok a b : genum_eqb a b = true -> a = b.
Proof.
  unfold genum_eqb. destruct a as [v d], b as [w e]. cbn.
  destruct (cmp_list vcmp v w) eqn:C; try discriminate. destruct (cmp_opt scmp d e) eqn:D; try discriminate. intros _.
  apply (to_eq _ (cmp_list_order _ vcmp_order)) in C. apply (to_eq _ (cmp_opt_order _ scmp_order)) in D. congruence.
Qed.

Definition narrow_at (c c1 : config) (n : string) : Prop :=
  kind_of c n = kind_of c1 n /\
  (kind_of c n = KEnum -> forall e, find_enum c n = Some e -> exists e1, find_enum c1 n = Some e1 /\ incl (e_variants e) (e_variants e1)) /\
  (kind_of c n = KObject -> forall t, find_type c n = Some t -> exists t1, find_type c1 n = Some t1 /\ narrow f_type (t_fields t) (t_fields t1)).
Definition wide_at (c1 c : config) (n : string) : Prop :=
  kind_of c n = kind_of c1 n /\
  (kind_of c1 n = KEnum -> forall e1, find_enum c1 n = Some e1 -> exists e, find_enum c n = Some e /\ incl (e_variants e1) (e_variants e)) /\
  (forall u1, find_union c1 n = Some u1 -> exists u, find_union c n = Some u /\ incl (u_types u1) (u_types u)) /\
  (kind_of c1 n = KObject -> forall t1, find_type c1 n = Some t1 ->
     exists t, find_type c n = Some t /\ wide (t_fields t1) (t_fields t) /\ incl (t_implements t1) (t_implements t)).

Lemma narrow_at_trans c c1 c2 n : narrow_at c c1 n -> narrow_at c1 c2 n -> narrow_at c c2 n.
Proof.
  intros (K1 & E1 & T1) (K2 & E2 & T2). refine (conj _ (conj _ _)); [congruence| |].
  - intros K e F. destruct (E1 K e F) as (e1 & F1 & I1). destruct (E2 ltac:(congruence) e1 F1) as (e2 & F2 & I2). eauto using incl_tran.
  - intros K t F. destruct (T1 K t F) as (t1 & F1 & I1). destruct (T2 ltac:(congruence) t1 F1) as (t2 & F2 & I2). eauto using narrow_trans.
Qed.
Lemma wide_at_trans c c1 c2 n : wide_at c c1 n -> wide_at c1 c2 n -> wide_at c c2 n.
Proof.
  intros (K1 & E1 & U1 & T1) (K2 & E2 & U2 & T2). refine (conj _ (conj _ (conj _ _))); [congruence| | |].
  - intros K e F. destruct (E1 K e F) as (e1 & F1 & I1). destruct (E2 ltac:(congruence) e1 F1) as (e2 & F2 & I2). eauto using incl_tran.
  - intros e F. destruct (U1 e F) as (e1 & F1 & I1). destruct (U2 e1 F1) as (e2 & F2 & I2). eauto using incl_tran.
  - intros K t F. destruct (T1 K t F) as (t1 & F1 & W1 & I1). destruct (T2 ltac:(congruence) t1 F1) as (t2 & F2 & W2 & I2). eauto 6 using incl_tran, wide_trans.
Qed.

(** *** Values *)
Section Sem.
  Variable scalar : string -> value -> Prop.

  Lemma accepts_narrower c ty v : accepts scalar c ty v -> forall ty1, narrower ty ty1 -> accepts scalar c ty1 v.
  Proof.
    induction 1 as [ty Nu|ty nn l H IH|n nn v K Nv S|n nn e x v K F I E|n nn t m K F H1 H2 IH H3]; intros ty1 N.
    - apply acc_null. eapply narrower_null; eauto.
    - inversion N; subst. apply acc_list. eauto.
    - inversion N; subst. now apply acc_scalar.
    - inversion N; subst. eapply acc_enum; eauto.
    - inversion N; subst. eapply acc_object; eauto.
  Qed.
  Lemma accepts_narrow c c1 (P : string -> Prop) :
    (forall n t f k, P n -> find_type c1 n = Some t -> oget scmp k (t_fields t) = Some f -> P (type_name (f_type f))) ->
    (forall n, P n -> narrow_at c c1 n) ->
    forall ty v, accepts scalar c ty v -> P (type_name ty) -> accepts scalar c1 ty v.
  Proof.
    intros Cl N ty v H. induction H as [ty Nu|ty nn l H IH|n nn v K Nv S|n nn e x v K F I E|n nn t m K F H1 H2 IH H3]; cbn [type_name]; intros Pn.
    - now apply acc_null.
    - apply acc_list. auto.
    - apply acc_scalar; auto. destruct (N n Pn) as (Q & _). congruence.
    - destruct (N n Pn) as (Q & En & _). destruct (En K e F) as (e1 & F1 & I1). eapply acc_enum; [congruence|exact F1| |exact E].
      apply in_map_iff in I as (va & Ev & I). apply in_map_iff. eauto.
    - destruct (N n Pn) as (Q & _ & T). destruct (T K t F) as (t1 & F1 & [N1 N2]). eapply acc_object; [congruence|exact F1| | |].
      + intros k w I. specialize (H1 k w I). destruct (oget scmp k (t_fields t)) as [f|] eqn:G; [|congruence].
        destruct (N1 k f G) as (f1 & G1 & _). congruence.
      + intros k w f1 I G1. specialize (H1 k w I). destruct (oget scmp k (t_fields t)) as [f|] eqn:G; [|congruence].
        destruct (N1 k f G) as (f1' & G1' & Nr). rewrite G1 in G1'. injection G1' as <-.
        eapply accepts_narrower; [|exact Nr]. eapply IH; eauto. rewrite (narrower_name _ _ Nr). eauto.
      + intros k f1 G1 Nu. specialize (N2 k f1 G1 Nu). destruct (oget scmp k (t_fields t)) as [f|] eqn:G; [|congruence].
        destruct (N1 k f G) as (f1' & G1' & Nr). rewrite G1 in G1'. injection G1' as <-. apply (H3 k f G).
        destruct (is_nullable (f_type f)) eqn:Z; [|auto]. rewrite (narrower_null _ _ Nr Z) in Nu. discriminate.
  Qed.

  Lemma conforms_narrower c ty v : conforms scalar c ty v -> forall ty1, narrower ty ty1 -> conforms scalar c ty1 v.
  Proof.
    induction 1 as [ty Nu|ty nn l H IH|n nn v K Nv S|n nn e x v K F I E|n nn t m K F H1 H2 IH|n nn u m v F I H IH|n nn t m v K Km F I H IH]; intros ty1 N.
    - apply con_null. eapply narrower_null; eauto.
    - inversion N; subst. apply con_list. eauto.
    - inversion N; subst. now apply con_scalar.
    - inversion N; subst. eapply con_enum; eauto.
    - inversion N; subst. eapply con_object; eauto.
    - inversion N; subst. eapply con_union; eauto.
    - inversion N; subst. eapply con_implementer; eauto.
  Qed.
  Lemma conforms_wide c1 c (P : string -> Prop) :
    (forall n t f k, P n -> find_type c1 n = Some t -> oget scmp k (t_fields t) = Some f -> P (type_name (f_type f))) ->
    (forall n u m, P n -> find_union c1 n = Some u -> In m (u_types u) -> P m) ->
    (forall n m t, P n -> find_type c1 m = Some t -> In n (t_implements t) -> P m) ->
    (forall n, P n -> wide_at c1 c n) ->
    forall ty v, conforms scalar c1 ty v -> P (type_name ty) -> conforms scalar c ty v.
  Proof.
    intros Cl1 Cl2 Cl3 N ty v H.
    induction H as [ty Nu|ty nn l H IH|n nn v K Nv S|n nn e x v K F I E|n nn t m K F H1 H2 IH|n nn u m v F I H IH|n nn t m v K Km F I H IH]; cbn [type_name]; intros Pn.
    - now apply con_null.
    - apply con_list. auto.
    - apply con_scalar; auto. destruct (N n Pn) as (Q & _). congruence.
    - destruct (N n Pn) as (Q & En & _). destruct (En K e F) as (e1 & F1 & I1). eapply con_enum; [congruence|exact F1| |exact E].
      apply in_map_iff in I as (va & Ev & I). apply in_map_iff. eauto.
    - destruct (N n Pn) as (Q & _ & _ & T). destruct (T K t F) as (t1 & F1 & N1 & _). eapply con_object; [congruence|exact F1| |].
      + intros k w I. specialize (H1 k w I). destruct (oget scmp k (t_fields t)) as [f|] eqn:G; [|congruence].
        destruct (N1 k f G) as (f1 & G1 & _). congruence.
      + intros k w f1 I G1. specialize (H1 k w I). destruct (oget scmp k (t_fields t)) as [f|] eqn:G; [|congruence].
        destruct (N1 k f G) as (f1' & G1' & Nr & _). rewrite G1 in G1'. injection G1' as <-.
        eapply conforms_narrower; [|exact Nr]. eapply IH; eauto.
    - destruct (N n Pn) as (_ & _ & U & _). destruct (U u F) as (u1 & F1 & I1). eapply con_union; eauto.
    - assert (Pm : P m) by eauto. destruct (N n Pn) as (Q & _). destruct (N m Pm) as (Qm & _ & _ & T).
      destruct (T Km t F) as (t1 & F1 & _ & I1). apply (con_implementer scalar c n nn t1 m v); [congruence|congruence|exact F1|auto|auto].
  Qed.
End Sem.

(** *** One merge *)
Lemma kind_none c n : ~ defined c n -> find_type c n = None /\ find_enum c n = None /\ find_union c n = None.
Proof.
  unfold defined. intros H. destruct (find_type c n), (find_enum c n), (find_union c n); auto; exfalso; apply H;
    first [left; discriminate|right; left; discriminate|right; right; discriminate].
Qed.
Lemma defined_dec c n : {defined c n} + {~ defined c n}.
Proof.
  unfold defined. destruct (find_type c n); [left; left; discriminate|]. destruct (find_enum c n); [left; right; left; discriminate|].
  destruct (find_union c n); [left; right; right; discriminate|]. right. intros [H|[H|H]]; congruence.
Qed.
Lemma kind_union c n : kind_of c n = KUnion <-> find_union c n <> None.
Proof.
  unfold kind_of. destruct (find_union c n); [split; congruence|]. destruct (find_enum c n); [split; congruence|].
  destruct (find_type c n) as [t|]; [|split; congruence]. destruct (t_fields t); split; congruence.
Qed.
Lemma kind_enum c n : kind_of c n = KEnum <-> find_union c n = None /\ find_enum c n <> None.
Proof.
  unfold kind_of. destruct (find_union c n); [split; [congruence|intros []; congruence]|].
  destruct (find_enum c n); [split; [split; congruence|auto]|].
  destruct (find_type c n) as [t|]; [destruct (t_fields t)|]; split; try congruence; intros []; congruence.
Qed.
Lemma kind_object c n : kind_of c n = KObject <-> find_union c n = None /\ find_enum c n = None /\ exists t, find_type c n = Some t /\ t_fields t <> [].
Proof.
  unfold kind_of. destruct (find_union c n); [split; [congruence|intros []; congruence]|].
  destruct (find_enum c n); [split; [congruence|intros (_ & H & _); congruence]|].
  destruct (find_type c n) as [t|].
  - destruct (t_fields t) eqn:F; split; try congruence.
    + intros (_ & _ & t' & H & N). injection H as <-. congruence.
    + intros _. refine (conj eq_refl (conj eq_refl _)). exists t. split; congruence.
  - split; [congruence|]. intros (_ & _ & t' & H & _). discriminate.
Qed.
Lemma kind_scalar c n : kind_of c n = KScalar <-> find_union c n = None /\ find_enum c n = None /\ (forall t, find_type c n = Some t -> t_fields t = []).
Proof.
  unfold kind_of. destruct (find_union c n); [split; [congruence|intros []; congruence]|].
  destruct (find_enum c n); [split; [congruence|intros (_ & H & _); congruence]|].
  destruct (find_type c n) as [t|].
  - destruct (t_fields t) eqn:F; split; try congruence.
    + intros _. refine (conj eq_refl (conj eq_refl _)). intros t' H. congruence.
    + intros (_ & _ & H). specialize (H t eq_refl). congruence.
  - split; [|auto]. intros _. refine (conj eq_refl (conj eq_refl _)). discriminate.
Qed.
Lemma fields_none (l : list (string * field)) : (forall k, oget scmp k l = None) -> l = [].
Proof.
  destruct l as [|[k f] l]; [auto|]. intros H. specialize (H k). cbn in H. rewrite (to_refl _ k scmp_order) in H. discriminate.
Qed.

Section Step.
  Variables k1 k2 k : cache.
  Let c1 := k_config k1.
  Let c2 := k_config k2.
  Let c := k_config k.
  Hypothesis W2 : well_formed c2.
  Hypothesis S1 : forall n t, find_type c1 n = Some t -> osorted scmp (t_fields t).
  Hypothesis E : unify k1 k2 = Ok k.

  Lemma unify_lookup :
    (forall n, match find_type c1 n, find_type c2 n with
               | Some x, Some y => exists z, unify_type k1 k2 n x y = Ok z /\ find_type c n = Some z
               | Some x, None => find_type c n = Some x
               | None, Some y => find_type c n = Some y
               | None, None => find_type c n = None
               end) /\
    (forall n, match find_enum c1 n, find_enum c2 n with
               | Some x, Some y => exists z, unify_enum k1 k2 n x y = Ok z /\ find_enum c n = Some z
               | Some x, None => find_enum c n = Some x
               | None, Some y => find_enum c n = Some y
               | None, None => find_enum c n = None
               end) /\
    (forall n, find_union c n = m_opt m_gunion (find_union c1 n) (find_union c2 n)) /\
    k_inputs k = k_inputs k1 ++ k_inputs k2 /\ k_outputs k = k_outputs k1 ++ k_outputs k2.
  Proof.
    unfold unify in E. apply rmap_ok in E as ([ts es] & E' & Ek). apply vfuse_ok in E' as [E1 E2]. cbn [fst snd] in *.
    unfold c. rewrite Ek. cbn [k_config k_inputs k_outputs]. refine (conj _ (conj _ (conj _ (conj eq_refl eq_refl)))).
    - intros n. unfold find_type. cbn [c_types]. apply (unify_definitions_ok _ _ _ _) with (k := n) in E1; [exact E1|].
      apply (osorted_nodup scmp scmp_order). apply W2.
    - intros n. unfold find_enum. cbn [c_enums]. apply (unify_definitions_ok _ _ _ _) with (k := n) in E2; [exact E2|].
      apply (osorted_nodup scmp scmp_order). apply W2.
    - intros n. unfold find_union. cbn [c_unions]. apply m_btree_get.
      apply (osorted_nodup scmp scmp_order). apply W2.
  Qed.

  Let fields2 n t (F : find_type c2 n = Some t) : NoDup (map fst (t_fields t)) :=
    osorted_nodup scmp scmp_order _ (wf_fields c2 W2 n t F).
  Lemma args2 n t kf f : find_type c2 n = Some t -> oget scmp kf (t_fields t) = Some f -> NoDup (map fst (f_args f)).
  Proof. intros F G. eapply (wf_args c2 W2); [exact F|]. apply (oget_in scmp scmp_order). exact G. Qed.

  (** A merged type is a shrunken or an expanded one. *)
  Lemma unify_type_how n x y z : unify_type k1 k2 n x y = Ok z ->
    (gtype_shrink x y = Ok z /\ (In n (k_inputs k1) \/ In n (k_inputs k2)) /\ ~ In n (k_outputs k1) /\ ~ In n (k_outputs k2)) \/
    (gtype_expand x y = Ok z /\ ~ In n (k_inputs k1) /\ ~ In n (k_inputs k2)).
  Proof.
    unfold unify_type. rewrite <- !smem_In.
    destruct (smem n (k_inputs k1)), (smem n (k_outputs k1)), (smem n (k_interfaces k1)), (smem n (k_inputs k2)), (smem n (k_outputs k2)), (smem n (k_interfaces k2));
      cbn; intros H; try discriminate;
      first [right; refine (conj H (conj _ _)); discriminate
            |left; refine (conj H (conj _ (conj _ _))); [first [now left|now right]|discriminate|discriminate]].
  Qed.
  Lemma unify_enum_how n x y z : unify_enum k1 k2 n x y = Ok z ->
    (genum_shrink x y = Ok z /\ (In n (k_inputs k1) \/ In n (k_inputs k2)) /\ ~ In n (k_outputs k1) /\ ~ In n (k_outputs k2)) \/
    (genum_expand x y = Ok z /\ ~ In n (k_inputs k1) /\ ~ In n (k_inputs k2)) \/
    (x = y /\ z = x).
  Proof.
    unfold unify_enum. rewrite <- !smem_In.
    destruct (smem n (k_inputs k1)), (smem n (k_outputs k1)), (smem n (k_inputs k2)), (smem n (k_outputs k2));
      cbn; intros H; try discriminate;
      first [right; left; refine (conj H (conj _ _)); discriminate
            |left; refine (conj H (conj _ (conj _ _))); [first [now left|now right]|discriminate|discriminate]
            |right; right; destruct (genum_eqb x y) eqn:Q; [|discriminate]; apply genum_eqb_ok in Q; injection H as <-; auto].
  Qed.

  Lemma step_defined n : defined c n <-> defined c1 n \/ defined c2 n.
  Proof.
    destruct unify_lookup as (T & En & U & _). specialize (T n). specialize (En n). specialize (U n). unfold defined. rewrite U.
    destruct (find_type c1 n), (find_type c2 n), (find_enum c1 n), (find_enum c2 n), (find_union c1 n), (find_union c2 n); cbn;
      repeat match goal with H : exists z, _ |- _ => destruct H as (? & _ & H) end; rewrite ?T, ?En; intuition congruence.
  Qed.
  Lemma step_sorted n t : find_type c n = Some t -> osorted scmp (t_fields t).
  Proof.
    destruct unify_lookup as (T & _). specialize (T n). intros F. destruct (find_type c1 n) as [x|] eqn:F1, (find_type c2 n) as [y|] eqn:F2.
    - destruct T as (z & T & F'). rewrite F in F'. injection F' as <-. apply unify_type_how in T as [(T & _)|(T & _)].
      + now apply gtype_shrink_ok in T; [|eauto].
      + apply gtype_expand_ok in T as [T _]; eauto using args2. apply (osorted_nodup scmp scmp_order). eauto.
    - rewrite F in T. injection T as <-. eauto.
    - rewrite F in T. injection T as <-. eapply (wf_fields c2 W2); eauto.
    - congruence.
  Qed.

  (** A name only one side knows. *)
  Lemma step_left_only n : ~ defined c2 n -> find_type c n = find_type c1 n /\ find_enum c n = find_enum c1 n /\ find_union c n = find_union c1 n.
  Proof.
    intros D. apply kind_none in D as (A & B & C). destruct unify_lookup as (T & En & U & _). specialize (T n). specialize (En n). specialize (U n).
    rewrite A in T. rewrite B in En. rewrite C in U. refine (conj _ (conj _ _)).
    - destruct (find_type c1 n); auto.
    - destruct (find_enum c1 n); auto.
    - rewrite U. now destruct (find_union c1 n).
  Qed.
  Lemma step_right_only n : ~ defined c1 n -> find_type c n = find_type c2 n /\ find_enum c n = find_enum c2 n /\ find_union c n = find_union c2 n.
  Proof.
    intros D. apply kind_none in D as (A & B & C). destruct unify_lookup as (T & En & U & _). specialize (T n). specialize (En n). specialize (U n).
    rewrite A in T. rewrite B in En. rewrite C in U. refine (conj _ (conj _ _)).
    - destruct (find_type c2 n); auto.
    - destruct (find_enum c2 n); auto.
    - rewrite U. now destruct (find_union c2 n).
  Qed.
  Lemma same_finds a b n : find_type a n = find_type b n /\ find_enum a n = find_enum b n /\ find_union a n = find_union b n ->
    kind_of a n = kind_of b n /\ narrow_at a b n /\ wide_at b a n.
  Proof.
    intros (A & B & C). assert (K : kind_of a n = kind_of b n) by (unfold kind_of; now rewrite A, B, C).
    refine (conj K (conj (conj K (conj _ _)) (conj K (conj _ (conj _ _))))).
    - intros _ e F. rewrite B in F. eauto using incl_refl.
    - intros _ t F. rewrite A in F. eauto using narrow_refl.
    - intros _ e F. rewrite <- B in F. eauto using incl_refl.
    - intros u F. rewrite <- C in F. eauto using incl_refl.
    - intros _ t F. rewrite <- A in F. eauto 6 using incl_refl, wide_refl.
  Qed.

  (** A name both sides know. *)
  Lemma step_kind n K : kind_of c1 n = K -> kind_of c2 n = K ->
    (K = KObject -> In n (k_inputs k1) \/ In n (k_inputs k2) ->
       exists f, forall t, find_type c1 n = Some t \/ find_type c2 n = Some t -> oget scmp f (t_fields t) <> None) ->
    kind_of c n = K.
  Proof.
    intros K1 K2 Co. destruct unify_lookup as (T & En & U & _). specialize (T n). specialize (En n). specialize (U n). destruct K.
    - apply kind_union. apply kind_union in K1. rewrite U. destruct (find_union c1 n), (find_union c2 n); cbn; congruence.
    - apply kind_enum. apply kind_enum in K1 as [A1 B1]. apply kind_enum in K2 as [A2 B2]. rewrite U, A1, A2. split; [auto|].
      destruct (find_enum c1 n); [|congruence]. destruct (find_enum c2 n); [|congruence]. destruct En as (z & _ & ->). discriminate.
    - apply kind_object. apply kind_object in K1 as (A1 & B1 & x & F1 & N1). apply kind_object in K2 as (A2 & B2 & y & F2 & N2).
      rewrite U, A1, A2, B1, B2, F1, F2 in *. refine (conj eq_refl (conj En _)). destruct T as (z & T & F). exists z. split; [auto|].
      apply unify_type_how in T as [(T & I & _)|(T & _)].
      + apply gtype_shrink_ok in T as (_ & _ & _ & T); [|eauto]. destruct (Co eq_refl I) as (f & Cf). intros Z. specialize (T f). rewrite Z in T.
        assert (X := Cf x (or_introl eq_refl)). assert (Y := Cf y (or_intror eq_refl)).
        destruct (oget scmp f (t_fields x)); [|congruence]. destruct (oget scmp f (t_fields y)); [|congruence]. destruct T as (? & _ & T). discriminate.
      + apply gtype_expand_ok in T as (_ & (T & _) & _); eauto using args2; [|apply (osorted_nodup scmp scmp_order); eauto].
        intros Z. rewrite Z in T. destruct (t_fields x) as [|[f v] l] eqn:Fx; [congruence|]. destruct (T f v) as (? & X & _); [|discriminate].
        cbn. now rewrite (to_refl _ f scmp_order).
    - apply kind_scalar. apply kind_scalar in K1 as (A1 & B1 & Z1). apply kind_scalar in K2 as (A2 & B2 & Z2).
      rewrite U, A1, A2, B1, B2 in *. refine (conj eq_refl (conj En _)). intros t F.
      destruct (find_type c1 n) as [x|] eqn:F1, (find_type c2 n) as [y|] eqn:F2.
      + destruct T as (z & T & F'). rewrite F in F'. injection F' as <-. specialize (Z1 x eq_refl). specialize (Z2 y eq_refl).
        apply fields_none. intros f. apply unify_type_how in T as [(T & _)|(T & _)].
        * apply gtype_shrink_ok in T as (_ & _ & _ & T); [|eauto]. specialize (T f). now rewrite Z1 in T.
        * apply gtype_expand_ok in T as (_ & _ & _ & T); eauto using args2; [|apply (osorted_nodup scmp scmp_order); eauto].
          specialize (T f). destruct (oget scmp f (t_fields t)); [|auto]. rewrite Z1, Z2 in T. cbn in T. destruct T; congruence.
      + rewrite F in T. injection T as <-. auto.
      + rewrite F in T. injection T as <-. auto.
      + congruence.
  Qed.

  Lemma step_input n K : kind_of c1 n = K -> kind_of c2 n = K -> kind_of c n = K ->
    (K = KObject \/ K = KEnum -> In n (k_inputs k1) \/ In n (k_inputs k2)) -> narrow_at c c1 n /\ narrow_at c c2 n.
  Proof.
    intros K1 K2 Kc I. destruct unify_lookup as (T & En & U & _). specialize (T n). specialize (En n).
    refine (conj (conj _ (conj _ _)) (conj _ (conj _ _))); try congruence.
    - intros Q e F. assert (KE : K = KEnum) by congruence. rewrite KE in K1, K2, I. specialize (I (or_intror eq_refl)). apply kind_enum in K1 as [_ B1]. apply kind_enum in K2 as [_ B2].
      destruct (find_enum c1 n) as [e1|]; [|congruence]. destruct (find_enum c2 n) as [e2|]; [|congruence].
      destruct En as (z & En & F'). rewrite F in F'. injection F' as <-. exists e1. split; [auto|].
      apply unify_enum_how in En as [(En & _)|[(_ & N1 & N2)|(_ & ->)]]; [|exfalso; destruct I; auto|apply incl_refl].
      injection En as <-. cbn. intros v J. now apply filter_In in J as [J _].
    - intros Q t F. assert (KE : K = KObject) by congruence. rewrite KE in K1, K2, I. specialize (I (or_introl eq_refl)). apply kind_object in K1 as (_ & _ & x & F1 & _). apply kind_object in K2 as (_ & _ & y & F2 & _).
      rewrite F1, F2 in *. destruct T as (z & T & F'). rewrite F in F'. injection F' as <-. exists x. split; [auto|].
      apply unify_type_how in T as [(T & _)|(_ & N1 & N2)]; [|exfalso; destruct I; auto].
      apply gtype_shrink_ok in T as (_ & T & _); eauto.
    - intros Q e F. assert (KE : K = KEnum) by congruence. rewrite KE in K1, K2, I. specialize (I (or_intror eq_refl)). apply kind_enum in K1 as [_ B1]. apply kind_enum in K2 as [_ B2].
      destruct (find_enum c1 n) as [e1|]; [|congruence]. destruct (find_enum c2 n) as [e2|]; [|congruence].
      destruct En as (z & En & F'). rewrite F in F'. injection F' as <-. exists e2. split; [auto|].
      apply unify_enum_how in En as [(En & _)|[(_ & N1 & N2)|(-> & ->)]]; [|exfalso; destruct I; auto|apply incl_refl].
      injection En as <-. cbn. intros v J. apply filter_In in J as [_ J]. now apply has_variant_in.
    - intros Q t F. assert (KE : K = KObject) by congruence. rewrite KE in K1, K2, I. specialize (I (or_introl eq_refl)). apply kind_object in K1 as (_ & _ & x & F1 & _). apply kind_object in K2 as (_ & _ & y & F2 & _).
      rewrite F1, F2 in *. destruct T as (z & T & F'). rewrite F in F'. injection F' as <-. exists y. split; [auto|].
      apply unify_type_how in T as [(T & _)|(_ & N1 & N2)]; [|exfalso; destruct I; auto].
      apply gtype_shrink_ok in T as (_ & _ & T & _); eauto.
  Qed.

  Lemma step_output n K : kind_of c1 n = K -> kind_of c2 n = K -> kind_of c n = K ->
    (K = KObject \/ K = KEnum -> (In n (k_outputs k1) \/ In n (k_outputs k2)) \/ (~ In n (k_inputs k1) /\ ~ In n (k_inputs k2))) ->
    wide_at c1 c n /\ wide_at c2 c n.
  Proof.
    intros K1 K2 Kc I. destruct unify_lookup as (T & En & U & _). specialize (T n). specialize (En n). specialize (U n).
    refine (conj (conj _ (conj _ (conj _ _))) (conj _ (conj _ (conj _ _)))); try congruence.
    - intros Q e1 F1. assert (KE : K = KEnum) by congruence. rewrite KE in K1, K2, I. specialize (I (or_intror eq_refl)). apply kind_enum in K2 as [_ B2]. rewrite F1 in En. destruct (find_enum c2 n) as [e2|]; [|congruence].
      destruct En as (z & En & F). exists z. split; [auto|].
      apply unify_enum_how in En as [(En & J & N1 & N2)|[(En & _)|(_ & ->)]]; [exfalso; destruct I as [[]|[]]; tauto| |apply incl_refl].
      injection En as <-. cbn. intros v J. apply sextend_in; [exact vcmp_order|auto].
    - intros u1 F1. rewrite U, F1. destruct (find_union c2 n) as [u2|]; cbn; [|eauto using incl_refl]. eexists. split; [reflexivity|].
      cbn. intros v J. unfold m_set. apply sextend_in; [exact scmp_order|auto].
    - intros Q x F1. assert (KE : K = KObject) by congruence. rewrite KE in K1, K2, I. specialize (I (or_introl eq_refl)). apply kind_object in K2 as (_ & _ & y & F2 & _).
      rewrite F1, F2 in *. destruct T as (z & T & F). exists z. split; [auto|].
      apply unify_type_how in T as [(_ & J & N1 & N2)|(T & _)]; [exfalso; destruct I as [[]|[]]; tauto|].
      apply gtype_expand_ok in T as (_ & T & _); eauto using args2. apply (osorted_nodup scmp scmp_order). eauto.
    - intros Q e2 F2. assert (KE : K = KEnum) by congruence. rewrite KE in K1, K2, I. specialize (I (or_intror eq_refl)). apply kind_enum in K1 as [_ B1]. rewrite F2 in En. destruct (find_enum c1 n) as [e1|]; [|congruence].
      destruct En as (z & En & F). exists z. split; [auto|].
      apply unify_enum_how in En as [(En & J & N1 & N2)|[(En & _)|(-> & ->)]]; [exfalso; destruct I as [[]|[]]; tauto| |apply incl_refl].
      injection En as <-. cbn. intros v J. apply sextend_in; [exact vcmp_order|auto].
    - intros u2 F2. rewrite U, F2. destruct (find_union c1 n) as [u1|]; cbn; [|eauto using incl_refl]. eexists. split; [reflexivity|].
      cbn. intros v J. unfold m_set. apply sextend_in; [exact scmp_order|auto].
    - intros Q y F2. assert (KE : K = KObject) by congruence. rewrite KE in K1, K2, I. specialize (I (or_introl eq_refl)). apply kind_object in K1 as (_ & _ & x & F1 & _).
      rewrite F1, F2 in *. destruct T as (z & T & F). exists z. split; [auto|].
      apply unify_type_how in T as [(_ & J & N1 & N2)|(T & _)]; [exfalso; destruct I as [[]|[]]; tauto|].
      apply gtype_expand_ok in T as (_ & _ & T & _); eauto using args2. apply (osorted_nodup scmp scmp_order). eauto.
  Qed.

  (** Fields that both definitions have are kept. *)
  Lemma step_keeps n f : (forall t, find_type c1 n = Some t -> oget scmp f (t_fields t) <> None) ->
    (forall t, find_type c2 n = Some t -> oget scmp f (t_fields t) <> None) ->
    forall t, find_type c n = Some t -> oget scmp f (t_fields t) <> None.
  Proof.
    intros H1 H2 t F. destruct unify_lookup as (T & _). specialize (T n).
    destruct (find_type c1 n) as [x|] eqn:F1, (find_type c2 n) as [y|] eqn:F2.
    - destruct T as (z & T & F'). rewrite F in F'. injection F' as <-. specialize (H1 x eq_refl). specialize (H2 y eq_refl).
      destruct (oget scmp f (t_fields x)) eqn:G1; [|congruence]. destruct (oget scmp f (t_fields y)) eqn:G2; [|congruence].
      apply unify_type_how in T as [(T & _)|(T & _)].
      + apply gtype_shrink_ok in T as (_ & _ & _ & T); [|eauto]. specialize (T f). rewrite G1, G2 in T. destruct T as (? & _ & ->). discriminate.
      + apply gtype_expand_ok in T as (_ & (T & _) & _); eauto using args2; [|apply (osorted_nodup scmp scmp_order); eauto].
        destruct (T f _ G1) as (? & -> & _). discriminate.
    - rewrite F in T. injection T as <-. auto.
    - rewrite F in T. injection T as <-. auto.
    - congruence.
  Qed.
End Step.

(** *** All merges *)
Lemma narrow_scalar a b n : kind_of a n = KScalar -> kind_of b n = KScalar -> narrow_at a b n.
Proof. intros A B. refine (conj _ (conj _ _)); congruence. Qed.
Lemma wide_scalar a b n : kind_of a n = KScalar -> kind_of b n = KScalar -> wide_at a b n.
Proof.
  intros A B. refine (conj _ (conj _ (conj _ _))); try congruence. intros u F. apply kind_scalar in A as (A & _). congruence.
Qed.
Lemma undefined_scalar c n : ~ defined c n -> kind_of c n = KScalar.
Proof. intros D. apply kind_none in D as (A & B & C). unfold kind_of. now rewrite A, B, C. Qed.

Section All.
  Variable cs : list config.
  Hypothesis Wf : forall c, In c cs -> well_formed c.
  Hypothesis SK : same_kinds cs.
  Hypothesis CF : common_fields cs.
  Hypothesis IM : implementers_are_no_inputs cs.

  Lemma used_composite c n : In c cs -> kind_of c n = KObject \/ kind_of c n = KEnum -> composite c n.
  Proof.
    intros I [K|K].
    - left. apply kind_object in K as (_ & _ & t & F & N). now exists t.
    - right. right. apply kind_enum in K as [_ K]. split; [auto|]. now apply (wf_one_kind c (Wf c I)).
  Qed.

  Record inv (done : list config) (k : cache) : Prop := {
    i_sorted : forall n t, find_type (k_config k) n = Some t -> osorted scmp (t_fields t);
    i_defined : forall n, defined (k_config k) n <-> exists c', In c' done /\ defined c' n;
    i_inputs : forall n, In n (k_inputs k) -> exists c', In c' done /\ InputUse c' n;
    i_inputs_all : forall c' n, In c' done -> InputUse c' n -> kind_of c' n = KObject \/ kind_of c' n = KEnum -> In n (k_inputs k);
    i_outputs_all : forall c' n, In c' done -> OutputUse c' n -> kind_of c' n = KObject \/ kind_of c' n = KEnum -> In n (k_outputs k);
    i_keeps : forall n f, (forall c' t, In c' done -> find_type c' n = Some t -> oget scmp f (t_fields t) <> None) ->
      forall t, find_type (k_config k) n = Some t -> oget scmp f (t_fields t) <> None;
    i_kind : forall n K, (forall c', In c' done -> defined c' n -> kind_of c' n = K) -> defined (k_config k) n -> kind_of (k_config k) n = K;
    i_narrow : forall c' n, In c' done -> InputUse c' n -> narrow_at (k_config k) c' n;
    i_wide : forall c' n, In c' done -> Served c' n -> wide_at c' (k_config k) n
  }.

  Lemma cache_inv fuel c k : In c cs -> cache_of fuel c = Some k -> inv [c] k /\ k_config k = c.
  Proof.
    intros I H. unfold cache_of in H. destruct (input_types fuel c) as [is|] eqn:EI; [|discriminate]. destruct (output_types fuel c) as [os|] eqn:EO; [|discriminate].
    injection H as <-. cbn [k_config]. split; [|auto]. assert (W := Wf c I).
    destruct (input_types_ok c (wf_tidy c W) _ _ EI) as [I1 I2]. destruct (output_types_ok c (wf_tidy c W) _ _ EO) as [O1 O2].
    constructor; cbn [k_config k_inputs k_outputs].
    - apply W.
    - intros n. split; [intros D; exists c; split; [now left|auto]|]. intros (c' & [<-|[]] & D). auto.
    - intros n J. exists c. split; [now left|]. now apply I1.
    - intros c' n [<-|[]] U K. apply I2; auto. now apply used_composite.
    - intros c' n [<-|[]] U K. apply O2; auto. now apply used_composite.
    - intros n f H t F. apply (H c); [now left|auto].
    - intros n K H D. apply H; [now left|auto].
    - intros c' n [<-|[]] U. now apply same_finds.
    - intros c' n [<-|[]] U. now apply same_finds.
  Qed.

  Lemma step_inv done k1 fuel c2 k2 k : inv done k1 -> incl done cs -> In c2 cs -> cache_of fuel c2 = Some k2 -> unify k1 k2 = Ok k ->
    inv (c2 :: done) k.
  Proof.
    intros V Inc I2 C2 E. destruct (cache_inv _ _ _ I2 C2) as [V2 E2]. assert (W2 := Wf c2 I2). rewrite <- E2 in W2.
    assert (S1 := i_sorted _ _ V).
    destruct (unify_lookup k1 k2 k W2 E) as (_ & _ & _ & EI & EO).
    assert (D12 := step_defined k1 k2 k W2 E).
    assert (Hin : forall n, In n (k_inputs k) -> exists c', In c' (c2 :: done) /\ InputUse c' n).
    { intros n J. rewrite EI in J. apply in_app_iff in J as [J|J].
      - apply (i_inputs _ _ V) in J as (c' & J & U). exists c'. split; [now right|auto].
      - apply (i_inputs _ _ V2) in J as (c' & [<-|[]] & U). exists c2. split; [now left|auto]. }
    assert (Sub : incl (c2 :: done) cs) by (intros x [<-|J]; auto).
    assert (Kp : forall n f, (forall c' t, In c' (c2 :: done) -> find_type c' n = Some t -> oget scmp f (t_fields t) <> None) ->
        forall t, find_type (k_config k) n = Some t -> oget scmp f (t_fields t) <> None).
    { intros n f H. apply (step_keeps k1 k2 k W2 S1 E).
      - apply (i_keeps _ _ V). intros c' t J. apply H. now right.
      - intros t F. rewrite E2 in F. apply (H c2); [now left|auto]. }
    assert (Kd : forall n K, (forall c', In c' (c2 :: done) -> defined c' n -> kind_of c' n = K) -> defined (k_config k1) n -> defined c2 n ->
        kind_of (k_config k1) n = K /\ kind_of c2 n = K /\ kind_of (k_config k) n = K).
    { intros n K H D1 D2.
      assert (K1 : kind_of (k_config k1) n = K) by (apply (i_kind _ _ V); [intros c' J; apply H; now right|auto]).
      assert (K2 : kind_of c2 n = K) by (apply H; [now left|auto]). refine (conj K1 (conj K2 _)).
      apply (step_kind k1 k2 k W2 S1 E n K); [auto|rewrite E2; auto|]. intros -> J.
      assert (X : exists c', In c' (c2 :: done) /\ InputUse c' n) by (apply Hin; rewrite EI; now apply in_app_iff).
      destruct X as (c' & J' & U). destruct (CF c' n (Sub _ J') U) as (f & Hf). exists f.
      assert (All : forall c'' t, In c'' (c2 :: done) -> find_type c'' n = Some t -> oget scmp f (t_fields t) <> None).
      { intros c'' t J'' F. apply (Hf c''); [auto|auto|]. specialize (H c'' J''). assert (D : defined c'' n) by (left; congruence).
        apply H in D. apply kind_object in D as (_ & _ & t' & F' & N). congruence. }
      intros t [F|F].
      - apply (i_keeps _ _ V n f); [|auto]. intros c'' t' J''. apply All. now right.
      - rewrite E2 in F. apply (All c2); [now left|auto]. }
    assert (Lo := step_left_only k1 k2 k W2 E). assert (Ro := step_right_only k1 k2 k W2 E). rewrite E2 in Lo, Ro.
    (* the kinds of a name used in c' *)
    assert (Used : forall c' n, In c' (c2 :: done) -> InputUse c' n \/ Served c' n -> forall c'', In c'' (c2 :: done) -> defined c'' n -> kind_of c'' n = kind_of c' n).
    { intros c' n J U c'' J'' D. symmetry. apply SK; auto. }
    constructor.
    - apply (step_sorted k1 k2 k W2 S1 E).
    - intros n. rewrite D12, E2, (i_defined _ _ V). split.
      + intros [(c' & J & D)|D]; [exists c'; split; [now right|auto]|exists c2; split; [now left|auto]].
      + intros (c' & [<-|J] & D); eauto.
    - exact Hin.
    - intros c' n [<-|J] U K; rewrite EI; apply in_app_iff.
      + right. eapply (i_inputs_all _ _ V2); eauto. now left.
      + left. eapply (i_inputs_all _ _ V); eauto.
    - intros c' n [<-|J] U K; rewrite EO; apply in_app_iff.
      + right. eapply (i_outputs_all _ _ V2); eauto. now left.
      + left. eapply (i_outputs_all _ _ V); eauto.
    - exact Kp.
    - intros n K H D. destruct (defined_dec c2 n) as [D2|D2].
      + destruct (defined_dec (k_config k1) n) as [D1|D1].
        * now apply Kd.
        * destruct (same_finds _ _ n (Ro n D1)) as (-> & _). apply H; [now left|auto].
      + destruct (same_finds _ _ n (Lo n D2)) as (-> & _). apply (i_kind _ _ V); [intros c' J; apply H; now right|].
        apply D12 in D as [D|D]; [auto|]. rewrite E2 in D. contradiction.
    - intros c' n J U. assert (Us := Used c' n J (or_introl U)). destruct J as [<-|J].
      + destruct (defined_dec (k_config k1) n) as [D1|D1]; [|now apply (same_finds _ _ n (Ro n D1))].
        destruct (defined_dec c2 n) as [D2|D2].
        * destruct (Kd n _ Us D1 D2) as (K1 & K2 & K).
          rewrite <- E2 at 1. apply (step_input k1 k2 k W2 E n (kind_of c2 n)); auto; [now rewrite E2|].
          intros Kc. right. eapply (i_inputs_all _ _ V2); eauto. now left.
        * apply narrow_scalar; [|now apply undefined_scalar]. destruct (same_finds _ _ n (Lo n D2)) as (-> & _).
          rewrite <- (undefined_scalar c2 n D2). apply (i_kind _ _ V); [|auto]. intros c'' J''. apply Us. now right.
      + assert (Nr := i_narrow _ _ V c' n J U). destruct (defined_dec c2 n) as [D2|D2].
        * destruct (defined_dec (k_config k1) n) as [D1|D1].
          -- eapply narrow_at_trans; [|exact Nr]. destruct (Kd n _ Us D1 D2) as (K1 & K2 & K).
             apply (step_input k1 k2 k W2 E n (kind_of c' n)); auto; [now rewrite E2|].
             intros Kc. left. eapply (i_inputs_all _ _ V); eauto.
          -- assert (K0 := undefined_scalar _ n D1). destruct Nr as (Kn & _). rewrite K0 in Kn.
             apply narrow_scalar; [|auto]. destruct (same_finds _ _ n (Ro n D1)) as (-> & _). rewrite Kn. apply Us; [now left|auto].
        * eapply narrow_at_trans; [|exact Nr]. now apply (same_finds _ _ n (Lo n D2)).
    - intros c' n J U. assert (Us := Used c' n J (or_intror U)).
      assert (Out : kind_of c' n = KObject \/ kind_of c' n = KEnum -> (In n (k_outputs k1) \/ In n (k_outputs k2)) \/ (~ In n (k_inputs k1) /\ ~ In n (k_inputs k2))).
      { intros Kc. assert (O : OutputUse c' n -> In n (k_outputs k1) \/ In n (k_outputs k2)).
        { intros O. destruct J as [<-|J]; [right; eapply (i_outputs_all _ _ V2); eauto; now left|left; eapply (i_outputs_all _ _ V); eauto]. }
        destruct (in_dec string_dec n (k_inputs k)) as [Ji|Ji].
        - apply Hin in Ji as (c'' & J'' & U''). left. destruct (IM c' c'' n (Sub _ J) (Sub _ J'') U) as [X|X]; [auto|contradiction].
        - right. rewrite EI, in_app_iff in Ji. tauto. }
      destruct J as [<-|J].
      + destruct (defined_dec (k_config k1) n) as [D1|D1]; [|now apply (same_finds _ _ n (Ro n D1))].
        destruct (defined_dec c2 n) as [D2|D2].
        * destruct (Kd n _ Us D1 D2) as (K1 & K2 & K).
          rewrite <- E2 at 1. apply (step_output k1 k2 k W2 S1 E n (kind_of c2 n)); auto; now rewrite E2.
        * apply wide_scalar; [now apply undefined_scalar|]. destruct (same_finds _ _ n (Lo n D2)) as (-> & _).
          rewrite <- (undefined_scalar c2 n D2). apply (i_kind _ _ V); [|auto]. intros c'' J''. apply Us. now right.
      + assert (Nr := i_wide _ _ V c' n J U). destruct (defined_dec c2 n) as [D2|D2].
        * destruct (defined_dec (k_config k1) n) as [D1|D1].
          -- eapply wide_at_trans; [exact Nr|]. destruct (Kd n _ Us D1 D2) as (K1 & K2 & K).
             apply (step_output k1 k2 k W2 S1 E n (kind_of c' n)); auto; now rewrite E2.
          -- assert (K0 := undefined_scalar _ n D1). destruct Nr as (Kn & _). rewrite K0 in Kn.
             apply wide_scalar; [auto|]. destruct (same_finds _ _ n (Ro n D1)) as (-> & _). rewrite Kn. apply Us; [now left|auto].
        * eapply wide_at_trans; [exact Nr|]. now apply (same_finds _ _ n (Lo n D2)).
  Qed.

  Lemma unify_all_inv fuel : forall rest ks done k0 k, inv done k0 -> incl done cs -> incl rest cs ->
    Forall2 (fun c k => cache_of (fuel c) c = Some k) rest ks -> unify_all k0 ks = Ok k -> exists all, inv all k /\ incl done all /\ incl rest all /\ incl all cs.
  Proof.
    intros rest ks done k0 k V Di Ri F. revert done k0 V Di. induction F as [|c k2 rest ks H F IH]; intros done k0 V Di E.
    - injection E as <-. exists done. refine (conj V (conj (incl_refl _) (conj _ Di))). intros x [].
    - unfold unify_all in E. cbn [fold_left rbind] in E. destruct (unify k0 k2) as [k'|e] eqn:U.
      + destruct (IH (fun x I => Ri x (or_intror I)) (c :: done) k') as (all & A & B & C & D).
        * eapply step_inv; eauto. apply Ri. now left.
        * intros x [<-|I]; [apply Ri; now left|auto].
        * exact E.
        * exists all. refine (conj A (conj _ (conj _ D))); [intros x I; apply B; now right|].
          intros x [<-|I]; [apply B; now left|auto].
      + exfalso. clear - E. induction ks as [|k3 ks IH]; cbn in E; [discriminate|auto].
  Qed.
End All.

Lemma federate c0 rest k0 ks k :
  let cs := c0 :: rest in
  (forall c, In c cs -> well_formed c) -> same_kinds cs -> common_fields cs -> implementers_are_no_inputs cs ->
  caches cs (k0 :: ks) -> unify_all k0 ks = Ok k ->
  forall c', In c' cs -> (forall n, InputUse c' n -> narrow_at (k_config k) c' n) /\ (forall n, Served c' n -> wide_at c' (k_config k) n).
Proof.
  intros cs Wf SK CF IM Ca E. inversion Ca as [|? ? ? ? C0 Cr]; subst.
  destruct (cache_inv cs Wf _ c0 k0 (or_introl eq_refl) C0) as [V0 _].
  destruct (unify_all_inv cs Wf SK CF IM walk_fuel rest ks [c0] k0 k V0) as (all & V & I0 & Ir & Ia); auto.
  - intros x [<-|[]]. now left.
  - intros x I. now right.
  - intros c' J. assert (A : In c' all) by (destruct J as [<-|J]; [apply I0; now left|auto]).
    split; intros n U; [now apply (i_narrow _ _ V)|now apply (i_wide _ _ V)].
Qed.

Section Results.
  Variable scalar : string -> value -> Prop.

  Lemma merged_inputs c0 rest k0 ks k :
    let cs := c0 :: rest in
    (forall c, In c cs -> well_formed c) -> same_kinds cs -> common_fields cs -> implementers_are_no_inputs cs ->
    caches cs (k0 :: ks) -> unify_all k0 ks = Ok k ->
    forall c' ty v, In c' cs -> InputUse c' (type_name ty) -> accepts scalar (k_config k) ty v -> accepts scalar c' ty v.
  Proof.
    intros cs Wf SK CF IM Ca E c' ty v J U A. destruct (federate c0 rest k0 ks k Wf SK CF IM Ca E c' J) as [N _].
    refine (accepts_narrow scalar (k_config k) c' (InputUse c') _ N ty v A U).
    intros n t f q Un F G. eapply InputUse_inside; [exact Un|]. eapply Holds_field; [exact F|]. eapply (oget_in scmp scmp_order); eassumption.
  Qed.
  Lemma merged_outputs c0 rest k0 ks k :
    let cs := c0 :: rest in
    (forall c, In c cs -> well_formed c) -> same_kinds cs -> common_fields cs -> implementers_are_no_inputs cs ->
    caches cs (k0 :: ks) -> unify_all k0 ks = Ok k ->
    forall c' ty v, In c' cs -> Served c' (type_name ty) -> conforms scalar c' ty v -> conforms scalar (k_config k) ty v.
  Proof.
    intros cs Wf SK CF IM Ca E c' ty v J U A. destruct (federate c0 rest k0 ks k Wf SK CF IM Ca E c' J) as [_ N].
    refine (conforms_wide scalar c' (k_config k) (Served c') _ _ _ N ty v A U).
    - intros n t f q Un F G. eapply Served_inside; [exact Un|]. eapply Holds_field; [exact F|]. eapply (oget_in scmp scmp_order); eassumption.
    - intros n u m Un F I. eapply Served_inside; [exact Un|]. eapply Holds_member; eauto.
    - intros n m t Un F I. eapply Served_implementer; eauto.
  Qed.
  Lemma merged_arguments c0 rest k0 ks k :
    let cs := c0 :: rest in
    (forall c, In c cs -> well_formed c) -> same_kinds cs -> common_fields cs -> implementers_are_no_inputs cs ->
    caches cs (k0 :: ks) -> unify_all k0 ks = Ok k ->
    forall c' n t' fn f', In c' cs -> Served c' n -> kind_of c' n = KObject -> find_type c' n = Some t' -> oget scmp fn (t_fields t') = Some f' ->
    exists t f, find_type (k_config k) n = Some t /\ oget scmp fn (t_fields t) = Some f /\
      forall m, accepts_args scalar (k_config k) (f_args f) m -> accepts_args scalar c' (f_args f') m.
  Proof.
    intros cs Wf SK CF IM Ca E c' n t' fn f' J U K F G. destruct (federate c0 rest k0 ks k Wf SK CF IM Ca E c' J) as [_ N].
    destruct (N n U) as (_ & _ & _ & T). destruct (T K t' F) as (t & Ft & Wd & _). destruct (Wd fn f' G) as (f & Gf & _ & [N1 N2]).
    exists t, f. refine (conj Ft (conj Gf _)). intros m [A1 A2]. split.
    - intros q v I. destruct (A1 q v I) as (a & Ga & Av). rewrite aget_oget in Ga. destruct (N1 q a Ga) as (a' & Ga' & Nr).
      exists a'. rewrite aget_oget. split; [auto|]. eapply accepts_narrower; [|exact Nr].
      eapply (merged_inputs c0 rest k0 ks k); eauto. apply InputUse_arg. rewrite (narrower_name _ _ Nr).
      exists n, t', fn, f', q, a'. refine (conj F (conj _ (conj _ eq_refl))).
      + eapply (oget_in scmp scmp_order); eassumption.
      + eapply (oget_in scmp scmp_order); eassumption.
    - intros q a' Ga' Nu. rewrite aget_oget in Ga'. specialize (N2 q a' Ga' Nu). destruct (oget scmp q (f_args f)) as [a|] eqn:Ga; [|congruence].
      destruct (N1 q a Ga) as (a'' & Ga'' & Nr). rewrite Ga' in Ga''. injection Ga'' as <-.
      apply (A2 q a); [now rewrite aget_oget|]. destruct (is_nullable (arg_type a)) eqn:Z; [|auto]. rewrite (narrower_null _ _ Nr Z) in Nu. discriminate.
  Qed.

  (** *** Nothing else is refused *)
  Lemma shrink_meets c : forall ty1 ty2 ty v, typ_shrink ty1 ty2 = Ok ty -> accepts scalar c ty1 v -> accepts scalar c ty2 v -> accepts scalar c ty v.
  Proof.
    unfold typ_shrink. induction ty1 as [n x|a IH x]; intros [m y|b y] ty v E A B; cbn in E; try discriminate.
    - destruct (String.eqb_spec n m) as [<-|]; [|discriminate]. injection E as <-.
      inversion A as [? Nu| |? ? ? K Nv Sc|? ? e x0 ? K F I Ev|? ? t m K F H1 H2 H3]; subst.
      + inversion B as [? Nu'| |? ? ? K Nv Sc|? ? e x0 ? K F I Ev|]; subst; [|congruence|].
        * apply acc_null. cbn in *. destruct x, y; auto.
        * destruct Ev; discriminate.
      + now apply acc_scalar.
      + eapply acc_enum; eauto.
      + eapply acc_object; eauto.
    - apply rmap_ok in E as (t & E & ->). inversion A as [? Nu|? ? l H| | |]; subst.
      + inversion B; subst. apply acc_null. cbn in *. destruct x, y; auto.
      + inversion B; subst. apply acc_list. intros v I. eapply IH; eauto.
  Qed.

  Lemma typ_shrink_self ty : typ_shrink ty ty = Ok ty.
  Proof.
    unfold typ_shrink. induction ty as [n b|t IH b]; cbn.
    - now rewrite String.eqb_refl, orb_diag.
    - now rewrite IH, orb_diag.
  Qed.
  Lemma merged_exact c1 c2 k1 k2 k :
    let cs := [c1; c2] in
    (forall c, In c cs -> well_formed c) -> same_kinds cs -> common_fields cs -> implementers_are_no_inputs cs ->
    caches cs [k1; k2] -> unify k1 k2 = Ok k ->
    (forall n e1 e2 x a1 a2, find_enum c1 n = Some e1 -> find_enum c2 n = Some e2 -> In (x, a1) (e_variants e1) -> In (x, a2) (e_variants e2) -> a1 = a2) ->
    forall ty1 v, accepts scalar c1 ty1 v -> forall ty2 ty, typ_shrink ty1 ty2 = Ok ty -> accepts scalar c2 ty2 v ->
    InputUse c1 (type_name ty1) -> InputUse c2 (type_name ty2) -> accepts scalar (k_config k) ty v.
  Proof.
    intros cs Wf SK CF IM Ca E Al. inversion Ca as [|? ? ? ? C1 Ca']; subst. inversion Ca' as [|? ? ? ? C2 _]; subst.
    assert (E' : unify_all k1 [k2] = Ok k) by (cbn; rewrite E; auto).
    destruct (federate c1 [c2] k1 [k2] k Wf SK CF IM Ca E' c1 (or_introl eq_refl)) as [N1 _].
    destruct (federate c1 [c2] k1 [k2] k Wf SK CF IM Ca E' c2 (or_intror (or_introl eq_refl))) as [N2 _].
    destruct (cache_inv cs Wf _ c1 k1 (or_introl eq_refl) C1) as [V1 E1].
    destruct (cache_inv cs Wf _ c2 k2 (or_intror (or_introl eq_refl)) C2) as [V2 E2].
    assert (W2 : well_formed (k_config k2)) by (rewrite E2; apply Wf; right; now left).
    destruct (unify_lookup k1 k2 k W2 E) as (T & En & _). rewrite E1, E2 in T, En.
    intros ty1 v A. induction A as [ty1 Nu|ty1 nn l H IH|n nn v K Nv S|n nn e x v K F I Ev|n nn t m K F H1 H2 IH H3]; intros ty2 ty Ty B U1 U2.
    - inversion B as [? Nu'| | |? ? ? ? ? ? ? ? Ev|]; subst.
      + apply acc_null. destruct ty1, ty2; cbn in Ty; try discriminate.
        * destruct (String.eqb name name0); [|discriminate]. injection Ty as <-. cbn in *. destruct non_null, non_null0; auto.
        * apply rmap_ok in Ty as (t & _ & ->). cbn in *. destruct non_null, non_null0; auto.
      + congruence.
      + destruct Ev; discriminate.
    - inversion B as [|? ? ? H'| |? ? ? ? ? ? ? ? Ev|]; subst.
      + cbn in Ty. apply rmap_ok in Ty as (t & Ty & ->). apply acc_list. intros v I. eapply IH; eauto.
      + discriminate.
      + discriminate.
    - destruct ty2 as [n2 b|]; [|discriminate]. unfold typ_shrink in Ty. cbn in Ty. destruct (String.eqb_spec n n2) as [<-|]; [|discriminate]. injection Ty as <-.
      apply acc_scalar; auto. destruct (N1 n U1) as (Q & _). congruence.
    - destruct ty2 as [n2 b|]; [|discriminate]. unfold typ_shrink in Ty. cbn in Ty. destruct (String.eqb_spec n n2) as [<-|]; [|discriminate]. injection Ty as <-.
      destruct (N1 n U1) as (Q1 & _). destruct (N2 n U2) as (Q2 & _).
      inversion B as [| | |? ? e2 x2 ? K2 F2 I2 Ev2|]; subst.
      + destruct Ev; discriminate.
      + congruence.
      + specialize (En n). rewrite F, F2 in En. destruct En as (z & En & Fz). eapply acc_enum; [congruence|exact Fz| |exact Ev].
        assert (x2 = x) by (destruct Ev as [-> | ->], Ev2 as [X|X]; congruence). subst x2.
        apply in_map_iff in I as ([x0 a] & Ex & I). cbn in Ex. subst x0. apply in_map_iff in I2 as ([x0 a2] & Ex & I2). cbn in Ex. subst x0.
        assert (a2 = a) by (symmetry; eapply Al; eauto). subst a2.
        apply in_map_iff. exists (x, a). split; [auto|]. apply unify_enum_how in En as [(En & _)|[(En & _)|(_ & ->)]].
        * injection En as <-. cbn. apply filter_In. split; [auto|]. now apply has_variant_in.
        * injection En as <-. cbn. apply sextend_in; [exact vcmp_order|auto].
        * auto.
      + congruence.
    - destruct ty2 as [n2 b|]; [|discriminate]. unfold typ_shrink in Ty. cbn in Ty. destruct (String.eqb_spec n n2) as [<-|]; [|discriminate]. injection Ty as <-.
      destruct (N1 n U1) as (Q1 & _). destruct (N2 n U2) as (Q2 & _).
      inversion B as [| | |? ? e2 x2 ? K2 F2 I2 Ev2|? ? t2 ? K2 F2 G1 G2 G3]; subst.
      + congruence.
      + destruct Ev2; discriminate.
      + specialize (T n). rewrite F, F2 in T. destruct T as (z & T & Fz).
        apply unify_type_how in T as [(T & _)|(_ & No & _)]; [|exfalso; apply No; apply (i_inputs_all _ _ V1 (k_config k1) n); [now left|exact U1|left; congruence]].
        apply gtype_shrink_ok in T as (_ & _ & _ & T); [|apply (osorted_nodup scmp scmp_order); eapply (wf_fields _ W2); eauto].
        eapply acc_object; [congruence|exact Fz| | |].
        * intros q w I. specialize (T q). specialize (H1 q w I). specialize (G1 q w I).
          destruct (oget scmp q (t_fields t)); [|congruence]. destruct (oget scmp q (t_fields t2)); [|congruence]. destruct T as (? & _ & ->). discriminate.
        * intros q w f I Gf. specialize (T q). specialize (H1 q w I). specialize (G1 q w I).
          destruct (oget scmp q (t_fields t)) as [f1|] eqn:Gq1; [|congruence]. destruct (oget scmp q (t_fields t2)) as [f2|] eqn:Gq2; [|congruence].
          destruct T as (f' & Tf & Gf'). rewrite Gf in Gf'. injection Gf' as <-. eapply IH; eauto.
          -- eapply InputUse_inside; [exact U1|]. eapply Holds_field; [exact F|]. eapply (oget_in scmp scmp_order); eassumption.
          -- eapply InputUse_inside; [exact U2|]. eapply Holds_field; [exact F2|]. eapply (oget_in scmp scmp_order); eassumption.
        * intros q f Gf Nu. specialize (T q).
          destruct (oget scmp q (t_fields t)) as [f1|] eqn:Gq1; [|congruence]. destruct (oget scmp q (t_fields t2)) as [f2|] eqn:Gq2; [|congruence].
          destruct T as (f' & Tf & Gf'). rewrite Gf in Gf'. injection Gf' as <-.
          destruct (is_nullable (f_type f1)) eqn:Nf1; [|eauto]. destruct (is_nullable (f_type f2)) eqn:Nf2; [|eauto]. exfalso.
          clear - Tf Nu Nf1 Nf2. destruct (f_type f1), (f_type f2); cbn in *; try discriminate.
          -- unfold typ_shrink in Tf. cbn in Tf. destruct (String.eqb name name0); [|discriminate]. injection Tf as Tf. rewrite <- Tf in Nu. cbn in Nu. destruct non_null, non_null0; discriminate.
          -- unfold typ_shrink in Tf. cbn in Tf. apply rmap_ok in Tf as (? & _ & Tf). rewrite Tf in Nu. cbn in Nu. destruct non_null, non_null0; discriminate.
  Qed.
End Results.

(** *** Type references, on their own *)
Lemma shrink_admits base : forall a b c, typ_shrink a b = Ok c -> forall v, admits base c v <-> admits base a v /\ admits base b v.
Proof.
  unfold typ_shrink. induction a as [n x|a IH x]; intros [m y|b y] c E v; cbn in E; try discriminate.
  - destruct (String.eqb_spec n m) as [<-|]; [|discriminate]. injection E as <-. split.
    + intros A. destruct x, y; cbn in A; inversion A; subst; split; constructor; auto.
    + intros [A B]. inversion A as [?| |? ? ? Nv Ba|]; subst; [|now constructor]. inversion B; subst; [constructor|congruence].
  - apply rmap_ok in E as (t & E & ->). assert (H := IH b t E). split.
    + intros A. inversion A as [|? Q| |? ? l Fl]; subst.
      * destruct x, y; try discriminate. split; constructor.
      * split; constructor; (eapply Forall_impl; [|exact Fl]); intros w; apply H.
    + intros [A B]. inversion A as [|?| |? ? l Fl]; subst.
      * inversion B; subst. constructor.
      * inversion B as [|?| |? ? l' Fl']; subst. constructor. rewrite Forall_forall in *. intros w I. apply H. auto.
Qed.
Lemma narrower_admits base a b v : narrower a b -> admits base a v -> admits base b v.
Proof.
  intros N. revert v. induction N as [n x y H|t u x y N IH H]; intros v A.
  - inversion A; subst; [|now constructor]. destruct y; [specialize (H eq_refl); discriminate|constructor].
  - inversion A as [|?| |? ? l Fl]; subst.
    + destruct y; [specialize (H eq_refl); discriminate|constructor].
    + constructor. eapply Forall_impl; [|exact Fl]. auto.
Qed.
Lemma expand_admits base a b c : typ_expand a b = Ok c -> forall v, admits base a v \/ admits base b v -> admits base c v.
Proof. intros E v. apply typ_expand_ok in E as [A B]. intros [H|H]; [exact (narrower_admits base a c v A H)|exact (narrower_admits base b c v B H)]. Qed.
Lemma merge_succeeds g a b : is_ok (typ_merge g a b) = true <-> unmarked a = unmarked b.
Proof.
  revert b. induction a as [n x|a IH x]; intros [m y|b y]; cbn; try (split; discriminate).
  - destruct (String.eqb_spec n m); cbn; split; congruence.
  - specialize (IH b). destruct (typ_merge g a b); cbn in *; rewrite IH in *; split; intros H; try congruence; try tauto.
Qed.
