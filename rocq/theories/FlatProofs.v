(** Proofs about the flattening of types with a single field (C78). *)
From Coq Require Import String Bool Arith List Lia.
From Verif Require Import Base BaseFacts Ordered OrderedFacts TypeModel ConfigModel BuilderModel AmbModel FieldModel FieldSpec FlatModel FlatSpec.
Import ListNotations.
Open Scope string_scope.
Open Scope list_scope.

Lemma ends_check c n : is_scalar c n || match find_enum c n with Some _ => true | None => false end = true <-> ends c n.
Proof.
  unfold ends, is_scalar, gtype_scalar. rewrite orb_true_iff. destruct (find_type c n) as [t|]; destruct (find_enum c n); try destruct (t_fields t); intuition congruence.
Qed.
Lemma ends_not c n : is_scalar c n || match find_enum c n with Some _ => true | None => false end = false <-> ~ ends c n.
Proof. rewrite <- ends_check. destruct (_ || _); intuition congruence. Qed.
Lemma single_unique c n p : single c n p -> forall q, single c n q -> q = p.
Proof.
  induction 1 as [n E|n t f x p E F T S IH]; intros q Q; inversion Q as [? E'|? t' f' x' q' E' F' T' S']; subst; try contradiction; [reflexivity|].
  rewrite F in F'. injection F' as <-. rewrite T in T'. injection T' as <- <-. f_equal. now apply IH.
Qed.

(** The walk ends. *)
Definition left_of (c : config) (visited : list string) : nat := length (filter (fun n => negb (smem n visited)) (map fst (c_types c))).
Lemma filter_le {A} (f g : A -> bool) l : (forall x, f x = true -> g x = true) -> length (filter f l) <= length (filter g l).
Proof. intros H. induction l as [|x l IH]; [reflexivity|]. cbn. specialize (H x). destruct (f x); [rewrite (H eq_refl); cbn; lia|]. destruct (g x); cbn; lia. Qed.
Lemma filter_less {A} (f g : A -> bool) n l : (forall x, f x = true -> g x = true) -> In n l -> f n = false -> g n = true -> length (filter f l) < length (filter g l).
Proof.
  intros H I Fn Gn. induction l as [|x l IH]; [destruct I|]. cbn. destruct I as [->|I].
  - rewrite Fn, Gn. cbn. pose proof (filter_le f g l H). lia.
  - specialize (IH I). specialize (H x). destruct (f x); [rewrite (H eq_refl); cbn; lia|]. destruct (g x); cbn; lia.
Qed.
Lemma left_of_less c n t visited : find_type c n = Some t -> ~ In n visited -> left_of c (n :: visited) < left_of c visited.
Proof.
  intros F N. unfold find_type in F. apply (oget_in scmp scmp_order) in F. unfold left_of. apply (filter_less _ _ n).
  - intros m H. apply negb_true_iff, smem_false in H. apply negb_true_iff, smem_false. intros I. apply H. now right.
  - apply in_map_iff. exists (n, t). auto.
  - apply negb_false_iff, smem_In. now left.
  - apply negb_true_iff, smem_false. exact N.
Qed.
Lemma path_ends c : forall fuel name n visited, left_of c visited < fuel -> exists r, get_single_field_path fuel c name n visited = Some r.
Proof.
  induction fuel as [|fuel IH]; intros name n visited L; [lia|]. cbn [get_single_field_path]. destruct (smem n visited) eqn:V; [eauto|]. destruct (_ || _); [eauto|].
  destruct (find_type c n) as [t|] eqn:F; [|eauto]. destruct (t_fields t) as [|[sub x] [|]]; eauto.
  apply smem_false in V. pose proof (left_of_less c n t visited F V) as Ls. destruct (IH sub (type_name (f_type x)) (n :: visited)) as ([path|] & ->); [lia|eauto|eauto].
Qed.
Lemma left_of_all c : left_of c [] <= length (c_types c).
Proof. unfold left_of. rewrite <- (map_length fst (c_types c)). induction (map fst (c_types c)) as [|n l IH]; [reflexivity|]. cbn [filter length]. destruct (negb _); cbn [length]; lia. Qed.

(** What it finds. *)
Lemma path_sound c : forall fuel name n visited path, get_single_field_path fuel c name n visited = Some (Some path) -> exists p, path = name :: p /\ single c n p.
Proof.
  induction fuel as [|fuel IH]; intros name n visited path H; [discriminate|]. cbn [get_single_field_path] in H. destruct (smem n visited); [discriminate|]. destruct (_ || _) eqn:E.
  - injection H as <-. exists []. split; [reflexivity|]. apply S_ends. now apply ends_check.
  - apply ends_not in E. destruct (find_type c n) as [t|] eqn:F; [|discriminate]. destruct (t_fields t) as [|[sub x] [|]] eqn:T; try discriminate.
    destruct (get_single_field_path fuel c sub _ _) as [[q|]|] eqn:G; try discriminate. injection H as <-. destruct (IH _ _ _ _ G) as (p & -> & Sp). exists (sub :: p). split; [reflexivity|]. eapply S_into; eauto.
Qed.
(** No type is met twice on a way that ends. *)
Fixpoint met (c : config) (n : string) (p : list string) : list string :=
  match p with
  | [] => [n]
  | f :: p => n :: match find_type c n with Some t => match t_fields t with (_, x) :: _ => met c (type_name (f_type x)) p | [] => [] end | None => [] end
  end.
Lemma met_single c n p : single c n p -> forall m, In m (met c n p) -> exists q, length q <= length p /\ single c m q.
Proof.
  induction 1 as [n E|n t f x p E F T S IH]; intros m I; cbn [met] in I.
  - destruct I as [<-|[]]. exists []. split; [lia|now apply S_ends].
  - rewrite F, T in I. destruct I as [<-|I]; [exists (f :: p); split; [lia|eapply S_into; eauto]|]. destruct (IH m I) as (q & L & Q). exists q. split; [cbn; lia|exact Q].
Qed.
Lemma path_complete c : forall p n, single c n p -> forall fuel name visited, left_of c visited < fuel -> (forall m, In m (met c n p) -> ~ In m visited) ->
  get_single_field_path fuel c name n visited = Some (Some (name :: p)).
Proof.
  intros p n Sp. induction Sp as [n E|n t f x p E F T S IH]; intros fuel name visited L V; destruct fuel as [|fuel]; try lia; cbn [get_single_field_path].
  - assert (X : smem n visited = false) by (apply smem_false, V; now left). rewrite X. apply ends_check in E. now rewrite E.
  - assert (X : ~ In n visited) by (apply V; now left). pose proof (left_of_less c n t visited F X) as Ls. apply smem_false in X. rewrite X. apply ends_not in E. rewrite E, F, T.
    rewrite IH; [reflexivity|lia|]. intros m I [<-|J].
    + destruct (met_single c _ p S n I) as (q & Lq & Q). assert (N : single c n (f :: p)) by (apply ends_not in E; eapply S_into; eauto). pose proof (single_unique c n _ N q Q) as U. subst q. cbn in Lq. lia.
    + apply (V m); [|exact J]. cbn [met]. rewrite F, T. now right.
Qed.

Lemma field_result c f x : exists y a, flatten_field c (f, x) = Some ((f, y), a) /\
  ((exists p, p <> [] /\ single c (type_name (f_type x)) p /\ y = with_omit x /\ a = [{| af_name := f; af_path := f :: p |}]) \/ (~ flat c x /\ y = x /\ a = [])).
Proof.
  unfold flatten_field. cbn [fst snd]. assert (L : left_of c [] < S (S (length (c_types c)))) by (pose proof (left_of_all c); lia).
  destruct (path_ends c _ f (type_name (f_type x)) [] L) as (r & E). rewrite E. destruct r as [path|].
  - destruct (path_sound c _ _ _ _ _ E) as (p & -> & Sp). destruct p as [|g p].
    + cbn. eexists _, _. split; [reflexivity|]. right. split; [|auto]. intros (q & Nq & Q). apply Nq. exact (single_unique c _ _ Sp q Q).
    + cbn [length Nat.ltb Nat.leb]. eexists _, _. split; [reflexivity|]. left. exists (g :: p). split; [discriminate|auto].
  - eexists _, _. split; [reflexivity|]. right. split; [|auto]. intros (q & Nq & Q). rewrite (path_complete c q _ Q) in E; [discriminate|exact L|auto].
Qed.
Definition entry (c : config) (a b : string * field) : Prop :=
  fst a = fst b /\ (flat c (snd a) /\ snd b = with_omit (snd a) \/ ~ flat c (snd a) /\ snd b = snd a).
Lemma fields_result c : forall fs, exists fs' new, flatten_fields c fs = Some (fs', new) /\ Forall2 (entry c) fs fs' /\
  (forall a, In a new <-> exists f x p, In (f, x) fs /\ p <> [] /\ single c (type_name (f_type x)) p /\ a = {| af_name := f; af_path := f :: p |}) /\
  (NoDup (map fst fs) -> NoDup (map af_name new)).
Proof.
  induction fs as [|[f x] fs (fs' & new & E & F & A & N)].
  - exists [], []. split; [reflexivity|]. split; [constructor|]. split; [|intros _; constructor]. intros a. split; [intros []|intros (f & x & p & [] & _)].
  - destruct (field_result c f x) as (y & a & Ef & D). exists ((f, y) :: fs'), (a ++ new). cbn [flatten_fields]. rewrite Ef, E. split; [reflexivity|]. split.
    { constructor; [|exact F]. split; [reflexivity|]. cbn [snd]. destruct D as [(p & Np & Sp & -> & _)|(Nf & -> & _)]; [left; split; [exists p; auto|reflexivity]|right; auto]. }
    split.
    + intros b. rewrite in_app_iff, A. split.
      * intros [I|(g & z & p & I & R)]; [|exists g, z, p; split; [now right|exact R]]. destruct D as [(p & Np & Sp & _ & ->)|(_ & _ & ->)]; [|destruct I]. destruct I as [<-|[]]. exists f, x, p. split; [now left|auto].
      * intros (g & z & p & [I|I] & Np & Sp & ->).
        -- injection I as <- <-. left. destruct D as [(q & Nq & Q & _ & ->)|(Nf & _)]; [|exfalso; apply Nf; exists p; auto]. rewrite (single_unique c _ _ Sp q Q). now left.
        -- right. exists g, z, p. auto.
    + cbn [map fst]. intros Nd. inversion Nd as [|? ? X Nd']; subst. rewrite map_app. destruct D as [(p & Np & Sp & _ & ->)|(_ & _ & ->)]; [|now apply N]. cbn. constructor; [|now apply N].
      intros I. apply in_map_iff in I. destruct I as (b & Eb & I). apply A in I. destruct I as (g & z & q & I & _ & _ & ->). cbn in Eb. subst g. apply X, in_map_iff. exists (f, z). auto.
Qed.

Definition type_result (c : config) (inputs : list string) (n : string) (t t' : gtype) (new : list add_field) : Prop :=
  same_but_fields t t' /\
  if smem n inputs then t_fields t' = t_fields t /\ new = []
  else Forall2 (entry c) (t_fields t) (t_fields t') /\
    (forall a, In a new <-> exists f x p, In (f, x) (t_fields t) /\ p <> [] /\ single c (type_name (f_type x)) p /\ a = {| af_name := f; af_path := f :: p |}) /\
    (NoDup (map fst (t_fields t)) -> NoDup (map af_name new)).
Lemma types_result c inputs : forall ts, exists ts' added, flatten_types c inputs ts = Some (ts', added) /\
  forall n, match oget scmp n ts, oget scmp n ts', oget scmp n added with
            | Some t, Some t', Some new => type_result c inputs n t t' new
            | None, None, None => True
            | _, _, _ => False
            end.
Proof.
  induction ts as [|[n t] ts (ts' & added & E & R)]; [exists [], []; split; [reflexivity|intros n; exact I]|].
  cbn [flatten_types]. rewrite E.
  assert (H : exists fs a, (if smem n inputs then Some (t_fields t, []) else flatten_fields c (t_fields t)) = Some (fs, a) /\ type_result c inputs n t (with_fields t fs) a).
  { unfold type_result. destruct (smem n inputs); [exists (t_fields t), []; repeat split; reflexivity|]. destruct (fields_result c (t_fields t)) as (fs & a & Ef & X). exists fs, a. split; [exact Ef|]. split; [repeat split; reflexivity|exact X]. }
  destruct H as (fs & a & -> & H). eexists _, _. split; [reflexivity|]. intros m. cbn [oget]. destruct (scmp m n) eqn:Cmp; [apply (to_eq _ scmp_order) in Cmp; subst m; exact H|apply R|apply R].
Qed.

(** ** Straight paths after flattening *)
Lemma straight_leads c c' inputs : (forall n, match find_type c n, find_type c' n with Some t, Some t' => exists new, type_result c inputs n t t' new | None, None => True | _, _ => False end) ->
  forall p x ty, straight c x p ty -> forall t f y, get_field f t = Some y -> f_type y = f_type x -> f_resolvers y = [] -> leads c' t (f :: p) ty.
Proof.
  intros R p x ty S. induction S as [x|x n nn t f y p ty T F Fs Rs S IH]; intros t0 g z G Tz Rz.
  - rewrite <- Tz. now apply L_here.
  - pose proof (R n) as X. rewrite F in X. destruct (find_type c' n) as [t'|] eqn:F'; [|contradiction]. destruct X as (new & X). eapply L_into; [exact G|exact Rz|rewrite Tz; exact T|exact F'|].
    assert (Y : exists y', t_fields t' = [(f, y')] /\ f_type y' = f_type y /\ f_resolvers y' = f_resolvers y).
    { destruct X as (_ & X). rewrite Fs in X. destruct (smem n inputs); [exists y; tauto|]. destruct X as (X & _). inversion X as [|? [f' y'] ? ? En X2]; subst. inversion X2; subst. destruct En as [En Ey]. cbn in En, Ey. subst f'.
      exists y'. split; [reflexivity|]. destruct Ey as [(_ & ->)|(_ & ->)]; auto. }
    destruct Y as (y' & Fy & Ty & Ry). apply (IH t' f y'); [|exact Ty|congruence]. unfold get_field. rewrite Fy. cbn. now rewrite (to_refl _ f scmp_order).
Qed.
