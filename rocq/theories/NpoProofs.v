(** Proofs about the search for N+1 paths. *)
From Coq Require Import String Ascii ZArith NArith Arith Bool Lia List.
From Verif Require Import Base BaseFacts Ordered OrderedFacts JsonModel TypeModel ConfigModel
  MergeSpec GraphModel GraphSpec.
Import ListNotations.
Open Scope string_scope.
Open Scope list_scope.

Lemma state_eqb_eq : forall a b, state_eqb a b = true <-> a = b.
Proof.
  intros [a1 a2] [b1 b2]. unfold state_eqb. cbn. rewrite andb_true_iff, String.eqb_eq, Bool.eqb_true_iff.
  split; [intros [-> ->]; auto|intros E; inv E; auto].
Qed.

Lemma state_eqb_refl : forall a, state_eqb a a = true.
Proof. intros a. apply state_eqb_eq. reflexivity. Qed.

Lemma batches_spec : forall r, resolver_is_batched r = true <-> Batches r.
Proof.
  fix D 1. intros r. destruct r as [k x|k x|b x|x|x|x|m|]; cbn [resolver_is_batched].
  - destruct k; cbn; split; intros H; try discriminate; try constructor; try reflexivity; inversion H.
  - destruct k; cbn; split; intros H; try discriminate; try constructor; try reflexivity; inversion H.
  - destruct b; split; intros H; try discriminate; try constructor; inversion H.
  - split; intros H; [discriminate|inversion H].
  - split; intros H; [discriminate|inversion H].
  - split; intros H; [discriminate|inversion H].
  - assert (E : forall m', existsb (fun kv : string * resolver => resolver_is_batched (snd kv)) m' = true <->
       exists k r, In (k, r) m' /\ Batches r).
    { fix E 1. intros [|[k r] t]; cbn [existsb snd].
      - split; [discriminate|intros [k [r [[] _]]]].
      - rewrite orb_true_iff, (D r), (E t). split.
        + intros [B|[k' [r' [I B]]]]; [exists k, r; split; [left; reflexivity|exact B]|].
          exists k', r'. split; [right; exact I|exact B].
        + intros [k' [r' [[Q|I] B]]]; [injection Q as <- <-; left; exact B|].
          right. exists k', r'. split; assumption. }
    split.
    + intros H. destruct (proj1 (E m) H) as [k [r' [I B]]]. econstructor; eassumption.
    + intros H. inversion H; subst. apply (proj2 (E m)). eexists. eexists. split; eassumption.
  - split; intros H; [discriminate|inversion H].
Qed.
Lemma not_batches_spec : forall r, resolver_is_batched r = false <-> ~ Batches r.
Proof.
  intros r. rewrite <- batches_spec. destruct (resolver_is_batched r); split; congruence.
Qed.

Lemma unbatched_spec : forall f, unbatched f = true <-> Unbatched f.
Proof.
  intros f. unfold unbatched, Unbatched, has_resolver, is_batched.
  destruct (f_resolvers f) as [|r rs]; cbn [andb negb].
  - split; [discriminate|intros [H _]; congruence].
  - rewrite negb_true_iff. split.
    + intros H. split; [discriminate|]. revert H. generalize (r :: rs). clear.
      induction l as [|x t IH]; cbn; [discriminate|].
      destruct (resolver_is_batched x) eqn:E; cbn; [|exists x; rewrite <- not_batches_spec; auto].
      intros H. destruct (IH H) as [y [I B]]. eauto.
    + intros [_ [x [I B]]]. apply not_batches_spec in B. apply not_true_is_false. intros H. rewrite forallb_forall in H.
      rewrite (H x I) in B. discriminate.
Qed.

Definition known (k : string * bool) (m : npo_cache) : Prop := cache_get k m <> None.

Lemma known_put : forall k k' v m, known k (cache_put k' v m) <-> k = k' \/ known k m.
Proof.
  intros k k' v m. unfold known, cache_put. cbn. destruct (state_eqb k k') eqn:E.
  - apply state_eqb_eq in E. subst. split; [auto|discriminate].
  - split; auto. intros [->|H]; auto. rewrite state_eqb_refl in E. discriminate.
Qed.

Lemma cache_get_put : forall k k' v m,
  cache_get k (cache_put k' v m) = if state_eqb k k' then Some v else cache_get k m.
Proof. reflexivity. Qed.

(** ** Termination *)
Definition states (c : config) : list (string * bool) :=
  flat_map (fun kt => [(fst kt, true); (fst kt, false)]) (c_types c).
Definition fresh (c : config) (m : npo_cache) : nat :=
  List.length (filter (fun k => match cache_get k m with Some _ => false | None => true end) (states c)).

Lemma find_type_states : forall c ty t b, find_type c ty = Some t -> In (ty, b) (states c).
Proof.
  intros c ty t b F. apply (oget_in _ scmp_order) in F. apply in_flat_map. exists (ty, t).
  split; auto. destruct b; cbn; auto.
Qed.

Lemma filter_le : forall A (p q : A -> bool) l,
  (forall x, p x = true -> q x = true) -> List.length (filter p l) <= List.length (filter q l).
Proof.
  intros A p q l H. induction l as [|x t IH]; cbn; auto.
  destruct (p x) eqn:P; [rewrite (H x P); cbn; lia|]. destruct (q x); cbn; lia.
Qed.
Lemma filter_lt : forall A (p q : A -> bool) l y,
  (forall x, p x = true -> q x = true) -> In y l -> p y = false -> q y = true ->
  List.length (filter p l) < List.length (filter q l).
Proof.
  intros A p q l y H I P Q. induction l as [|x t IH]; [destruct I|].
  pose proof (filter_le A p q t H) as L. destruct I as [I|I].
  - subst. cbn. rewrite P, Q. cbn. lia.
  - specialize (IH I). cbn. destruct (p x) eqn:Px; [rewrite (H x Px); cbn; lia|].
    destruct (q x); cbn; lia.
Qed.

Lemma fresh_mono : forall c m m', (forall k, known k m -> known k m') -> fresh c m' <= fresh c m.
Proof.
  intros c m m' H. apply filter_le. intros x. specialize (H x). unfold known in H.
  destruct (cache_get x m') eqn:E; [discriminate|]. destruct (cache_get x m) eqn:E2; auto.
  exfalso. apply H; congruence.
Qed.
Lemma fresh_put : forall c m ty t b v, find_type c ty = Some t -> cache_get (ty, b) m = None ->
  fresh c (cache_put (ty, b) v m) < fresh c m.
Proof.
  intros c m ty t b v F N. apply filter_lt with (y := (ty, b)).
  - intros x. rewrite cache_get_put. destruct (state_eqb x (ty, b)); auto; discriminate.
  - eapply find_type_states; eauto.
  - rewrite cache_get_put, state_eqb_refl. reflexivity.
  - rewrite N. reflexivity.
Qed.

(** The cache only grows; enough fuel gives an answer. *)
Lemma npo_fields_grows : forall visit,
  (forall m ty b m' r, visit m ty b = Some (m', r) -> forall k, known k m -> known k m') ->
  forall fs m b ch m' r, npo_fields visit m fs b ch = Some (m', r) ->
  forall k, known k m -> known k m'.
Proof.
  intros visit H. induction fs as [|[n f] fs IH]; intros m b ch m' r E k K; cbn [npo_fields] in E.
  - inv E. auto.
  - destruct (b && unbatched f); [eapply IH; eauto|].
    destruct (visit m _ _) as [[m1 sub]|] eqn:V; [|discriminate]. eapply IH; eauto.
Qed.

Lemma npo_iter_grows : forall fuel c m ty b m' r, npo_iter fuel c m ty b = Some (m', r) ->
  (forall k, known k m -> known k m') /\ known (ty, b) m'.
Proof.
  induction fuel as [|fuel IH]; intros c m ty b m' r E; cbn [npo_iter] in E;
    destruct (cache_get (ty, b) m) as [ch|] eqn:G.
  - inv E. split; auto. unfold known. congruence.
  - discriminate.
  - inv E. split; auto. unfold known. congruence.
  - destruct (find_type c ty) as [t|].
    + destruct (npo_fields _ _ _ _ _) as [[m2 ch]|] eqn:F; inv E. split.
      * intros k K. apply known_put. right. eapply npo_fields_grows; [|exact F|].
        { intros; eapply IH; eauto. }
        apply known_put. auto.
      * apply known_put. auto.
    + inv E. split; [intros k K; apply known_put; right; apply known_put; auto|apply known_put; auto].
Qed.

Lemma npo_fields_total : forall c visit fuel,
  (forall m ty b, fresh c m < fuel -> exists m' r, visit m ty b = Some (m', r) /\
     forall k, known k m -> known k m') ->
  forall fs m b ch, fresh c m < fuel -> exists m' r, npo_fields visit m fs b ch = Some (m', r).
Proof.
  intros c visit fuel H. induction fs as [|[n f] fs IH]; intros m b ch L; cbn [npo_fields]; eauto.
  destruct (b && unbatched f); [eauto|].
  destruct (H m (type_name (f_type f)) (b || is_list (f_type f)) L) as [m1 [r1 [E G]]].
  rewrite E. apply IH. pose proof (fresh_mono c m m1 G). lia.
Qed.

Lemma npo_iter_total : forall fuel c m ty b, fresh c m < fuel ->
  exists m' r, npo_iter fuel c m ty b = Some (m', r).
Proof.
  induction fuel as [|fuel IH]; intros c m ty b L; [lia|]. cbn [npo_iter].
  destruct (cache_get (ty, b) m) as [ch|] eqn:G; eauto.
  destruct (find_type c ty) as [t|] eqn:F; eauto.
  assert (L1 : fresh c (cache_put (ty, b) [] m) < fuel).
  { pose proof (fresh_put c m ty t b [] F G). lia. }
  destruct (npo_fields_total c (npo_iter fuel c) fuel) with
    (fs := t_fields t) (m := cache_put (ty, b) [] m) (b := b) (ch := @nil (list path_name))
    as [m' [r E]]; auto.
  - intros m0 ty0 b0 L0. destruct (IH c m0 ty0 b0 L0) as [m' [r E]].
    exists m', r. split; auto. intros. eapply npo_iter_grows; eauto.
  - rewrite E. eauto.
Qed.

Lemma fresh_bound : forall c m, fresh c m <= 2 * List.length (c_types c).
Proof.
  intros c m. unfold fresh, states.
  induction (c_types c) as [|[k t] l IH]; cbn [flat_map app filter List.length fst]; [lia|].
  cbn [filter]. destruct (cache_get (k, true) m), (cache_get (k, false) m); cbn [List.length]; lia.
Qed.

Lemma npo_entities_total : forall c ts m ch, exists r, npo_entities (npo_fuel c) c m ts ch = Some r.
Proof.
  intros c. induction ts as [|[n t] ts IH]; intros m ch; cbn [npo_entities]; eauto.
  destruct (has_resolver (t_resolvers t)); auto. destruct (is_batched (t_resolvers t)); auto.
  destruct (npo_iter_total (npo_fuel c) c m n true) as [m' [r E]].
  { pose proof (fresh_bound c m). unfold npo_fuel. lia. }
  rewrite E. auto.
Qed.

Lemma n_plus_one_total : forall c, exists r, n_plus_one c = Some r.
Proof.
  intros c. unfold n_plus_one. destruct (r_query (c_schema c)) as [q|]; [|apply npo_entities_total].
  destruct (npo_iter_total (npo_fuel c) c [] q false) as [m' [r E]].
  { pose proof (fresh_bound c []). unfold npo_fuel. lia. }
  rewrite E. apply npo_entities_total.
Qed.

(** ** Soundness *)
Definition sound_path (c : config) (ty : string) (b : bool) (p : list path_name) : Prop :=
  exists q ty' f', p = map PField q /\ NPlusOne c ty b q ty' f'.
Definition sound_cache (c : config) (m : npo_cache) : Prop :=
  forall ty b ch p, cache_get (ty, b) m = Some ch -> In p ch -> sound_path c ty b p.

Lemma sound_put : forall c m ty b ch, sound_cache c m ->
  (forall p, In p ch -> sound_path c ty b p) -> sound_cache c (cache_put (ty, b) ch m).
Proof.
  intros c m ty b ch S H ty' b' ch' p G I. rewrite cache_get_put in G.
  destruct (state_eqb (ty', b') (ty, b)) eqn:E.
  - apply state_eqb_eq in E. inv E. inv G. auto.
  - eapply S; eauto.
Qed.

Lemma npo_fields_sound : forall c visit,
  (forall m ty b m' r, visit m ty b = Some (m', r) -> sound_cache c m ->
     sound_cache c m' /\ forall p, In p r -> sound_path c ty b p) ->
  forall ty t b, find_type c ty = Some t ->
  forall fs m ch m' r, (forall x, In x fs -> In x (t_fields t)) ->
  npo_fields visit m fs b ch = Some (m', r) -> sound_cache c m ->
  (forall p, In p ch -> sound_path c ty b p) ->
  sound_cache c m' /\ forall p, In p r -> sound_path c ty b p.
Proof.
  intros c visit H ty t b F.
  induction fs as [|[n f] fs IH]; intros m ch m' r Sub E S Hch; cbn [npo_fields] in E.
  - inv E. auto.
  - assert (If : In (n, f) (t_fields t)) by (apply Sub; left; auto).
    assert (Sub' : forall x, In x fs -> In x (t_fields t)) by (intros; apply Sub; right; auto).
    destruct (b && unbatched f) eqn:B.
    + apply andb_true_iff in B. destruct B as [-> B]. apply unbatched_spec in B.
      eapply IH; eauto. intros p I. apply in_app_or in I. destruct I as [I|[I|[]]]; auto.
      subst p. exists [n], ty, n. split; [reflexivity|]. eapply N1_here; eauto.
    + destruct (visit m _ _) as [[m1 sub]|] eqn:V; [|discriminate].
      destruct (H _ _ _ _ _ V S) as [S1 Hsub].
      eapply IH; eauto. intros p I. apply in_app_or in I. destruct I as [I|I]; auto.
      apply in_map_iff in I. destruct I as [p' [<- I]].
      destruct (Hsub p' I) as [q [ty' [f' [-> N]]]].
      exists (n :: q), ty', f'. split; [reflexivity|]. eapply N1_step; eauto.
Qed.

Lemma npo_iter_sound : forall fuel c m ty b m' r, npo_iter fuel c m ty b = Some (m', r) ->
  sound_cache c m -> sound_cache c m' /\ forall p, In p r -> sound_path c ty b p.
Proof.
  induction fuel as [|fuel IH]; intros c m ty b m' r E S; cbn [npo_iter] in E;
    destruct (cache_get (ty, b) m) as [ch|] eqn:G.
  - inv E. split; auto. intros; eapply S; eauto.
  - discriminate.
  - inv E. split; auto. intros; eapply S; eauto.
  - destruct (find_type c ty) as [t|] eqn:F.
    + destruct (npo_fields _ _ _ _ _) as [[m2 ch]|] eqn:N; inv E.
      destruct (npo_fields_sound c (npo_iter fuel c) (fun m ty b m' r => IH c m ty b m' r)
        ty t b F _ _ _ _ _ (fun x I => I) N) as [S2 Hr].
      * apply sound_put; auto. intros ? [].
      * intros ? [].
      * split; auto. apply sound_put; auto.
    + inv E. split; [|intros ? []]. apply sound_put; [apply sound_put; auto|]; intros ? [].
Qed.

(** ** Completeness *)
(** The fields the search follows: those that are not themselves reported. *)
Definition clean_next (c : config) (k k' : string * bool) : Prop :=
  exists t n f, find_type c (fst k) = Some t /\ In (n, f) (t_fields t) /\
    (snd k && unbatched f = false) /\
    k' = (type_name (f_type f), snd k || is_list (f_type f)).
Definition hazard (c : config) (k : string * bool) (n : string) : Prop :=
  snd k = true /\ exists t f, find_type c (fst k) = Some t /\ In (n, f) (t_fields t) /\
    unbatched f = true.

(** [covers c m m' P]: among the states entered between the caches [m] and [m'],
    every hazard satisfies [P], and every followed field leads into [m']. *)
Definition covers (c : config) (m m' : npo_cache) (P : (string * bool) -> string -> Prop) : Prop :=
  forall k, known k m' -> ~ known k m ->
    (forall n, hazard c k n -> P k n) /\ (forall k', clean_next c k k' -> known k' m').

Definition ends_at (c : config) (ty : string) (b : bool) (r : list (list path_name))
  (k : string * bool) (n : string) : Prop :=
  exists q, In (map PField q) r /\ NPlusOne c ty b q (fst k) n.

Lemma known_dec : forall k m, known k m \/ ~ known k m.
Proof. intros k m. unfold known. destruct (cache_get k m); [left; discriminate|right; auto]. Qed.

Lemma npo_fields_chunks : forall visit fs m b ch m' r,
  npo_fields visit m fs b ch = Some (m', r) -> forall p, In p ch -> In p r.
Proof.
  intros visit. induction fs as [|[n f] fs IH]; intros m b ch m' r E p I; cbn [npo_fields] in E.
  - inv E. auto.
  - destruct (b && unbatched f).
    + eapply IH; eauto. apply in_or_app. auto.
    + destruct (visit m _ _) as [[m1 sub]|]; [|discriminate]. eapply IH; eauto. apply in_or_app. auto.
Qed.

Lemma npo_fields_covers : forall c visit,
  (forall m ty b m' r, visit m ty b = Some (m', r) ->
     (forall k, known k m -> known k m') /\ known (ty, b) m' /\
     covers c m m' (ends_at c ty b r)) ->
  forall ty t b, find_type c ty = Some t ->
  forall fs m ch m' r, (forall x, In x fs -> In x (t_fields t)) ->
  npo_fields visit m fs b ch = Some (m', r) ->
  (forall k, known k m -> known k m') /\
  covers c m m' (ends_at c ty b r) /\
  (forall n f, In (n, f) fs -> b && unbatched f = true -> ends_at c ty b r (ty, b) n) /\
  (forall n f, In (n, f) fs -> b && unbatched f = false ->
     known (type_name (f_type f), b || is_list (f_type f)) m').
Proof.
  intros c visit H ty t b F.
  induction fs as [|[n f] fs IH]; intros m ch m' r Sub E; cbn [npo_fields] in E.
  - inv E. split; [auto|]. split; [|split; intros ? ? []]. intros k K N. contradiction.
  - assert (If : In (n, f) (t_fields t)) by (apply Sub; left; auto).
    assert (Sub' : forall x, In x fs -> In x (t_fields t)) by (intros; apply Sub; right; auto).
    destruct (b && unbatched f) eqn:B.
    + destruct (IH _ _ _ _ Sub' E) as [G [Cv [Hz Nx]]]. split; [auto|]. split; [auto|]. split.
      * intros n' f' [I|I] B'; [|eauto]. inv I.
        apply andb_true_iff in B. destruct B as [-> B]. apply unbatched_spec in B.
        exists [n']. split.
        -- eapply npo_fields_chunks; eauto. apply in_or_app. right. left. reflexivity.
        -- eapply N1_here; eauto.
      * intros n' f' [I|I] B'; [inv I; congruence|eauto].
    + destruct (visit m _ _) as [[m1 sub]|] eqn:V; [|discriminate].
      destruct (H _ _ _ _ _ V) as [G1 [K1 C1]].
      destruct (IH _ _ _ _ Sub' E) as [G [Cv [Hz Nx]]]. split; [auto|]. split; [|split].
      * intros k K N. destruct (known_dec k m1) as [K'|K'].
        -- destruct (C1 k K' N) as [A1 A2]. split.
           ++ intros n' Z. destruct (A1 n' Z) as [q [I Np]].
              exists (n :: q). split; [|eapply N1_step; eauto].
              eapply npo_fields_chunks; eauto. apply in_or_app. right.
              change (map PField (n :: q)) with (PField n :: map PField q). apply in_map. auto.
           ++ intros k' Q. apply G. eauto.
        -- apply Cv; auto.
      * intros n' f' [I|I] B'; [inv I; congruence|eauto].
      * intros n' f' [I|I] B'; [inv I; auto|eauto].
Qed.

Lemma NoFun : forall c k, find_type c (fst k) = None ->
  (forall n, ~ hazard c k n) /\ (forall k', ~ clean_next c k k').
Proof.
  intros c k N. split.
  - intros n [_ [t [f [F _]]]]. congruence.
  - intros k' [t [n [f [F _]]]]. congruence.
Qed.

Lemma npo_iter_covers : forall fuel c m ty b m' r, npo_iter fuel c m ty b = Some (m', r) ->
  (forall k, known k m -> known k m') /\ known (ty, b) m' /\ covers c m m' (ends_at c ty b r).
Proof.
  induction fuel as [|fuel IH]; intros c m ty b m' r E;
    destruct (npo_iter_grows _ _ _ _ _ _ _ E) as [G0 K0];
    split; [auto|split; [auto|]|auto|split; [auto|]]; cbn [npo_iter] in E;
    destruct (cache_get (ty, b) m) as [ch|] eqn:G.
  - inv E. intros k K N. contradiction.
  - discriminate.
  - inv E. intros k K N. contradiction.
  - destruct (find_type c ty) as [t|] eqn:F.
    + destruct (npo_fields _ _ _ _ _) as [[m2 ch]|] eqn:N; inv E.
      destruct (npo_fields_covers c (npo_iter fuel c) (fun m ty b m' r => IH c m ty b m' r)
        ty t b F _ _ _ _ _ (fun x I => I) N) as [G2 [Cv [Hz Nx]]].
      intros k K Nk. apply known_put in K.
      assert (Here : k = (ty, b) -> (forall n, hazard c k n -> ends_at c ty b r k n) /\
        (forall k', clean_next c k k' -> known k' (cache_put (ty, b) r m2))).
      { intros ->. split.
        - intros n [Hb [t' [f [F' [I U]]]]]. cbn [fst snd] in *. rewrite F in F'. inv F'.
          apply (Hz n f I). rewrite U. auto.
        - intros k' [t' [n [f [F' [I [U ->]]]]]]. cbn [fst snd] in *. rewrite F in F'. inv F'.
          apply known_put. right. eauto. }
      destruct K as [K|K]; auto.
      destruct (known_dec k (cache_put (ty, b) [] m)) as [Q|Q].
      * apply known_put in Q. destruct Q as [Q|Q]; [auto|contradiction].
      * destruct (Cv k K Q) as [A1 A2]. split; auto. intros k' C. apply known_put. right. auto.
    + inv E. intros k K Nk. apply known_put in K. rewrite known_put in K.
      destruct K as [K|[K|K]]; try contradiction; subst k;
        destruct (NoFun c (ty, b) F) as [A1 A2];
        (split; [intros n Z; destruct (A1 n Z)|intros k' Q; destruct (A2 k' Q)]).
Qed.

(** States that can be entered by followed fields only. *)
Inductive clean_reach (c : config) (k : string * bool) : (string * bool) -> Prop :=
| cr_refl : clean_reach c k k
| cr_step : forall k1 k2, clean_reach c k k1 -> clean_next c k1 k2 -> clean_reach c k k2.

Lemma cr_trans : forall c k k1 k2, clean_reach c k1 k2 -> clean_next c k k1 -> clean_reach c k k2.
Proof.
  intros c k k1 k2 R N. induction R; [eapply cr_step; [apply cr_refl|auto]|eapply cr_step; eauto].
Qed.

(** An N+1 path has a first hazard. *)
Lemma n1_first : forall c ty b q ty' f', NPlusOne c ty b q ty' f' ->
  exists k n, clean_reach c (ty, b) k /\ hazard c k n.
Proof.
  intros c ty b q ty' f' N. induction N as [ty t n f F I U|ty b t n f q ty' f' F I N IH].
  - exists (ty, true), n. split; [apply cr_refl|]. split; [auto|]. exists t, f.
    split; [auto|split; auto]. apply unbatched_spec. auto.
  - destruct (b && unbatched f) eqn:B.
    + exists (ty, b), n. split; [apply cr_refl|]. apply andb_true_iff in B. destruct B as [-> B].
      split; auto. exists t, f. auto.
    + destruct IH as [k [m [R H]]]. exists k, m. split; auto.
      eapply cr_trans; eauto. exists t, n, f. cbn. auto.
Qed.

Lemma is_batched_spec : forall rs, has_resolver rs = true ->
  (is_batched rs = true <-> (rs <> [] /\ forall r, In r rs -> Batches r)).
Proof.
  intros rs H. unfold has_resolver in H. unfold is_batched. destruct rs as [|r0 rs]; [discriminate|].
  rewrite forallb_forall. split.
  - intros A. split; [discriminate|]. intros r I. apply batches_spec. auto.
  - intros [_ A] r I. apply batches_spec. auto.
Qed.
Lemma not_batched_spec : forall rs, has_resolver rs = true ->
  (is_batched rs = false <-> (rs <> [] /\ exists r, In r rs /\ ~ Batches r)).
Proof.
  intros rs H. unfold has_resolver in H. unfold is_batched. destruct rs as [|r0 rs]; [discriminate|].
  generalize (r0 :: rs) (@nil_cons resolver r0 rs). clear. intros l Hl. split.
  - intros A. split; [auto|]. clear Hl. induction l as [|x t IH]; cbn in *; [discriminate|].
    destruct (resolver_is_batched x) eqn:E; cbn in A; [|exists x; rewrite <- not_batches_spec; auto].
    destruct (IH A) as [y [I B]]. eauto.
  - intros [_ [x [I B]]]. apply not_batches_spec in B. apply not_true_is_false. intros A. rewrite forallb_forall in A.
    rewrite (A x I) in B. discriminate.
Qed.
Lemma has_resolver_spec : forall rs, has_resolver rs = true <-> rs <> [].
Proof. intros [|r rs]; cbn; split; congruence. Qed.

Lemma npo_entities_chunks : forall fuel c ts m ch r, npo_entities fuel c m ts ch = Some r ->
  forall p, In p ch -> In p r.
Proof.
  intros fuel c. induction ts as [|[e t] ts IH]; intros m ch r E p I; cbn [npo_entities] in E.
  - inv E. auto.
  - destruct (has_resolver (t_resolvers t)); [|eauto]. destruct (is_batched (t_resolvers t)).
    + destruct (npo_iter _ _ _ _ _) as [[m1 sub]|]; [|discriminate]. eapply IH; eauto.
      apply in_or_app. auto.
    + eapply IH; eauto. apply in_or_app. auto.
Qed.

Lemma npo_entities_sound : forall fuel c ts m ch r,
  (forall x, In x ts -> In x (c_types c)) ->
  npo_entities fuel c m ts ch = Some r -> sound_cache c m ->
  (forall p, In p ch -> report_ok c p) -> forall p, In p r -> report_ok c p.
Proof.
  intros fuel c. induction ts as [|[e t] ts IH]; intros m ch r Sub E S H p I; cbn [npo_entities] in E.
  - inv E. auto.
  - assert (Ie : In (e, t) (c_types c)) by (apply Sub; left; auto).
    assert (Sub' : forall x, In x ts -> In x (c_types c)) by (intros; apply Sub; right; auto).
    destruct (has_resolver (t_resolvers t)) eqn:R; [|eapply IH; eauto].
    destruct (is_batched (t_resolvers t)) eqn:B.
    + destruct (npo_iter _ _ _ _ _) as [[m1 sub]|] eqn:V; [|discriminate].
      destruct (npo_iter_sound _ _ _ _ _ _ _ V S) as [S1 Hs].
      eapply IH; eauto. intros p' I'. apply in_app_or in I'. destruct I' as [I'|I']; auto.
      apply in_map_iff in I'. destruct I' as [p2 [<- I']].
      destruct (Hs p2 I') as [q [ty' [f' [-> N]]]]. right. left.
      exists e, t, q, ty', f'. split; [auto|]. split; [apply is_batched_spec; auto|]. auto.
    + eapply IH; eauto. intros p' I'. apply in_app_or in I'. destruct I' as [I'|[I'|[]]]; auto.
      subst p'. right. right. exists e, t. split; [auto|]. split; [apply not_batched_spec; auto|auto].
Qed.

Lemma n_plus_one_sound : forall c r, n_plus_one c = Some r -> forall p, In p r -> report_ok c p.
Proof.
  intros c r E. unfold n_plus_one in E.
  assert (S0 : sound_cache c []) by (intros ? ? ? ? Q; discriminate).
  destruct (r_query (c_schema c)) as [q|] eqn:Q.
  - destruct (npo_iter _ _ _ _ _) as [[m ch]|] eqn:V; [|discriminate].
    destruct (npo_iter_sound _ _ _ _ _ _ _ V S0) as [S1 Hs].
    eapply npo_entities_sound; eauto. intros p I. left.
    destruct (Hs p I) as [q' [ty' [f' [-> N]]]]. exists q, q', ty', f'. auto.
  - eapply npo_entities_sound; eauto. intros ? [].
Qed.

(** The invariant of the second phase: everything entered so far is closed under
    followed fields and its hazards are reported. *)
Definition phase_ok (c : config) (m : npo_cache) (ch : list (list path_name)) : Prop :=
  forall k, known k m -> (forall n, hazard c k n -> Reported c ch (fst k) n) /\
    (forall k', clean_next c k k' -> known k' m).

Lemma Reported_mono : forall c ch ch' ty f, (forall p, In p ch -> In p ch') ->
  Reported c ch ty f -> Reported c ch' ty f.
Proof.
  intros c ch ch' ty f H R. inversion R; subst.
  - eapply Rep_query; eauto.
  - eapply Rep_entity; eauto.
Qed.

Lemma npo_entities_complete : forall fuel c ts m ch r,
  (forall x, In x ts -> In x (c_types c)) ->
  npo_entities fuel c m ts ch = Some r -> phase_ok c m ch ->
  exists m', (forall k, known k m -> known k m') /\ phase_ok c m' r /\
    (forall e t, In (e, t) ts -> EntityBatched t -> known (e, true) m') /\
    (forall e t, In (e, t) ts -> EntityUnbatched t -> In [PEntity e] r).
Proof.
  intros fuel c. induction ts as [|[e t] ts IH]; intros m ch r Sub E P; cbn [npo_entities] in E.
  - inv E. exists m. split; [auto|split; [auto|split; intros ? ? []]].
  - assert (Ie : In (e, t) (c_types c)) by (apply Sub; left; auto).
    assert (Sub' : forall x, In x ts -> In x (c_types c)) by (intros; apply Sub; right; auto).
    destruct (has_resolver (t_resolvers t)) eqn:R.
    + destruct (is_batched (t_resolvers t)) eqn:B.
      * destruct (npo_iter _ _ _ _ _) as [[m1 sub]|] eqn:V; [|discriminate].
        destruct (npo_iter_covers _ _ _ _ _ _ _ V) as [G1 [K1 C1]].
        destruct (IH m1 _ r Sub' E) as [m' [G [P' [A1 A2]]]].
        { intros k K. destruct (known_dec k m) as [Km|Km].
          - destruct (P k Km) as [P1 P2]. split; auto.
            intros n Z. eapply Reported_mono; [|eauto]. intros; apply in_or_app; auto.
          - destruct (C1 k K Km) as [P1 P2]. split; auto.
            intros n Z. destruct (P1 n Z) as [q [I Np]].
            eapply Rep_entity; eauto; [apply is_batched_spec; auto|].
            apply in_or_app. right. apply in_map. auto. }
        exists m'. split; [auto|split; [auto|split]].
        -- intros e' t' [I|I] Bt; [inv I; auto|eauto].
        -- intros e' t' [I|I] Bt; [inv I|eauto].
           apply (is_batched_spec _ R) in B. destruct B as [_ B], Bt as [_ [x [Ix Bx]]].
           destruct (Bx (B x Ix)).
      * destruct (IH m _ r Sub' E) as [m' [G [P' [A1 A2]]]].
        { intros k K. destruct (P k K) as [P1 P2]. split; auto.
          intros n Z. eapply Reported_mono; [|eauto]. intros; apply in_or_app; auto. }
        exists m'. split; [auto|split; [auto|split]].
        -- intros e' t' [I|I] Bt; [inv I|eauto].
           apply (not_batched_spec _ R) in B. destruct B as [_ [x [Ix Bx]]], Bt as [_ Bt].
           destruct (Bx (Bt x Ix)).
        -- intros e' t' [I|I] Bt; [inv I|eauto].
           eapply npo_entities_chunks; eauto. apply in_or_app. right. left. auto.
    + destruct (IH m _ r Sub' E P) as [m' [G [P' [A1 A2]]]].
      exists m'. split; [auto|split; [auto|split]].
      * intros e' t' [I|I] Bt; [inv I|eauto]. destruct Bt as [Bt _].
        apply has_resolver_spec in Bt. congruence.
      * intros e' t' [I|I] Bt; [inv I|eauto]. destruct Bt as [Bt _].
        apply has_resolver_spec in Bt. congruence.
Qed.

Lemma closed_reach : forall c m, (forall k k', known k m -> clean_next c k k' -> known k' m) ->
  forall k k', clean_reach c k k' -> known k m -> known k' m.
Proof. intros c m H k k' R K. induction R; eauto. Qed.

Lemma n_plus_one_covers : forall c r, n_plus_one c = Some r ->
  (forall q k n, r_query (c_schema c) = Some q -> clean_reach c (q, false) k -> hazard c k n ->
     Reported c r (fst k) n) /\
  (forall e t k n, In (e, t) (c_types c) -> EntityBatched t -> clean_reach c (e, true) k ->
     hazard c k n -> Reported c r (fst k) n) /\
  (forall e t, In (e, t) (c_types c) -> EntityUnbatched t -> In [PEntity e] r).
Proof.
  intros c r E. unfold n_plus_one in E.
  assert (G : exists m, phase_ok c m r /\
    (forall q, r_query (c_schema c) = Some q -> known (q, false) m) /\
    (forall e t, In (e, t) (c_types c) -> EntityBatched t -> known (e, true) m) /\
    (forall e t, In (e, t) (c_types c) -> EntityUnbatched t -> In [PEntity e] r)).
  { destruct (r_query (c_schema c)) as [q|] eqn:Q.
    - destruct (npo_iter _ _ _ _ _) as [[m ch]|] eqn:V; [|discriminate].
      destruct (npo_iter_covers _ _ _ _ _ _ _ V) as [G1 [K1 C1]].
      destruct (npo_entities_complete _ _ _ _ _ _ (fun x I => I) E) as [m' [G [P [A1 A2]]]].
      + intros k K. destruct (C1 k K) as [P1 P2]; [intros B; apply B; reflexivity|]. split; auto.
        intros n Z. destruct (P1 n Z) as [q' [I Np]]. eapply Rep_query; eauto.
      + exists m'. split; [auto|split; [|auto]]. intros q0 Q0. inv Q0. auto.
    - destruct (npo_entities_complete _ _ _ _ _ _ (fun x I => I) E) as [m' [G [P [A1 A2]]]].
      + intros k K. exfalso. apply K. reflexivity.
      + exists m'. split; [auto|split; [|auto]]. intros q0 Q0. inv Q0. }
  destruct G as [m [P [A [B C]]]].
  assert (Cl : forall k k', known k m -> clean_next c k k' -> known k' m).
  { intros k k' K N. destruct (P k K) as [_ H]. eauto. }
  split; [|split; [|auto]].
  - intros q k n Q R H. destruct (P k) as [H1 _]; [eapply closed_reach; eauto|]. auto.
  - intros e t k n I Bt R H. destruct (P k) as [H1 _]; [eapply closed_reach; eauto|]. auto.
Qed.

Lemma Reported_nonempty : forall c r ty f, Reported c r ty f -> r <> [].
Proof.
  intros c r ty f R. inversion R as [qr q ty0 f0 Q I N|e t q ty0 f0 I B J N]; subst;
    destruct r; [destruct I|discriminate|destruct J|discriminate].
Qed.

(** At least one report as soon as one N+1 path exists. *)
Lemma n_plus_one_detects : forall c r, n_plus_one c = Some r ->
  (forall q p ty f, r_query (c_schema c) = Some q -> NPlusOne c q false p ty f -> r <> []) /\
  (forall e t p ty f, In (e, t) (c_types c) -> EntityBatched t -> NPlusOne c e true p ty f -> r <> []) /\
  (forall e t, In (e, t) (c_types c) -> EntityUnbatched t -> r <> []).
Proof.
  intros c r E. destruct (n_plus_one_covers c r E) as [A [B C]]. split; [|split].
  - intros q p ty f Q N. destruct (n1_first _ _ _ _ _ _ N) as [k [n [R H]]].
    eapply Reported_nonempty; eauto.
  - intros e t p ty f I Bt N. destruct (n1_first _ _ _ _ _ _ N) as [k [n [R H]]].
    eapply Reported_nonempty; eauto.
  - intros e t I Bt Q. specialize (C e t I Bt). rewrite Q in C. destruct C.
Qed.

Lemma first_n1_reach : forall c ty b ty' f', FirstN1 c ty b ty' f' ->
  clean_reach c (ty, b) (ty', true) /\ hazard c (ty', true) f'.
Proof.
  intros c ty b ty' f' N. induction N as [ty t n f F I U|ty b t n f ty' f' F I C N [IH1 IH2]].
  - split; [apply cr_refl|]. split; [auto|]. exists t, f. split; [auto|split; auto].
    apply unbatched_spec. auto.
  - split; auto. eapply cr_trans; eauto. exists t, n, f. cbn. split; [auto|]. split; [auto|].
    split; [|auto]. apply not_true_is_false. intros B. apply andb_true_iff in B.
    destruct B as [B1 B2]. apply C. split; auto. apply unbatched_spec. auto.
Qed.

Lemma n_plus_one_complete : forall c r, n_plus_one c = Some r ->
  (forall q ty f, r_query (c_schema c) = Some q -> FirstN1 c q false ty f -> Reported c r ty f) /\
  (forall e t ty f, In (e, t) (c_types c) -> EntityBatched t -> FirstN1 c e true ty f ->
     Reported c r ty f).
Proof.
  intros c r E. destruct (n_plus_one_covers c r E) as [A [B C]]. split.
  - intros q ty f Q N. destruct (first_n1_reach _ _ _ _ _ N) as [R H].
    apply (A q (ty, true) f Q R H).
  - intros e t ty f I Bt N. destruct (first_n1_reach _ _ _ _ _ N) as [R H].
    apply (B e t (ty, true) f I Bt R H).
Qed.
