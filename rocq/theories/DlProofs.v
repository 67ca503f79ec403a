(** Proofs about the data loader (C10, C11). *)
From Coq Require Import Bool Arith Lia List Permutation.
From Verif Require Import Base DlModel DlSpec.
Import ListNotations.
Open Scope list_scope.

Section MapFacts.
  Context {K V : Type}.
  Variable keq : forall a b : K, {a = b} + {a <> b}.
  Notation lookup := (lookup (V := V) keq).

  Lemma lookup_hput k k' v m : lookup k (hput keq k' v m) = if keq k k' then Some v else lookup k m.
  Proof.
    induction m as [|[k1 v1] m IH]; cbn.
    - destruct (keq k k'); reflexivity.
    - destruct (keq k' k1) as [->|N]; cbn.
      + destruct (keq k k1); reflexivity.
      + destruct (keq k k1) as [->|N1]; [destruct (keq k1 k'); [congruence|reflexivity]|exact IH].
  Qed.

  Lemma lookup_hdel k k' m : lookup k (hdel keq k' m) = if keq k' k then None else lookup k m.
  Proof.
    unfold hdel. induction m as [|[k1 v1] m IH]; cbn; [now destruct (keq k' k)|].
    destruct (keq k' k1) as [->|N]; cbn.
    - rewrite IH. destruct (keq k1 k) as [->|N]; [auto|]. destruct (keq k k1); [congruence|auto].
    - destruct (keq k k1) as [->|N1]; [|exact IH]. destruct (keq k' k1); [congruence|auto].
  Qed.

  Lemma lookup_firstn n k : forall m v, lookup k (firstn n m) = Some v -> lookup k m = Some v.
  Proof.
    induction n as [|n IH]; intros m v; cbn; [discriminate|]. destruct m as [|[k1 v1] m]; cbn; [discriminate|].
    destruct (keq k k1); auto.
  Qed.

  Lemma in_sadd k s x : In x (sadd keq s k) <-> In x s \/ x = k.
  Proof.
    unfold sadd. destruct (in_dec keq k s) as [I|N]; [|rewrite in_app_iff; cbn; intuition congruence].
    split; [auto|]. intros [H| ->]; auto.
  Qed.
  Lemma nodup_sadd k s : NoDup s -> NoDup (sadd keq s k).
  Proof.
    unfold sadd. destruct (in_dec keq k s) as [I|N]; auto. intros D.
    apply NoDup_rev in D. rewrite <- (rev_involutive (s ++ [k])), rev_app_distr. apply NoDup_rev. cbn. constructor; auto.
    now rewrite <- in_rev.
  Qed.
  Lemma in_sadds : forall l s x, In x (sadds keq s l) <-> In x s \/ In x l.
  Proof.
    induction l as [|k l IH]; intros s x; cbn; [tauto|]. unfold sadds in IH. rewrite IH, in_sadd. intuition congruence.
  Qed.
  Lemma nodup_sadds : forall l s, NoDup s -> NoDup (sadds keq s l).
  Proof. induction l as [|k l IH]; intros s D; cbn; auto. apply IH. now apply nodup_sadd. Qed.
  Lemma sadd_length s k : length (sadd keq s k) <= S (length s).
  Proof. unfold sadd. destruct (in_dec keq k s); [lia|]. rewrite app_length. cbn. lia. Qed.

  Lemma no_cache_laws : CacheLaws (no_cache K V).
  Proof. constructor; cbn; auto; discriminate. Qed.
  Lemma hash_cache_laws : CacheLaws (hash_cache (V := V) keq).
  Proof.
    constructor; cbn; auto.
    - intros k v c x. rewrite lookup_hput. destruct (keq k k); [|congruence]. congruence.
    - intros k k' v c x N. rewrite lookup_hput. destruct (keq k k'); congruence.
  Qed.
  Lemma lru_cache_laws cap : CacheLaws (lru_cache (V := V) keq cap).
  Proof.
    assert (G : forall (k k' : K) c, fst (match lookup k c with Some v => (Some v, (k, v) :: hdel keq k c) | None => (None, c) end) = lookup k c).
    { intros k _ c. destruct (lookup k c); auto. }
    constructor; cbn.
    - intros k k' c. rewrite !(G k k'). destruct (lookup k' c) as [v|] eqn:E; cbn; auto.
      rewrite lookup_hdel. destruct (keq k k') as [->|N]; [congruence|]. destruct (keq k' k); [congruence|auto].
    - intros k v c x. rewrite (G k k). intros H. apply lookup_firstn in H. cbn in H. destruct (keq k k); congruence.
    - intros k k' v c x N. rewrite !(G k k'). intros H. apply lookup_firstn in H. cbn in H.
      destruct (keq k k'); [congruence|]. rewrite lookup_hdel in H. destruct (keq k' k); congruence.
    - auto.
    - auto.
  Qed.
End MapFacts.

Section Lists.
  Lemma set_nth_split {A} n (x y : A) l : nth_error l n = Some x ->
    exists a b, l = a ++ x :: b /\ set_nth n y l = a ++ y :: b /\ length a = n.
  Proof.
    revert n. induction l as [|z l IH]; intros [|n] H; cbn in *; try discriminate.
    - injection H as ->. exists [], l. auto.
    - apply IH in H as (a & b & -> & E & L). exists (z :: a), b. cbn. rewrite E. auto.
  Qed.
  Lemma find_fst_in {B} i (l : list (nat * B)) b :
    NoDup (map fst l) -> In (i, b) l -> find (fun a => Nat.eqb (fst a) i) l = Some (i, b).
  Proof.
    induction l as [|[j c] l IH]; cbn; [intros _ []|]. intros D [E|I].
    - injection E as -> ->. now rewrite Nat.eqb_refl.
    - apply NoDup_cons_iff in D as [N D]. destruct (Nat.eqb_spec j i) as [->|]; [|auto].
      exfalso. apply N. change i with (fst (i, b)). now apply in_map.
  Qed.
  Lemma find_fst_some {B} i (l : list (nat * B)) p : find (fun a => Nat.eqb (fst a) i) l = Some p -> In (i, snd p) l.
  Proof.
    intros H. apply find_some in H as [H E]. apply Nat.eqb_eq in E. destruct p as [j b]. cbn in *. now subst.
  Qed.
  Lemma find_fst_none {B} i (l : list (nat * B)) : find (fun a => Nat.eqb (fst a) i) l = None -> ~ In i (map fst l).
  Proof.
    intros H I. apply in_map_iff in I as ([j b] & E & I). cbn in E. subst.
    apply (find_none _ _ H) in I. cbn in I. rewrite Nat.eqb_refl in I. discriminate.
  Qed.
End Lists.

Section Facts.
  Context {K V Er : Type}.
  Variable keq : forall a b : K, {a = b} + {a <> b}.
  Variable sto : storage K V.
  Variable max_size : nat.
  Hypothesis laws : CacheLaws sto.
  Notation state := (state (Er := Er) sto).
  Notation batch := (batch (K := K) (V := V) (Er := Er)).
  Notation waiting := (waiting (K := K) (V := V)).
  Notation step := (step (Er := Er) keq sto max_size).
  Notation steps := (steps (Er := Er) keq sto max_size).
  Notation send := (send (Er := Er) keq).
  Notation lost := (lost (K := K) (V := V) (Er := Er)).
  Implicit Types s : state.

  Definition calls (ws : list waiting) : list nat := map w_call ws.
  Definition members_of (bs : list batch) : list nat := flat_map (fun b => calls (b_members b)) bs.
  Definition all_work s : list nat := calls (d_pending _ s) ++ members_of (d_batches _ s).

  Definition KeysOf (ks : list K) (ws : list waiting) : Prop :=
    NoDup ks /\ (forall k, In k ks <-> exists w, In w ws /\ In k (w_missing w)) /\
    Forall (fun w => w_missing w <> []) ws.

  Record Inv s : Prop :=
    { i_asked : NoDup (map fst (d_asked _ s));
      i_once : Permutation (map fst (d_answers _ s) ++ in_work _ s) (map fst (d_asked _ s));
      i_work : NoDup (all_work s);
      i_incl : incl (all_work s) (map fst (d_asked _ s));
      i_pending : KeysOf (d_keys _ s) (d_pending _ s);
      i_batches : Forall (fun b : batch => KeysOf (b_keys b) (b_members b) /\ b_members b <> []) (d_batches _ s);
      i_ended : forall b, In b (d_batches _ s) -> forall w, In w (b_members b) ->
        match b_status b with
        | Running => True
        | Finished r => In (send r w) (d_answers _ s)
        | Crashed => In (lost w) (d_answers _ s)
        end;
      i_timer : d_keys _ s <> [] -> d_timers _ s <> [];
      i_size : d_keys _ s = [] \/ length (d_keys _ s) < max_size }.

  Lemma inv_new : Inv (new sto).
  Proof.
    constructor; cbn; auto; try (apply NoDup_nil); try apply perm_nil; try apply Forall_nil; try congruence.
    - split; [constructor|split; [|constructor]]. intros k. split; [intros []|intros (w & [] & _)].
    - intros b [].
  Qed.

  Lemma keys_of_snoc ks ws w : KeysOf ks ws -> w_missing w <> [] -> KeysOf (sadds keq ks (w_missing w)) (ws ++ [w]).
  Proof.
    intros (A & B & D) N. split; [|split].
    - now apply nodup_sadds.
    - intros k. rewrite in_sadds, B. split.
      + intros [(x & I & J)|I]; [exists x; rewrite in_app_iff; auto|exists w; rewrite in_app_iff; cbn; auto].
      + intros (x & I & J). apply in_app_iff in I as [I|[<-|[]]]; [left; eauto|auto].
    - apply Forall_app. auto.
  Qed.

  Lemma keys_empty ks ws : KeysOf ks ws -> ks = [] -> ws = [].
  Proof.
    intros (A & B & D) ->. destruct ws as [|w ws]; auto. exfalso. inversion D as [|? ? N _]; subst.
    destruct (w_missing w) as [|k l] eqn:E; [congruence|]. apply (proj2 (B k)). exists w. rewrite E. cbn. auto.
  Qed.

  Lemma nodup_snoc (l : list nat) x : NoDup l -> ~ In x l -> NoDup (l ++ [x]).
  Proof.
    intros D N. apply (Permutation_NoDup (l := x :: l)); [|constructor; auto].
    apply Permutation_cons_append.
  Qed.

  Lemma members_app a b : members_of (a ++ b) = members_of a ++ members_of b.
  Proof. apply flat_map_app. Qed.

  Lemma in_work_eq s : in_work sto s = calls (d_pending _ s) ++ members_of (filter running (d_batches _ s)).
  Proof. reflexivity. Qed.

  Lemma asked_none s i : asked sto s i = None -> ~ In i (map fst (d_asked _ s)).
  Proof.
    unfold asked. destruct (find _ _) as [[j ks]|] eqn:F; [discriminate|]. intros _. now apply find_fst_none.
  Qed.

  (** Starting a batch with all that is pending. *)
  Lemma inv_start s dis : Inv s -> d_keys _ s <> [] -> Inv (start_batch sto (d_keys _ s) (d_pending _ s) dis s).
  Proof.
    intros [A B W IW P Q E T Z] N. constructor; cbn; auto.
    - rewrite in_work_eq in *. cbn. rewrite filter_app, members_app. cbn. rewrite app_nil_r.
      etransitivity; [|exact B]. apply Permutation_app_head. apply Permutation_app_comm.
    - unfold all_work in *. cbn. rewrite members_app. cbn. rewrite app_nil_r.
      eapply Permutation_NoDup; [|exact W]. apply Permutation_app_comm.
    - unfold all_work in *. cbn. rewrite members_app. cbn. rewrite app_nil_r. intros x I. apply IW.
      rewrite in_app_iff in *. tauto.
    - split; [constructor|split; [|constructor]]. intros k. split; [intros []|intros (w & [] & _)].
    - apply Forall_app. split; [exact Q|]. constructor; [|constructor]. cbn. split; [exact P|].
      intros Pn. rewrite Pn in P. destruct P as (_ & P & _). destruct (d_keys _ s) as [|k l]; [congruence|].
      destruct (proj1 (P k) (or_introl eq_refl)) as (w & [] & _).
    - intros b I w J. apply in_app_iff in I as [I|[<-|[]]]; [now apply E|exact I].
  Qed.

  Lemma inv_end s n b x c ans : Inv s -> nth_error (d_batches _ s) n = Some b -> b_status b = Running ->
    x <> Running -> map fst ans = calls (b_members b) ->
    (forall w, In w (b_members b) ->
       match x with Running => True | Finished r => In (send r w) ans | Crashed => In (lost w) ans end) ->
    Inv (end_batch sto n b x c ans s).
  Proof.
    intros [A B W IW P Q E T Z] H R N F L.
    destruct (set_nth_split n b (with_status b x) (d_batches _ s) H) as (l1 & l2 & E1 & E2 & _).
    constructor; cbn; auto.
    - rewrite in_work_eq in *. cbn. rewrite E2. rewrite E1 in B. rewrite filter_app in *. cbn in *.
      unfold running in B at 2. rewrite R in B. unfold running at 2. cbn [b_status with_status].
      rewrite members_app in *. cbn in B. rewrite map_app, F.
      replace (match x with Running => true | _ => false end) with false by (destruct x; congruence).
      etransitivity; [|exact B].
      set (D := map fst (d_answers sto s)). set (G := calls (d_pending sto s)).
      set (L1 := members_of (filter running l1)). set (L2 := members_of (filter running l2)).
      rewrite <- app_assoc. rewrite (Permutation_app_comm (calls (b_members b))). rewrite <- !app_assoc.
      apply Permutation_app_head, Permutation_app_head, Permutation_app_head. apply Permutation_app_comm.
    - unfold all_work in *. cbn. rewrite E2. rewrite E1 in W. rewrite members_app in *. exact W.
    - unfold all_work in *. cbn. rewrite E2. rewrite E1 in IW. rewrite members_app in *. exact IW.
    - rewrite E2. rewrite E1 in Q. apply Forall_app in Q as [Q1 Q2]. apply Forall_app. split; [exact Q1|].
      inversion Q2; subst. constructor; auto.
    - rewrite E2. rewrite E1 in E. intros b' I w J. apply in_app_iff in I as [I|[<-|I]].
      + specialize (E b' (in_or_app l1 (b :: l2) b' (or_introl I)) w J).
        destruct (b_status b'); auto; apply in_app_iff; auto.
      + cbn in *. specialize (L w J). destruct x; auto; apply in_app_iff; auto.
      + specialize (E b' (in_or_app l1 (b :: l2) b' (or_intror (or_intror I))) w J).
        destruct (b_status b'); auto; apply in_app_iff; auto.
  Qed.

  Lemma inv_step s l s' : Inv s -> step s l = Some s' -> Inv s'.
  Proof.
    intros HI H. destruct l as [i ks|t|n r|n|on|on|kvs|]; cbn in H.
    - destruct (asked sto s i) eqn:Ai; [discriminate|]. apply asked_none in Ai. injection H as <-.
      unfold load_many. destruct (if d_disabled _ s || d_all_disabled _ s then _ else _) as [[hit miss] c].
      assert (HI' := HI). destruct HI' as [A B W IW P Q E T Z].
      assert (Nw : ~ In i (all_work s)) by (intros I; apply IW in I; contradiction).
      destruct miss as [|k0 miss0].
      + constructor; cbn; auto.
        * constructor; auto.
        * intros x I. right. now apply IW.
        * intros b I w J. specialize (E b I w J). destruct (b_status b); auto.
      + remember (k0 :: miss0) as miss eqn:Em.
        assert (Mn : miss <> []) by (subst; discriminate).
        set (w := {| w_call := i; w_missing := miss; w_cached := hit |}).
        set (keys' := sadds keq (d_keys _ s) miss).
        assert (P' := keys_of_snoc _ _ w P Mn). cbn [w_missing w] in P'. fold keys' in P'.
        assert (K' : keys' <> []).
        { intros E0. destruct P' as (_ & P' & _). assert (I0 : In k0 keys'); [|rewrite E0 in I0; destruct I0].
          apply P'. exists w. split; [apply in_app_iff; cbn; auto|]. cbn. rewrite Em. now left. }
        assert (W' : NoDup (calls (d_pending _ s ++ [w]) ++ members_of (d_batches _ s))).
        { unfold calls. rewrite map_app, <- app_assoc. cbn. eapply Permutation_NoDup; [apply Permutation_middle|].
          constructor; auto. }
        assert (IW' : incl (calls (d_pending _ s ++ [w]) ++ members_of (d_batches _ s)) (i :: map fst (d_asked _ s))).
        { unfold calls. rewrite map_app, <- app_assoc. cbn. intros x I. rewrite in_app_iff in I. cbn in I.
          assert (In x (all_work s) \/ x = i) as [J| ->].
          { unfold all_work. rewrite in_app_iff. intuition congruence. }
          - right. now apply IW.
          - now left. }
        assert (B' : Permutation (map fst (d_answers _ s) ++ calls (d_pending _ s ++ [w]) ++
                       members_of (filter running (d_batches _ s))) (i :: map fst (d_asked _ s))).
        { unfold calls. rewrite map_app, <- app_assoc. cbn.
          etransitivity; [|apply perm_skip; exact B]. rewrite in_work_eq.
          rewrite app_assoc. etransitivity; [symmetry; apply Permutation_middle|]. now rewrite <- app_assoc. }
        destruct (max_size <=? length keys') eqn:Sz.
        * set (s1 := {| d_keys := keys'; d_pending := d_pending _ s ++ [w]; d_cache := c; d_disabled := d_disabled _ s;
             d_all_disabled := d_all_disabled _ s; d_timers := d_timers _ s; d_batches := d_batches _ s;
             d_asked := (i, ks) :: d_asked _ s; d_answers := d_answers _ s |}).
          (* as if it were in a state allowed to wait *)
          constructor; cbn; auto.
          -- constructor; auto.
          -- rewrite filter_app, flat_map_app. cbn. rewrite app_nil_r.
             etransitivity; [|exact B']. apply Permutation_app_head. apply Permutation_app_comm.
          -- rewrite flat_map_app. cbn. rewrite app_nil_r.
             eapply Permutation_NoDup; [|exact W']. apply Permutation_app_comm.
          -- rewrite flat_map_app. cbn. rewrite app_nil_r. intros x I. apply IW'.
             unfold members_of. rewrite in_app_iff in *. tauto.
          -- split; [constructor|split; [|constructor]]. intros k. split; [intros []|intros (x & [] & _)].
          -- apply Forall_app. split; [exact Q|]. constructor; [|constructor]. cbn. split; [exact P'|].
             now destruct (d_pending _ s).
          -- intros b I x J. apply in_app_iff in I as [I|[<-|[]]]; [now apply E|exact I].
        * apply Nat.leb_gt in Sz. constructor; cbn; auto.
          -- constructor; auto.
          -- intros _. destruct (d_keys _ s) eqn:Ks; [now destruct (d_timers _ s)|apply T; congruence].
    - destruct (nth_error (d_timers _ s) t) as [dis|] eqn:Nt; [|discriminate].
      assert (HT : d_keys _ s = [] -> Inv (with_timers sto (del_nth t (d_timers _ s)) s)).
      { destruct HI as [A B W IW P Q E T Z]. intros Ke. constructor; auto. }
      cbn in H. destruct (d_keys _ s) as [|k0 l0] eqn:Ks.
      + injection H as <-. specialize (HT eq_refl).
        assert (Pe : d_pending _ s = []) by (eapply keys_empty; [exact (i_pending s HI)|exact Ks]).
        rewrite Pe. cbn. destruct HT as [A B W IW P Q E T Z]. unfold in_work, all_work in *. cbn in *. rewrite Pe in *.
        constructor; cbn; auto. now rewrite <- Ks.
      + injection H as <-. assert (HS := inv_start s dis HI). rewrite Ks in HS. specialize (HS ltac:(discriminate)).
        destruct HS as [A B W IW P Q E T Z]. constructor; auto.
    - destruct (nth_error (d_batches _ s) n) as [b|] eqn:Nb; [|discriminate].
      destruct (b_status b) eqn:R; try discriminate. injection H as <-.
      apply inv_end; auto; [discriminate| |].
      + rewrite map_map. reflexivity.
      + intros w I. now apply in_map.
    - destruct (nth_error (d_batches _ s) n) as [b|] eqn:Nb; [|discriminate].
      destruct (b_status b) eqn:R; try discriminate. injection H as <-.
      apply inv_end; auto; [discriminate| |].
      + rewrite map_map. reflexivity.
      + intros w I. now apply in_map.
    - injection H as <-. destruct HI as [A B W IW P Q E T Z]. constructor; auto.
    - injection H as <-. destruct HI as [A B W IW P Q E T Z]. constructor; auto.
    - injection H as <-. destruct HI as [A B W IW P Q E T Z]. constructor; auto.
    - injection H as <-. destruct HI as [A B W IW P Q E T Z]. constructor; auto.
  Qed.

  Lemma inv_steps ls : forall s s', Inv s -> steps s ls = Some s' -> Inv s'.
  Proof.
    induction ls as [|l ls IH]; cbn; intros s s' HI H; [congruence|].
    destruct (step s l) eqn:E; [|discriminate]. eapply IH; [|exact H]. eapply inv_step; eauto.
  Qed.
  Lemma reachable_inv ls s : steps (new sto) ls = Some s -> Inv s.
  Proof. apply inv_steps, inv_new. Qed.

  Lemma steps_app l1 l2 : forall s, steps s (l1 ++ l2) = match steps s l1 with Some s1 => steps s1 l2 | None => None end.
  Proof. induction l1 as [|l l1 IH]; intros s; cbn; [auto|]. destruct (step s l); auto. Qed.

  (** *** Answers *)
  Lemma nodup_answers s : Inv s -> NoDup (map fst (d_answers _ s)).
  Proof.
    intros HI. assert (D := i_asked s HI). apply (Permutation_NoDup (Permutation_sym (i_once s HI))) in D.
    clear - D. induction (map fst (d_answers sto s)) as [|x l IH]; [constructor|]. cbn in D.
    apply NoDup_cons_iff in D as [N D]. constructor; auto. rewrite in_app_iff in N. tauto.
  Qed.

  Lemma answer_in s i o : Inv s -> (answer sto s i = Some o <-> In (i, o) (d_answers _ s)).
  Proof.
    intros HI. unfold answer. split.
    - destruct (find _ _) as [[j o']|] eqn:F; [|discriminate]. intros E. injection E as <-.
      apply find_fst_some in F. exact F.
    - intros I. now rewrite (find_fst_in i _ o (nodup_answers s HI) I).
  Qed.

  Lemma answered_not_working s i : Inv s -> In i (map fst (d_answers _ s)) -> In i (in_work _ s) -> False.
  Proof.
    intros HI I J. assert (D := i_asked s HI). apply (Permutation_NoDup (Permutation_sym (i_once s HI))) in D.
    revert I D. generalize (map fst (d_answers sto s)) as l. induction l as [|x l IH]; intros I D; [destruct I|]; destruct I as [->|I]; cbn in D.
    - apply NoDup_cons_iff in D as [N _]. apply N. apply in_app_iff. auto.
    - apply NoDup_cons_iff in D as [_ D]. auto.
  Qed.

  Lemma answers_kept s l s' a : step s l = Some s' -> In a (d_answers _ s) -> In a (d_answers _ s').
  Proof.
    intros H I. destruct l as [i ks|t|n r|n|on|on|kvs|]; cbn in H.
    - destruct (asked _ s i); [discriminate|]. injection H as <-. unfold load_many.
      destruct (if d_disabled _ s || d_all_disabled _ s then _ else _) as [[hit miss] c]. destruct miss; [now right|].
      destruct (max_size <=? _); exact I.
    - destruct (nth_error _ t); [|discriminate]. destruct (d_keys _ _); injection H as <-; cbn; auto. apply in_app_iff. auto.
    - destruct (nth_error _ n) as [b|]; [|discriminate]. destruct (b_status b); try discriminate.
      injection H as <-. apply in_app_iff. auto.
    - destruct (nth_error _ n) as [b|]; [|discriminate]. destruct (b_status b); try discriminate.
      injection H as <-. apply in_app_iff. auto.
    - injection H as <-. exact I.
    - injection H as <-. exact I.
    - injection H as <-. exact I.
    - injection H as <-. exact I.
  Qed.

  Lemma answers_kept_steps ls : forall s s' a, steps s ls = Some s' -> In a (d_answers _ s) -> In a (d_answers _ s').
  Proof.
    induction ls as [|l ls IH]; cbn; intros s s' a H I; [congruence|].
    destruct (step s l) eqn:E; [|discriminate]. eapply IH; [exact H|]. eapply answers_kept; eauto.
  Qed.

  Lemma final ls s l2 s' i o : steps (new sto) ls = Some s -> answer sto s i = Some o -> steps s l2 = Some s' ->
    answer sto s' i = Some o.
  Proof.
    intros H A H2. assert (HI := reachable_inv ls s H). apply (answer_in s i o HI) in A.
    apply answer_in; [eapply inv_steps; eauto|]. eapply answers_kept_steps; eauto.
  Qed.

  (** *** Following one call *)
  Definition Has s (w : waiting) : Prop :=
    In w (d_pending _ s) \/ exists b, In b (d_batches _ s) /\ In w (b_members b).

  Lemma has_kept s l s' w : Inv s -> step s l = Some s' -> Has s w -> Has s' w.
  Proof.
    intros HI H I. destruct l as [i ks|t|n r|n|on|on|kvs|]; cbn in H.
    - destruct (asked _ s i); [discriminate|]. injection H as <-. unfold load_many.
      destruct (if d_disabled _ s || d_all_disabled _ s then _ else _) as [[hit miss] c]. destruct miss as [|k0 m0]; [exact I|].
      destruct (max_size <=? _).
      + right. destruct I as [I|(b & Ib & I)].
        * eexists. split; [cbn; apply in_app_iff; right; left; reflexivity|]. cbn. apply in_app_iff. auto.
        * exists b. split; [cbn; apply in_app_iff; auto|auto].
      + destruct I as [I|I]; [left|right; exact I]. cbn. apply in_app_iff. auto.
    - destruct (nth_error _ t); [|discriminate]. cbn in H. destruct (d_keys _ s) eqn:Ks; injection H as <-.
      + rewrite (keys_empty _ _ (i_pending s HI) Ks) in *. destruct I as [I|I]; [|right; exact I].
        rewrite (keys_empty _ _ (i_pending s HI) Ks) in I. destruct I.
      + right. destruct I as [I|(b' & Ib & I)].
        * eexists. split; [cbn; apply in_app_iff; right; left; reflexivity|]. exact I.
        * exists b'. split; [cbn; apply in_app_iff; auto|auto].
    - destruct (nth_error _ n) as [b|] eqn:Nb; [|discriminate]. destruct (b_status b); try discriminate.
      injection H as <-. destruct I as [I|(b' & Ib & I)]; [left; exact I|right].
      destruct (set_nth_split n b (with_status b (Finished r)) _ Nb) as (l1 & l2 & E1 & E2 & _).
      rewrite E1 in Ib. cbn. rewrite E2. apply in_app_iff in Ib as [Ib|[<-|Ib]].
      + exists b'. rewrite in_app_iff. auto.
      + eexists. split; [apply in_app_iff; right; left; reflexivity|]. exact I.
      + exists b'. rewrite in_app_iff. cbn. auto.
    - destruct (nth_error _ n) as [b|] eqn:Nb; [|discriminate]. destruct (b_status b); try discriminate.
      injection H as <-. destruct I as [I|(b' & Ib & I)]; [left; exact I|right].
      destruct (set_nth_split n b (with_status b Crashed) _ Nb) as (l1 & l2 & E1 & E2 & _).
      rewrite E1 in Ib. cbn. rewrite E2. apply in_app_iff in Ib as [Ib|[<-|Ib]].
      + exists b'. rewrite in_app_iff. auto.
      + eexists. split; [apply in_app_iff; right; left; reflexivity|]. exact I.
      + exists b'. rewrite in_app_iff. cbn. auto.
    - injection H as <-. exact I.
    - injection H as <-. exact I.
    - injection H as <-. exact I.
    - injection H as <-. exact I.
  Qed.

  Lemma has_kept_steps ls : forall s s' w, Inv s -> steps s ls = Some s' -> Has s w -> Has s' w.
  Proof.
    induction ls as [|l ls IH]; cbn; intros s s' w HI H I; [congruence|].
    destruct (step s l) eqn:E; [|discriminate]. eapply IH; [|exact H|]; [eapply inv_step|eapply has_kept]; eauto.
  Qed.

  Lemma in_calls w (ws : list waiting) : In w ws -> In (w_call w) (calls ws).
  Proof. apply in_map. Qed.

  Lemma running_works s b w : In b (d_batches _ s) -> In w (b_members b) -> b_status b = Running ->
    In (w_call w) (in_work _ s).
  Proof.
    intros Ib Iw R. rewrite in_work_eq. apply in_app_iff. right. apply in_flat_map. exists b. split.
    - apply filter_In. split; auto. unfold running. now rewrite R.
    - now apply in_calls.
  Qed.

  (** The call waiting as [w], once answered, was a member of an ended batch. *)
  Lemma has_answered s w o : Inv s -> Has s w -> answer sto s (w_call w) = Some o ->
    exists b, In b (d_batches _ s) /\ In w (b_members b) /\
      match b_status b with
      | Running => False
      | Finished r => (w_call w, o) = send r w
      | Crashed => o = Lost
      end.
  Proof.
    intros HI I A. apply (answer_in s _ o HI) in A.
    assert (Ai : In (w_call w) (map fst (d_answers _ s))).
    { change (w_call w) with (fst (w_call w, o)). now apply in_map. }
    assert (U : forall o', In (w_call w, o') (d_answers _ s) -> o' = o).
    { intros o' J. apply (answer_in s _ _ HI) in A. apply (answer_in s _ _ HI) in J. congruence. }
    destruct I as [I|(b & Ib & Iw)].
    - exfalso. eapply (answered_not_working s); eauto. rewrite in_work_eq. apply in_app_iff. left. now apply in_calls.
    - exists b. split; [exact Ib|]. split; [exact Iw|]. assert (E := i_ended s HI b Ib w Iw). destruct (b_status b) eqn:R.
      + eapply (answered_not_working s); eauto. eapply running_works; eauto.
      + unfold DlModel.send in *. now rewrite (U _ E).
      + symmetry. apply (U _ E).
  Qed.

  (** *** Looking at the cache *)
  Lemma look_spec ks : forall c hit miss h m c',
    look keq sto ks c hit miss = (h, m, c') ->
    (forall k, fst (c_get sto k c') = fst (c_get sto k c)) /\
    (forall k, In k m <-> In k miss \/ (In k ks /\ fst (c_get sto k c) = None)) /\
    (forall k, lookup keq k h = if in_dec keq k ks
                                then match fst (c_get sto k c) with Some v => Some v | None => lookup keq k hit end
                                else lookup keq k hit).
  Proof.
    induction ks as [|k0 ks IH]; intros c hit miss h m c' E; cbn in E.
    - injection E as <- <- <-. split; [auto|]. split; [|auto]. intros k. cbn. tauto.
    - assert (G := fun k => law_get sto laws k k0 c). destruct (c_get sto k0 c) as [[v|] c1] eqn:Eg; cbn in G.
      + apply IH in E as (A & B & D). split; [intros k; now rewrite A|]. split.
        * intros k. rewrite B, G. cbn. split; [tauto|]. intros [H|[[<-|H] N]]; auto.
          rewrite Eg in N. discriminate.
        * intros k. rewrite D, G, lookup_hput. destruct (in_dec keq k ks) as [I|I], (in_dec keq k (k0 :: ks)) as [J|J]; cbn in J.
          -- destruct (fst (c_get sto k c)) eqn:F; auto. destruct (keq k k0) as [->|]; auto. rewrite Eg in F. discriminate.
          -- exfalso. tauto.
          -- destruct J as [->|J]; [|tauto]. rewrite Eg. destruct (keq k k); [reflexivity|congruence].
          -- destruct (keq k k0); [subst; exfalso; tauto|auto].
      + apply IH in E as (A & B & D). split; [intros k; now rewrite A|]. split.
        * intros k. rewrite B, G, in_sadd. cbn. split.
          -- intros [[H| ->]|[H N]]; auto. right. rewrite Eg. auto.
          -- intros [H|[[->|H] N]]; auto.
        * intros k. rewrite D, G. destruct (in_dec keq k ks) as [I|I], (in_dec keq k (k0 :: ks)) as [J|J]; cbn in J; auto.
          -- exfalso. tauto.
          -- destruct J as [->|J]; [|tauto]. now rewrite Eg.
  Qed.

  Lemma lookup_reply (vals : list (K * V)) (w : waiting) k :
    lookup keq k (reply keq vals w) =
    if in_dec keq k (w_missing w)
    then match lookup keq k vals with Some v => Some v | None => lookup keq k (w_cached w) end
    else lookup keq k (w_cached w).
  Proof.
    unfold reply. generalize (w_cached w) as m. induction (w_missing w) as [|k0 l IH]; intros m; [reflexivity|].
    cbn [fold_left]. rewrite IH. assert (Q : lookup keq k (match lookup keq k0 vals with Some v => hput keq k0 v m | None => m end)
      = if keq k k0 then match lookup keq k vals with Some v => Some v | None => lookup keq k m end else lookup keq k m).
    { destruct (lookup keq k0 vals) eqn:E.
      - rewrite lookup_hput. destruct (keq k k0) as [->|]; auto. now rewrite E.
      - destruct (keq k k0) as [->|]; auto. now rewrite E. }
    rewrite Q. destruct (in_dec keq k l) as [I|I], (in_dec keq k (k0 :: l)) as [J|J]; cbn in J.
    - destruct (keq k k0); auto. now destruct (lookup keq k vals).
    - exfalso. tauto.
    - destruct J as [->|J]; [|tauto]. destruct (keq k k); congruence.
    - destruct (keq k k0); [subst; exfalso; tauto|auto].
  Qed.

  (** What a call does. *)
  Lemma load_spec s i ks s' : Inv s -> step s (Ask i ks) = Some s' ->
    ((forall k, In k ks -> cached sto s k <> None) /\
     exists m, In (i, Got (Ok m)) (d_answers _ s') /\
               forall k, lookup keq k m = if in_dec keq k ks then cached sto s k else None) \/
    exists w, Has s' w /\ w_call w = i /\
      (forall k, In k (w_missing w) <-> In k ks /\ cached sto s k = None) /\
      (forall k, lookup keq k (w_cached w) = if in_dec keq k ks then cached sto s k else None) /\
      w_missing w <> [].
  Proof.
    intros HI H. cbn in H. destruct (asked _ s i); [discriminate|]. injection H as <-. unfold load_many.
    destruct (if d_disabled _ s || d_all_disabled _ s then _ else _) as [[hit miss] c] eqn:E.
    assert (M : (forall k, In k miss <-> In k ks /\ cached sto s k = None) /\
                (forall k, lookup keq k hit = if in_dec keq k ks then cached sto s k else None)).
    { unfold cached. destruct (d_disabled _ s || d_all_disabled _ s).
      - injection E as <- <- <-. split.
        + intros k. rewrite in_sadds. cbn. tauto.
        + intros k. cbn. now destruct (in_dec keq k ks).
      - apply look_spec in E as (_ & B & D). split.
        + intros k. rewrite B. cbn. tauto.
        + intros k. rewrite D. cbn. destruct (in_dec keq k ks); auto. now destruct (fst (c_get sto k (d_cache _ s))). }
    destruct M as [M1 M2]. destruct miss as [|k0 m0].
    - left. split.
      + intros k I N. apply (proj2 (M1 k)). auto.
      + exists hit. split; [now left|auto].
    - right. exists {| w_call := i; w_missing := k0 :: m0; w_cached := hit |}.
      split; [|cbn; repeat split; auto; try discriminate; try apply M1; auto].
      destruct (max_size <=? _).
      + right. eexists. split; [cbn; apply in_app_iff; right; left; reflexivity|]. cbn. apply in_app_iff. cbn. auto.
      + left. cbn. apply in_app_iff. cbn. auto.
  Qed.

  Lemma own_values l1 s0 i ks l2 s m :
    steps (new sto) l1 = Some s0 -> steps s0 (Ask i ks :: l2) = Some s -> answer sto s i = Some (Got (Ok m)) ->
    (forall k, ~ In k ks -> lookup keq k m = None) /\
    (forall k v, In k ks -> cached sto s0 k = Some v -> lookup keq k m = Some v) /\
    ((forall k, In k ks -> cached sto s0 k <> None) \/
     exists b vals, in_batch sto s i b /\ b_status b = Finished (Ok vals) /\
       forall k, In k ks -> cached sto s0 k = None -> In k (b_keys b) /\ lookup keq k m = lookup keq k vals).
  Proof.
    intros H1 H2 A. assert (I0 := reachable_inv l1 s0 H1).
    assert (Is : Inv s) by (eapply inv_steps; [exact I0|exact H2]).
    change (match step s0 (Ask i ks) with Some s1 => steps s1 l2 | None => None end = Some s) in H2.
    destruct (step s0 (Ask i ks)) as [s1|] eqn:E; [|discriminate].
    assert (I1 : Inv s1) by (eapply inv_step; [exact I0|exact E]).
    destruct (load_spec s0 i ks s1 I0 E) as [(C & m' & A' & L)|(w & Hw & Wi & Wm & Wc & Wn)].
    - eapply answers_kept_steps in A'; [|exact H2]. apply (answer_in s i _ Is) in A'. rewrite A' in A.
      injection A as <-. split; [|split; [|left; exact C]].
      + intros k N. rewrite L. destruct (in_dec keq k ks); tauto.
      + intros k v I Cv. rewrite L. destruct (in_dec keq k ks); [auto|tauto].
    - eapply has_kept_steps in Hw; [|exact I1|exact H2]. rewrite <- Wi in A.
      destruct (has_answered s w _ Is Hw A) as (b & Ib & Iw & St). destruct (b_status b) as [|r|] eqn:R; try contradiction; [|discriminate].
      unfold DlModel.send in St. injection St as St. destruct r as [vals|e]; [|discriminate]. injection St as ->.
      split; [|split].
      + intros k N. rewrite lookup_reply, Wc. destruct (in_dec keq k (w_missing w)) as [J|J].
        * apply Wm in J. tauto.
        * destruct (in_dec keq k ks); tauto.
      + intros k v I Cv. rewrite lookup_reply, Wc. destruct (in_dec keq k (w_missing w)) as [J|J].
        * apply Wm in J as [_ J]. congruence.
        * destruct (in_dec keq k ks); tauto.
      + right. exists b, vals. split; [split; [exact Ib|rewrite <- Wi; now apply in_calls]|]. split; [exact R|].
        intros k I N. split.
        * assert (G := i_batches s Is). rewrite Forall_forall in G. destruct (G b Ib) as [(_ & G1 & _) _].
          apply G1. exists w. split; [exact Iw|]. now apply Wm.
        * rewrite lookup_reply, Wc. destruct (in_dec keq k (w_missing w)) as [J|J].
          -- destruct (lookup keq k vals); auto. destruct (in_dec keq k ks); auto.
          -- exfalso. apply J. now apply Wm.
  Qed.

  Lemma batch_members_answered ls s i b : steps (new sto) ls = Some s -> in_batch sto s i b ->
    match b_status b with
    | Running => answer sto s i = None
    | Finished (Ok vals) => exists m, answer sto s i = Some (Got (Ok m))
    | Finished (Err e) => answer sto s i = Some (Got (Err e))
    | Crashed => answer sto s i = Some Lost
    end.
  Proof.
    intros H [Ib Im]. assert (HI := reachable_inv ls s H). apply in_map_iff in Im as (w & <- & Iw).
    assert (E := i_ended s HI b Ib w Iw). destruct (b_status b) as [|[vals|e]|] eqn:R.
    - destruct (answer sto s (w_call w)) as [o|] eqn:A; auto. exfalso. apply (answer_in s _ o HI) in A.
      eapply (answered_not_working s (w_call w) HI).
      + change (w_call w) with (fst (w_call w, o)). now apply in_map.
      + eapply running_works; eauto.
    - eexists. apply (answer_in s _ _ HI). exact E.
    - apply (answer_in s _ _ HI). exact E.
    - apply (answer_in s _ _ HI). exact E.
  Qed.

  Lemma failed_call l1 s0 i ks l2 s o :
    steps (new sto) l1 = Some s0 -> steps s0 (Ask i ks :: l2) = Some s -> answer sto s i = Some o ->
    (forall m, o <> Got (Ok m)) ->
    exists b, in_batch sto s i b /\
      ((exists e, b_status b = Finished (Err e) /\ o = Got (Err e)) \/ (b_status b = Crashed /\ o = Lost)).
  Proof.
    intros H1 H2 A N. assert (I0 := reachable_inv l1 s0 H1).
    assert (Is : Inv s) by (eapply inv_steps; [exact I0|exact H2]).
    change (match step s0 (Ask i ks) with Some s1 => steps s1 l2 | None => None end = Some s) in H2.
    destruct (step s0 (Ask i ks)) as [s1|] eqn:E; [|discriminate].
    assert (I1 : Inv s1) by (eapply inv_step; [exact I0|exact E]).
    destruct (load_spec s0 i ks s1 I0 E) as [(C & m' & A' & L)|(w & Hw & Wi & Wm & Wc & Wn)].
    - eapply answers_kept_steps in A'; [|exact H2]. apply (answer_in s i _ Is) in A'. rewrite A' in A.
      injection A as <-. exfalso. now apply (N m').
    - eapply has_kept_steps in Hw; [|exact I1|exact H2]. rewrite <- Wi in A.
      destruct (has_answered s w _ Is Hw A) as (b & Ib & Iw & St).
      exists b. split; [split; [exact Ib|rewrite <- Wi; now apply in_calls]|].
      destruct (b_status b) as [|[vals|e]|]; try contradiction.
      + unfold DlModel.send in St. injection St as ->. exfalso. eapply N. reflexivity.
      + unfold DlModel.send in St. injection St as ->. left. eauto.
      + right. auto.
  Qed.

  (** *** Nobody is forgotten *)
  Lemma none_forgotten ls s i ks : steps (new sto) ls = Some s -> asked sto s i = Some ks ->
    d_timers _ s = [] -> (forall b, In b (d_batches _ s) -> b_status b <> Running) -> answer sto s i <> None.
  Proof.
    intros H A T R N. assert (HI := reachable_inv ls s H).
    assert (P : d_pending _ s = []).
    { destruct (d_keys _ s) eqn:E; [eapply keys_empty; [exact (i_pending s HI)|exact E]|].
      exfalso. apply (i_timer s HI); [congruence|exact T]. }
    assert (W : in_work sto s = []).
    { rewrite in_work_eq, P. cbn. destruct (filter running (d_batches _ s)) as [|b l] eqn:F; [reflexivity|].
      assert (I : In b (filter running (d_batches _ s))) by (rewrite F; now left).
      apply filter_In in I as [I Q]. unfold running in Q. destruct (b_status b) eqn:Rb; try discriminate.
      exfalso. now apply (R b I). }
    unfold asked in A. destruct (find _ _) as [[j ks']|] eqn:F; [|discriminate]. apply find_fst_some in F.
    assert (I : In i (map fst (d_asked _ s))) by (change i with (fst (i, snd (j, ks'))); now apply in_map).
    apply (Permutation_in _ (Permutation_sym (i_once s HI))) in I. rewrite W, app_nil_r in I.
    apply in_map_iff in I as ([i' o] & Ei & I). cbn in Ei. subst i'. apply (answer_in s i o HI) in I. congruence.
  Qed.

  Lemma unanswered_in_work_once ls s i ks : steps (new sto) ls = Some s -> asked sto s i = Some ks ->
    count_occ Nat.eq_dec (in_work _ s) i = match answer sto s i with None => 1 | Some _ => 0 end.
  Proof.
    intros H A. assert (HI := reachable_inv ls s H). assert (D := i_asked s HI).
    unfold asked in A. destruct (find _ _) as [[j ks']|] eqn:F; [|discriminate]. apply find_fst_some in F.
    assert (I : In i (map fst (d_asked _ s))) by (change i with (fst (i, snd (j, ks'))); now apply in_map).
    assert (Cn : count_occ Nat.eq_dec (map fst (d_answers _ s) ++ in_work _ s) i = 1).
    { rewrite (proj1 (Permutation_count_occ Nat.eq_dec _ _) (i_once s HI)).
      now apply (NoDup_count_occ' Nat.eq_dec). }
    rewrite count_occ_app in Cn. destruct (answer sto s i) as [o|] eqn:An.
    - apply (answer_in s i o HI) in An. assert (In i (map fst (d_answers _ s))).
      { change i with (fst (i, o)). now apply in_map. }
      apply (count_occ_In Nat.eq_dec) in H0. lia.
    - assert (~ In i (map fst (d_answers _ s))).
      { unfold answer in An. destruct (find (fun a => fst a =? i) (d_answers _ s)) as [[]|] eqn:Fa; [discriminate|].
        now apply find_fst_none. }
      apply (count_occ_not_In Nat.eq_dec) in H0. lia.
  Qed.

  Lemma one_key_batches ls : forall s s', Inv s -> steps s ls = Some s' ->
    (forall i ks, In (Ask i ks) ls -> length ks <= 1) ->
    Forall (fun b : batch => length (b_keys b) <= Nat.max 1 max_size) (d_batches _ s) ->
    Forall (fun b : batch => length (b_keys b) <= Nat.max 1 max_size) (d_batches _ s').
  Proof.
    induction ls as [|l ls IH]; cbn [DlModel.steps]; intros s s' HI H L F; [congruence|].
    destruct (step s l) as [s1|] eqn:E; [|discriminate].
    apply (IH s1 s'); auto; [eapply inv_step; eauto|intros; eapply L; right; eauto|].
    assert (Ln : forall s0 : state, Inv s0 -> length (d_keys _ s0) <= Nat.max 1 max_size).
    { intros s0 I0. destruct (i_size s0 I0) as [E0|E0]; [rewrite E0; apply Nat.le_0_l|lia]. }
    destruct l as [i ks|t|n r|n|on|on|kvs|]; cbn in E.
    - destruct (asked _ s i); [discriminate|]. injection E as <-. unfold load_many.
      destruct (if d_disabled _ s || d_all_disabled _ s then _ else _) as [[hit miss] c] eqn:Em.
      destruct miss as [|k0 m0]; [exact F|]. destruct (max_size <=? _); [|exact F].
      cbn [d_batches start_batch]. apply Forall_app. split; [exact F|]. constructor; [|constructor]. cbn [b_keys].
      specialize (L i ks (or_introl eq_refl)).
      assert (M1 : k0 :: m0 = [k0]).
      { destruct ks as [|k [|]]; cbn in L; try lia.
        - destruct (_ || _); cbn in Em; congruence.
        - destruct (d_disabled _ s || d_all_disabled _ s); cbn in Em.
          + unfold sadd in Em. cbn in Em. congruence.
          + destruct (c_get sto k (d_cache _ s)) as [[v|] c1]; cbn in Em; [congruence|].
            unfold sadd in Em. cbn in Em. congruence. }
      injection M1 as ->. unfold sadds. cbn [fold_left].
      assert (S0 := sadd_length keq (d_keys _ s) k0). destruct (i_size s HI) as [Z|Z]; [rewrite Z in *; cbn [length] in *; lia|lia].
    - destruct (nth_error _ t); [|discriminate]. cbn in E. destruct (d_keys _ s) eqn:Ks; injection E as <-; [exact F|].
      cbn. apply Forall_app. split; [exact F|]. constructor; [|constructor]. specialize (Ln s HI). rewrite Ks in Ln. exact Ln.
    - destruct (nth_error _ n) as [b|] eqn:Nb; [|discriminate]. destruct (b_status b); try discriminate.
      injection E as <-. destruct (set_nth_split n b (with_status b (Finished r)) _ Nb) as (x & y & E1 & E2 & _).
      cbn. rewrite E2. rewrite E1 in F. apply Forall_app in F as [F1 F2]. inversion F2; subst.
      apply Forall_app. split; auto.
    - destruct (nth_error _ n) as [b|] eqn:Nb; [|discriminate]. destruct (b_status b); try discriminate.
      injection E as <-. destruct (set_nth_split n b (with_status b Crashed) _ Nb) as (x & y & E1 & E2 & _).
      cbn. rewrite E2. rewrite E1 in F. apply Forall_app in F as [F1 F2]. inversion F2; subst.
      apply Forall_app. split; auto.
    - injection E as <-. exact F.
    - injection E as <-. exact F.
    - injection E as <-. exact F.
    - injection E as <-. exact F.
  Qed.

  (** *** Where cached values come from *)
  Definition Origin (ls : list (label (K := K) (V := V) (Er := Er))) (k : K) (v : V) : Prop :=
    (exists kvs, In (Feed kvs) ls /\ In (k, v) kvs) \/ (exists n vals, In (Done n (Ok vals)) ls /\ In (k, v) vals).

  Lemma store_all_origin vals : forall c k v, fst (c_get sto k (store_all sto vals c)) = Some v ->
    In (k, v) vals \/ fst (c_get sto k c) = Some v.
  Proof.
    unfold store_all. induction vals as [|[k' v'] vals IH]; cbn; intros c k v H; [auto|].
    apply IH in H as [H|H]; [auto|]. destruct (keq k k') as [->|N].
    - apply (law_put sto laws) in H. subst. auto.
    - right. eapply (law_other sto laws); eauto.
  Qed.

  Lemma cache_origin ls : forall s, steps (new sto) ls = Some s ->
    forall k v, fst (c_get sto k (d_cache _ s)) = Some v -> Origin ls k v.
  Proof.
    induction ls as [|l ls IH] using rev_ind; intros s H k v G.
    - injection H as <-. cbn in G. rewrite (law_new sto laws) in G. discriminate.
    - rewrite steps_app in H. destruct (steps (new sto) ls) as [s0|] eqn:E; [|discriminate]. cbn [DlModel.steps] in H.
      destruct (step s0 l) as [s1|] eqn:E1; [|discriminate]. injection H as ->. specialize (IH s0 eq_refl).
      assert (Keep : fst (c_get sto k (d_cache _ s0)) = Some v -> Origin (ls ++ [l]) k v).
      { intros J. apply IH in J as [(kvs & I & J)|(n & vals & I & J)]; [left; exists kvs|right; exists n, vals];
          rewrite in_app_iff; auto. }
      destruct l as [i ks|t|n r|n|on|on|kvs|]; cbn in E1.
      + destruct (asked _ s0 i); [discriminate|]. injection E1 as <-. apply Keep. revert G. unfold load_many.
        destruct (if d_disabled _ s0 || d_all_disabled _ s0 then _ else _) as [[hit miss] c] eqn:Em.
        assert (Cc : forall k, fst (c_get sto k c) = fst (c_get sto k (d_cache _ s0))).
        { destruct (d_disabled _ s0 || d_all_disabled _ s0); [injection Em as _ _ <-; auto|].
          now apply look_spec in Em as (Em & _). }
        destruct miss; [cbn; now rewrite Cc|]. destruct (max_size <=? _); cbn; now rewrite Cc.
      + destruct (nth_error _ t); [|discriminate]. cbn in E1. destruct (d_keys _ s0); injection E1 as <-; auto.
      + destruct (nth_error _ n) as [b|]; [|discriminate]. destruct (b_status b); try discriminate.
        injection E1 as <-. cbn in G. destruct r as [vals|e]; auto. destruct (_ || _); auto.
        apply store_all_origin in G as [G|G]; auto. right. exists n, vals. rewrite in_app_iff. cbn. auto.
      + destruct (nth_error _ n) as [b|]; [|discriminate]. destruct (b_status b); try discriminate.
        injection E1 as <-. auto.
      + injection E1 as <-. auto.
      + injection E1 as <-. auto.
      + injection E1 as <-. cbn in G. apply store_all_origin in G as [G|G]; auto.
        left. exists kvs. rewrite in_app_iff. cbn. auto.
      + injection E1 as <-. cbn in G. rewrite (law_clear sto laws) in G. discriminate.
  Qed.

  (** *** The keys of a batch were asked for by its members *)
  Definition Wanted s (w : waiting) : Prop :=
    exists ks, In (w_call w, ks) (d_asked _ s) /\ incl (w_missing w) ks.

  Lemma wanted_step s l s' : Inv s -> step s l = Some s' -> (forall w, Has s w -> Wanted s w) ->
    forall w, Has s' w -> Wanted s' w.
  Proof.
    intros HI H F w J. destruct l as [i ks|t|n r|n|on|on|kvs|]; cbn in H.
    - destruct (asked _ s i); [discriminate|]. injection H as <-.
      assert (L : forall x, Wanted s x -> Wanted (load_many keq sto max_size i ks s) x).
      { intros x (ks' & I & K'). exists ks'. split; [|exact K']. unfold load_many.
        destruct (if d_disabled _ s || d_all_disabled _ s then _ else _) as [[hit miss] c].
        destruct miss; [now right|]. destruct (max_size <=? _); now right. }
      assert (N : Has s w \/ (w_call w = i /\ incl (w_missing w) ks /\ In (i, ks) (d_asked _ (load_many keq sto max_size i ks s)))).
      { revert J. unfold load_many.
        destruct (if d_disabled _ s || d_all_disabled _ s then _ else _) as [[hit miss] c] eqn:E.
        assert (M : incl miss ks).
        { destruct (d_disabled _ s || d_all_disabled _ s).
          - injection E as _ <- _. intros k I. apply in_sadds in I as [[]|I]. exact I.
          - apply look_spec in E as (_ & B & _). intros k I. apply B in I as [[]|[I _]]. exact I. }
        destruct miss as [|k0 m0]; [auto|].
        destruct (max_size <=? _); intros [I|(b & Ib & I)]; cbn in *.
        - destruct I.
        - apply in_app_iff in Ib as [Ib|[<-|[]]]; [left; right; eauto|]. cbn in I.
          apply in_app_iff in I as [I|[<-|[]]]; [left; left; auto|]. right. cbn. auto.
        - apply in_app_iff in I as [I|[<-|[]]]; [left; left; auto|]. right. cbn. auto.
        - left; right; eauto. }
      destruct N as [N|(N1 & N2 & N3)]; [auto|]. exists ks. rewrite N1. auto.
    - destruct (nth_error _ t) as [dis|]; [|discriminate]. cbn in H. destruct (d_keys _ s) eqn:Ks; injection H as <-.
      + apply F. destruct J as [[]|J]. right. exact J.
      + apply F. destruct J as [[]|(b & Ib & I)]. cbn in Ib. apply in_app_iff in Ib as [Ib|[<-|[]]]; [right; eauto|left; exact I].
    - destruct (nth_error _ n) as [b|] eqn:Nb; [|discriminate]. destruct (b_status b); try discriminate.
      injection H as <-. destruct (set_nth_split n b (with_status b (Finished r)) _ Nb) as (x & y & E1 & E2 & _).
      apply F. destruct J as [J|(b' & Ib & I)]; [left; exact J|right]. cbn in Ib. rewrite E2 in Ib. rewrite E1.
      apply in_app_iff in Ib as [Ib|[<-|Ib]]; [exists b'|exists b|exists b']; rewrite in_app_iff; cbn; auto.
    - destruct (nth_error _ n) as [b|] eqn:Nb; [|discriminate]. destruct (b_status b); try discriminate.
      injection H as <-. destruct (set_nth_split n b (with_status b Crashed) _ Nb) as (x & y & E1 & E2 & _).
      apply F. destruct J as [J|(b' & Ib & I)]; [left; exact J|right]. cbn in Ib. rewrite E2 in Ib. rewrite E1.
      apply in_app_iff in Ib as [Ib|[<-|Ib]]; [exists b'|exists b|exists b']; rewrite in_app_iff; cbn; auto.
    - injection H as <-. apply F. exact J.
    - injection H as <-. apply F. exact J.
    - injection H as <-. apply F. exact J.
    - injection H as <-. apply F. exact J.
  Qed.

  Lemma wanted_steps ls : forall s s', Inv s -> (forall w, Has s w -> Wanted s w) -> steps s ls = Some s' ->
    forall w, Has s' w -> Wanted s' w.
  Proof.
    induction ls as [|l ls IH]; cbn; intros s s' HI F H w J; [injection H as <-; auto|].
    destruct (step s l) as [s1|] eqn:E; [|discriminate].
    eapply (IH s1 s'); eauto; [eapply inv_step; eauto|]. eapply wanted_step; eauto.
  Qed.

  Lemma batch_keys ls s b : steps (new sto) ls = Some s -> In b (d_batches _ s) ->
    NoDup (b_keys b) /\ b_keys b <> [] /\
    (forall k, In k (b_keys b) -> exists i ks, in_batch sto s i b /\ asked sto s i = Some ks /\ In k ks) /\
    (forall i, in_batch sto s i b -> exists ks k, asked sto s i = Some ks /\ In k ks /\ In k (b_keys b)).
  Proof.
    intros H Ib. assert (HI := reachable_inv ls s H).
    assert (W : forall w, Has s w -> Wanted s w).
    { eapply wanted_steps; [exact inv_new| |exact H]. intros w [[]|(b' & [] & _)]. }
    assert (G := i_batches s HI). rewrite Forall_forall in G. destruct (G b Ib) as [(G1 & G2 & G3) G4].
    rewrite Forall_forall in G3.
    assert (A : forall w, In w (b_members b) -> exists ks, asked sto s (w_call w) = Some ks /\ incl (w_missing w) ks).
    { intros w Iw. destruct (W w) as (ks & Ik & Inc); [right; eauto|]. exists ks. split; [|exact Inc].
      unfold asked. now rewrite (find_fst_in _ _ ks (i_asked s HI) Ik). }
    split; [exact G1|]. split; [|split].
    - intros E. destruct (b_members b) as [|w ws]; [congruence|]. specialize (G3 w (or_introl eq_refl)).
      destruct (w_missing w) as [|k m] eqn:Em; [congruence|]. rewrite E in G2. apply (proj2 (G2 k)).
      exists w. rewrite Em. cbn. auto.
    - intros k Ik. apply G2 in Ik as (w & Iw & Im). destruct (A w Iw) as (ks & E & Inc).
      exists (w_call w), ks. split; [split; [exact Ib|now apply in_map]|]. auto.
    - intros i [_ Ii]. apply in_map_iff in Ii as (w & <- & Iw). destruct (A w Iw) as (ks & E & Inc).
      specialize (G3 w Iw). destruct (w_missing w) as [|k m] eqn:Em; [congruence|].
      exists ks, k. split; [exact E|]. split; [apply Inc; now left|]. apply G2. exists w. rewrite Em. cbn. auto.
  Qed.

  Lemma waiting_has_a_timer ls s : steps (new sto) ls = Some s ->
    (d_pending _ s <> [] -> d_timers _ s <> []) /\ (d_pending _ s <> [] -> length (d_keys _ s) < max_size) /\
    NoDup (d_keys _ s).
  Proof.
    intros H. assert (HI := reachable_inv ls s H).
    assert (N : d_pending _ s <> [] -> d_keys _ s <> []).
    { intros P E. apply P. eapply keys_empty; [exact (i_pending s HI)|exact E]. }
    split; [|split].
    - intros P. apply (i_timer s HI). auto.
    - intros P. destruct (i_size s HI) as [E|E]; auto. exfalso. now apply (N P).
    - apply (i_pending s HI).
  Qed.

  Lemma single_key_batches ls s : steps (new sto) ls = Some s ->
    (forall i ks, In (Ask i ks) ls -> length ks <= 1) ->
    forall b, In b (d_batches _ s) -> length (b_keys b) <= Nat.max 1 max_size.
  Proof.
    intros H L. assert (F := one_key_batches ls (new sto) s inv_new H L (Forall_nil _)).
    now apply Forall_forall.
  Qed.
End Facts.
