(** Proofs about answers. *)
From Coq Require Import String Ascii ZArith NArith Bool Lia Arith Permutation DecimalString List.
From Verif Require Import Base BaseFacts StringFacts JsonModel AnswerModel AnswerSpec.
Import ListNotations.
Open Scope list_scope.
Open Scope string_scope.

(** * The policy collected during a request *)
Definition ages (p : policy) : list Z :=
  (match p_max_age p with Some a => [as_i32 a] | None => [] end ++
   match p_cachability p with Some NoCache => [(-1)%Z] | _ => [] end)%list.

Definition omin (o : option Z) (z : Z) : option Z :=
  match o with Some m => Some (if (z <? m)%Z then z else m) | None => Some z end.

Lemma set_min_age z c : c_age (set_min_max_age z c) = omin (c_age c) z /\ c_public (set_min_max_age z c) = c_public c.
Proof.
  unfold set_min_max_age, omin. destruct c as [[m|] pub]; cbn; [|auto]. destruct (z <? m)%Z; auto.
Qed.

Lemma visibility_age o c : c_age (set_cache_visibility o c) = c_age c.
Proof. destruct o as [[]|]; reflexivity. Qed.

Lemma set_policy_age p c : c_age (set_policy p c) = fold_left omin (ages p) (c_age c).
Proof.
  unfold set_policy, ages. rewrite fold_left_app.
  destruct (p_max_age p) as [a|]; destruct (p_cachability p) as [[]|]; cbn [fold_left];
    repeat (rewrite ?(proj1 (set_min_age _ _)), ?visibility_age); reflexivity.
Qed.

Lemma set_policy_public p c :
  c_public (set_policy p c) = match p_cachability p with Some Private => Some false | _ => c_public c end.
Proof.
  unfold set_policy.
  destruct (p_max_age p) as [a|]; destruct (p_cachability p) as [[]|]; cbn [set_cache_visibility c_public];
    repeat rewrite ?(proj2 (set_min_age _ _)); reflexivity.
Qed.

(** The least value, characterised. *)
Definition least (l : list Z) (o : option Z) : Prop :=
  match o with
  | None => l = []
  | Some m => In m l /\ forall z, In z l -> (m <= z)%Z
  end.

Lemma least_snoc l o z : least l o -> least (l ++ [z])%list (omin o z).
Proof.
  destruct o as [m|]; cbn.
  - intros [I H]. destruct (Z.ltb_spec z m); split.
    + apply in_app_iff. right. now left.
    + intros y J. apply in_app_iff in J as [J|[<-|[]]]; [apply H in J; lia|lia].
    + apply in_app_iff. auto.
    + intros y J. apply in_app_iff in J as [J|[<-|[]]]; [auto|lia].
  - intros ->. split; [now left|]. intros y [<-|[]]. lia.
Qed.

Lemma least_fold r : forall l o, least l o -> least (l ++ r)%list (fold_left omin r o).
Proof.
  induction r as [|z r IH]; intros l o H; cbn [fold_left]; [now rewrite app_nil_r|].
  change (z :: r) with ([z] ++ r)%list. rewrite app_assoc. apply IH. now apply least_snoc.
Qed.

Lemma least_fun l l' o o' : least l o -> least l' o' -> (forall z, In z l <-> In z l') -> o = o'.
Proof.
  intros H H' E. destruct o as [m|], o' as [m'|]; cbn in *.
  - destruct H as [I H], H' as [I' H']. f_equal. apply E in I. apply E in I'. apply H in I'. apply H' in I. lia.
  - subst. destruct H as [I _]. apply E in I. destruct I.
  - subst. destruct H' as [I _]. apply E in I. destruct I.
  - reflexivity.
Qed.

Definition fetched_policies (l : list upstream) : list policy :=
  flat_map (fun a => if (a_success a && negb (a_reused a))%bool
                     then match a_policy a with Some p => [p] | None => [] end else []) l.

Lemma fetched_iff l p : In p (fetched_policies l) <-> fetched l p.
Proof.
  unfold fetched_policies, fetched. rewrite in_flat_map. split.
  - intros (a & I & H). destruct (a_success a) eqn:S1, (a_reused a) eqn:R; cbn in H; try destruct H.
    destruct (a_policy a) as [q|] eqn:P; [|destruct H]. destruct H as [<-|[]]. exists a. auto.
  - intros (a & I & S1 & R & P). exists a. split; [exact I|]. rewrite S1, R, P. now left.
Qed.

Lemma note_answers_age l : least (flat_map ages (fetched_policies l)) (c_age (note_answers true l)).
Proof.
  unfold note_answers.
  assert (G : forall l done c, least (flat_map ages done) (c_age c) ->
            least (flat_map ages (done ++ fetched_policies l)%list) (c_age (fold_left (note_answer true) l c))).
  { clear l. induction l as [|a l IH]; intros done c H; cbn [fold_left fetched_policies flat_map].
    - now rewrite app_nil_r.
    - fold (fetched_policies l). unfold note_answer at 2. destruct (a_reused a), (a_success a); cbn [andb negb app];
        try (apply IH; exact H).
      destruct (a_policy a) as [p|]; cbn [app]; [|apply IH; exact H].
      change (p :: fetched_policies l) with ([p] ++ fetched_policies l)%list. rewrite app_assoc. apply IH.
      rewrite flat_map_app. cbn [flat_map]. rewrite app_nil_r, set_policy_age. now apply least_fold. }
  apply (G l []). reflexivity.
Qed.

Lemma note_answers_public l :
  (c_public (note_answers true l) = Some false <-> exists p, fetched l p /\ p_cachability p = Some Private) /\
  (c_public (note_answers true l) = Some false \/ c_public (note_answers true l) = None).
Proof.
  unfold note_answers.
  assert (G : forall l c, (c_public c = Some false \/ c_public c = None) ->
     (c_public (fold_left (note_answer true) l c) = Some false <->
        c_public c = Some false \/ exists p, In p (fetched_policies l) /\ p_cachability p = Some Private) /\
     (c_public (fold_left (note_answer true) l c) = Some false \/ c_public (fold_left (note_answer true) l c) = None)).
  { clear l. induction l as [|a l IH]; intros c B; cbn [fold_left fetched_policies flat_map].
    - split; [|exact B]. split; [auto|]. intros [H|(p & [] & _)]. exact H.
    - fold (fetched_policies l). unfold note_answer at 2 4 6. destruct (a_reused a), (a_success a); cbn [andb negb app];
        try (apply IH; exact B).
      destruct (a_policy a) as [p|]; cbn [app]; [|apply IH; exact B].
      assert (B' : c_public (set_policy p c) = Some false \/ c_public (set_policy p c) = None).
      { rewrite set_policy_public. destruct (p_cachability p) as [[]|]; auto. }
      destruct (IH _ B') as [H1 H2]. split; [|exact H2]. rewrite H1, set_policy_public. split.
      + intros [H|(q & I & P)].
        * destruct (p_cachability p) as [[]|] eqn:P; auto; right; exists p; split; auto; now left.
        * right. exists q. split; [now right|exact P].
      + intros [H|(q & [<-|I] & P)].
        * left. destruct (p_cachability p) as [[]|]; auto.
        * left. now rewrite P.
        * right. exists q. auto. }
  destruct (G l cache_ctx_new) as [H1 H2]; [now right|]. split; [|exact H2]. rewrite H1. split.
  - intros [H|(p & I & P)]; [discriminate|]. exists p. split; [now apply fetched_iff|exact P].
  - intros (p & I & P). right. exists p. split; [now apply fetched_iff|exact P].
Qed.

(** The order in which answers arrive does not matter. *)
Lemma note_answers_order l l' : Permutation l l' -> note_answers true l = note_answers true l'.
Proof.
  intros P.
  assert (F : forall p, In p (fetched_policies l) <-> In p (fetched_policies l')).
  { intros p. rewrite !fetched_iff. unfold fetched. split; intros (a & I & H); exists a; split; auto.
    - eapply Permutation_in; eauto.
    - eapply Permutation_in; [apply Permutation_sym|]; eauto. }
  assert (A : c_age (note_answers true l) = c_age (note_answers true l')).
  { eapply least_fun; [apply note_answers_age|apply note_answers_age|].
    intros z. rewrite !in_flat_map. split; intros (p & I & J); exists p; split; auto; now apply F. }
  assert (B : c_public (note_answers true l) = c_public (note_answers true l')).
  { destruct (note_answers_public l) as [H1 H2], (note_answers_public l') as [H1' H2'].
    assert (E : (exists p, fetched l p /\ p_cachability p = Some Private) <-> (exists p, fetched l' p /\ p_cachability p = Some Private)).
    { split; intros (p & I & J); exists p; split; auto; apply fetched_iff; apply F; now apply fetched_iff. }
    destruct H2 as [H2|H2], H2' as [H2'|H2']; try congruence.
    - assert (X : c_public (note_answers true l') = Some false) by (apply H1'; apply E; now apply H1). congruence.
    - assert (X : c_public (note_answers true l) = Some false) by (apply H1; apply E; now apply H1'). congruence. }
  destruct (note_answers true l), (note_answers true l'). cbn in *. congruence.
Qed.

(** * Reading the header *)
Fixpoint nocomma (s : string) : bool :=
  match s with EmptyString => true | String c t => negb (Ascii.eqb c ",") && nocomma t end.

Lemma nocomma_app a b : nocomma (a ++ b) = nocomma a && nocomma b.
Proof. induction a as [|c a IH]; cbn; [reflexivity|]. now rewrite IH, andb_assoc. Qed.

Lemma nocomma_uint u : nocomma (NilEmpty.string_of_uint u) = true.
Proof. induction u; cbn; auto. Qed.

Lemma nocomma_Z z : nocomma (Z_to_string z) = true.
Proof.
  unfold Z_to_string, NilZero.string_of_int, NilZero.string_of_uint.
  destruct (Z.to_int z) as [[]|[]]; cbn -[NilEmpty.string_of_uint]; try reflexivity; cbn; apply nocomma_uint.
Qed.

Lemma private_tail_inj x : forall y, nocomma x = true -> nocomma y = true ->
  x ++ ", private" = y ++ ", private" -> x = y.
Proof.
  induction x as [|c x IH]; intros [|d y] Nx Ny E.
  - reflexivity.
  - injection E as <- _. discriminate Ny.
  - injection E as -> _. discriminate Nx.
  - injection E as -> E. cbn in Nx, Ny. apply andb_true_iff in Nx as [_ Nx]. apply andb_true_iff in Ny as [_ Ny].
    f_equal. now apply IH.
Qed.

Lemma says_same a b s t : (s = "" \/ s = ", private") -> (t = "" \/ t = ", private") ->
  Z_to_string a ++ s = Z_to_string b ++ t -> a = b /\ s = t.
Proof.
  intros Hs Ht E. pose proof (nocomma_Z a) as Na. pose proof (nocomma_Z b) as Nb.
  pose proof (f_equal nocomma E) as C. rewrite !nocomma_app, Na, Nb in C.
  destruct Hs as [-> | ->], Ht as [-> | ->]; try discriminate.
  - rewrite !str_app_nil_r in E. split; [now apply Z_to_string_inj|reflexivity].
  - split; [|reflexivity]. apply Z_to_string_inj.
    now apply private_tail_inj.
Qed.

Lemma cc_value_cases c :
  cc_value c =
  if (0 <? cc_age c)%Z then Some ("max-age=" ++ Z_to_string (cc_age c) ++ (if cc_public c then "" else ", private"))
  else if (cc_age c =? -1)%Z then Some ("no-cache" ++ (if cc_public c then "" else ", private"))
  else if cc_public c then None else Some "private".
Proof.
  unfold cc_value. destruct (0 <? cc_age c)%Z.
  - destruct (cc_public c).
    + now rewrite str_app_nil_r.
    + cbn. now rewrite str_app_assoc.
  - destruct (cc_age c =? -1)%Z; destruct (cc_public c); reflexivity.
Qed.

Lemma says_max_age_inv c h n : cc_value c = Some h -> says_max_age h n -> cc_age c = n /\ (0 < n)%Z.
Proof.
  rewrite cc_value_cases. unfold says_max_age. intros H S1.
  assert (S2 : exists t, (t = "" \/ t = ", private") /\ h = "max-age=" ++ Z_to_string n ++ t).
  { destruct S1 as [->| ->]; [exists ""|exists ", private"]; split; auto. now rewrite str_app_nil_r. }
  destruct S2 as (t & T & ->). destruct (Z.ltb_spec 0 (cc_age c)) as [L|L].
  - injection H as H.
    destruct (says_same (cc_age c) n (if cc_public c then "" else ", private") t) as [E _]; auto.
    + destruct (cc_public c); auto.
    + split; [exact E|lia].
  - destruct (cc_age c =? -1)%Z; [destruct (cc_public c); discriminate|].
    destruct (cc_public c); discriminate.
Qed.

Lemma says_private_inv c : cc_public c = false -> exists h, cc_value c = Some h /\ says_private h.
Proof.
  intros P. rewrite cc_value_cases, P. destruct (0 <? cc_age c)%Z.
  - eexists. split; [reflexivity|]. right. exists ("max-age=" ++ Z_to_string (cc_age c)). now rewrite str_app_assoc.
  - destruct (cc_age c =? -1)%Z; eexists; (split; [reflexivity|]); [right; exists "no-cache"; reflexivity|now left].
Qed.

(** * Batches *)
Lemma merge_same c : cc_merge c c = c.
Proof.
  unfold cc_merge. destruct c as [a p]. cbn. rewrite andb_diag. f_equal.
  destruct (Z.eqb_spec a (-1)); [congruence|]. destruct (Z.eqb_spec a 0); [reflexivity|]. apply Z.min_id.
Qed.
Lemma merge_default c : cc_merge cc_default c = c.
Proof.
  unfold cc_merge. destruct c as [a p]. cbn. f_equal.
  destruct (Z.eqb_spec a (-1)); [congruence|]. destruct (Z.eqb_spec a 0); congruence.
Qed.
Lemma batch_cc c b : nonempty_batch b -> batch_cache_control (Some c) b = c.
Proof.
  destruct b as [r|l]; cbn; [reflexivity|]. destruct l as [|r l]; [congruence|]. intros _. cbn [fold_left].
  rewrite merge_default. induction l as [|r' l IH]; cbn; [reflexivity|]. now rewrite merge_same.
Qed.

Lemma answer_cache l b : batch_is_ok b = true -> nonempty_batch b ->
  o_cache (graphql_answer true (note_answers true l) b) =
  cc_value {| cc_age := match c_age (note_answers true l) with Some a => a | None => 0%Z end;
              cc_public := match c_public (note_answers true l) with Some x => x | None => true end |}.
Proof. intros O N. unfold graphql_answer. cbn [o_cache own_cache_control]. rewrite O. now rewrite batch_cc. Qed.

(** Batches whose members bring their own policies. *)
Definition merged_cc (l : list cache_control) (c : cache_control) : Prop :=
  (cc_public c = true <-> forall x, In x l -> cc_public x = true) /\
  (cc_age c = -1 <-> exists x, In x l /\ cc_age x = -1)%Z /\
  ((forall x, In x l -> cc_age x <> -1) ->
   (cc_age c = 0 /\ forall x, In x l -> cc_age x = 0) \/
   (cc_age c <> 0 /\ (exists x, In x l /\ cc_age x = cc_age c) /\ forall x, In x l -> cc_age x <> 0 -> cc_age c <= cc_age x))%Z.
Lemma merge_snoc l c x : merged_cc l c -> merged_cc (l ++ [x])%list (cc_merge c x).
Proof.
  intros (P & M & A). unfold merged_cc, cc_merge. cbn [cc_public cc_age].
  assert (Q : forall (R : cache_control -> Prop), (forall y, In y (l ++ [x])%list -> R y) <-> (forall y, In y l -> R y) /\ R x).
  { intros R. split.
    - intros H. split; [intros y J; apply H, in_app_iff; now left|apply H, in_app_iff; right; now left].
    - intros [H1 H2] y J. apply in_app_iff in J as [J|[<-|[]]]; auto. }
  assert (E : forall (R : cache_control -> Prop), (exists y, In y (l ++ [x])%list /\ R y) <-> (exists y, In y l /\ R y) \/ R x).
  { intros R. split.
    - intros (y & J & H). apply in_app_iff in J as [J|[<-|[]]]; eauto.
    - intros [(y & J & H)|H]; [exists y|exists x]; (split; [apply in_app_iff|exact H]); [now left|right; now left]. }
  split; [|split].
  - rewrite andb_true_iff, P, (Q (fun y => cc_public y = true)). reflexivity.
  - rewrite (E (fun y => cc_age y = (-1)%Z)), <- M.
    destruct (Z.eqb_spec (cc_age c) (-1)); [tauto|]. destruct (Z.eqb_spec (cc_age x) (-1)); [tauto|].
    destruct (Z.eqb_spec (cc_age x) 0); [tauto|]. destruct (Z.eqb_spec (cc_age c) 0); [tauto|]. lia.
  - rewrite (Q (fun y => cc_age y <> (-1)%Z)), (Q (fun y => cc_age y = 0%Z)). intros [N1 N2]. specialize (A N1).
    assert (Nc : cc_age c <> (-1)%Z) by (intros X; apply M in X as (y & J & X); now apply (N1 y)).
    destruct (Z.eqb_spec (cc_age c) (-1)); [congruence|]. destruct (Z.eqb_spec (cc_age x) (-1)); [congruence|].
    destruct (Z.eqb_spec (cc_age x) 0) as [Zx|Zx].
    + destruct A as [[A1 A2]|(A1 & (y & J & A2) & A3)]; [left; auto|right]. split; [exact A1|].
      split; [exists y; split; [apply in_app_iff; now left|exact A2]|].
      intros z K Kz. apply in_app_iff in K as [K|[<-|[]]]; [auto|congruence].
    + destruct (Z.eqb_spec (cc_age c) 0) as [Zc|Zc].
      * right. split; [exact Zx|]. split; [exists x; split; [apply in_app_iff; right; now left|reflexivity]|].
        intros z K Kz. apply in_app_iff in K as [K|[<-|[]]]; [|lia]. destruct A as [[_ A2]|(A1 & _)]; [|congruence]. exfalso. auto.
      * destruct A as [[A1 _]|(A1 & (y & J & A2) & A3)]; [congruence|]. right. split; [lia|]. split.
        -- destruct (Z.min_spec (cc_age c) (cc_age x)) as [[_ ->]|[_ ->]]; [exists y|exists x]; (split; [apply in_app_iff|auto]); [now left|right; now left].
        -- intros z K Kz. apply in_app_iff in K as [K|[<-|[]]]; [specialize (A3 z K Kz); lia|lia].
Qed.
Lemma merged_fold rs : merged_cc (map r_cc rs) (fold_left (fun acc r => cc_merge acc (r_cc r)) rs cc_default).
Proof.
  assert (G : forall rs l c, merged_cc l c -> merged_cc (l ++ map r_cc rs)%list (fold_left (fun acc r => cc_merge acc (r_cc r)) rs c)).
  { clear. induction rs as [|r rs IH]; intros l c H; cbn [map fold_left]; [now rewrite app_nil_r|].
    specialize (IH (l ++ [r_cc r])%list (cc_merge c (r_cc r)) (merge_snoc _ _ _ H)). now rewrite <- app_assoc in IH. }
  apply (G rs [] cc_default). split; [|split].
  - cbn. split; [intros _ x []|reflexivity].
  - cbn. split; [discriminate|]. intros (x & [] & _).
  - intros _. left. cbn. split; [reflexivity|]. intros x [].
Qed.

Lemma batch_policies c rs h : o_cache (graphql_answer false c (Batch rs)) = Some h ->
  (forall n, says_max_age h n -> (0 < n)%Z /\ forall r, In r rs -> cc_age (r_cc r) <> (-1)%Z /\ (cc_age (r_cc r) <> 0 -> n <= cc_age (r_cc r))%Z).
Proof.
  unfold graphql_answer. cbn [o_cache own_cache_control batch_cache_control].
  destruct (batch_is_ok (Batch rs)); [|discriminate]. intros H n S1.
  destruct (says_max_age_inv _ _ _ H S1) as [E P]. split; [exact P|].
  destruct (merged_fold rs) as (_ & M & A).
  set (k := fold_left _ _ _) in *. assert (N : forall x, In x (map r_cc rs) -> cc_age x <> (-1)%Z).
  { intros x J X. assert (Y : cc_age k = (-1)%Z) by (apply M; eauto). lia. }
  intros r J. assert (J' : In (r_cc r) (map r_cc rs)) by now apply in_map. split; [now apply N|]. intros Z.
  destruct (A N) as [[A1 _]|(_ & _ & A3)]; [lia|]. specialize (A3 _ J' Z). lia.
Qed.
Lemma batch_marks c rs r : batch_is_ok (Batch rs) = true -> In r rs ->
  (cc_age (r_cc r) = (-1)%Z -> exists h, o_cache (graphql_answer false c (Batch rs)) = Some h /\ says_no_cache h) /\
  (cc_public (r_cc r) = false -> exists h, o_cache (graphql_answer false c (Batch rs)) = Some h /\ says_private h).
Proof.
  intros O J. unfold graphql_answer. cbn [o_cache own_cache_control batch_cache_control]. rewrite O.
  destruct (merged_fold rs) as (P & M & _). set (k := fold_left _ _ _) in *. split.
  - intros N. assert (E : cc_age k = (-1)%Z) by (apply M; exists (r_cc r); split; [now apply in_map|exact N]).
    rewrite cc_value_cases, E. cbn. eexists. split; [reflexivity|]. destruct (cc_public k); [now left|now right].
  - intros N. apply says_private_inv. destruct (cc_public k) eqn:E; [|reflexivity].
    rewrite (proj1 P eq_refl (r_cc r)) in N; [discriminate|now apply in_map].
Qed.

(** * C25 *)
Lemma as_i32_le a : (0 <= a)%Z -> (as_i32 a <= a)%Z.
Proof. intros H. unfold as_i32. pose proof (Z.mod_le (a + 2 ^ 31) (2 ^ 32)). lia. Qed.

Lemma max_age_bounded l b h n :
  o_cache (graphql_answer true (note_answers true l) b) = Some h -> says_max_age h n ->
  (0 < n)%Z /\ forall p, fetched l p -> (forall a, p_max_age p = Some a -> (0 <= a)%Z -> (n <= a)%Z) /\ p_cachability p <> Some NoCache.
Proof.
  intros H S1.
  assert (O : batch_is_ok b = true) by (unfold graphql_answer in H; cbn in H; destruct (batch_is_ok b); congruence).
  assert (N : nonempty_batch b).
  { destruct b as [r|[|r l']]; [exact I| |discriminate]. unfold graphql_answer in H. cbn in H. discriminate. }
  rewrite (answer_cache l b O N) in H.
  destruct (says_max_age_inv _ _ _ H S1) as [E P]. cbn [cc_age] in E. split; [exact P|].
  pose proof (note_answers_age l) as L. intros p F. apply fetched_iff in F.
  destruct (c_age (note_answers true l)) as [m|] eqn:M; [|lia]. subst m. cbn in L. destruct L as [_ L]. split.
  - intros a A Pa. assert (X : (n <= as_i32 a)%Z).
    { apply L. apply in_flat_map. exists p. split; [exact F|]. unfold ages. rewrite A. now left. }
    pose proof (as_i32_le a Pa). lia.
  - intros C. assert (X : (n <= -1)%Z); [|lia].
    apply L. apply in_flat_map. exists p. split; [exact F|]. unfold ages. rewrite C. apply in_app_iff. right. now left.
Qed.

Lemma marked_private l b p :
  batch_is_ok b = true -> nonempty_batch b -> fetched l p -> p_cachability p = Some Private ->
  exists h, o_cache (graphql_answer true (note_answers true l) b) = Some h /\ says_private h.
Proof.
  intros O N F P. rewrite (answer_cache l b O N). apply says_private_inv. cbn [cc_public].
  destruct (note_answers_public l) as [H _]. rewrite (proj2 H); [reflexivity|]. exists p. auto.
Qed.

Lemma marked_no_cache l b p :
  batch_is_ok b = true -> nonempty_batch b -> fetched l p -> p_cachability p = Some NoCache ->
  (forall q a, fetched l q -> p_max_age q = Some a -> (0 <= a < 2 ^ 31)%Z) ->
  exists h, o_cache (graphql_answer true (note_answers true l) b) = Some h /\ says_no_cache h.
Proof.
  intros O N F P R. rewrite (answer_cache l b O N), cc_value_cases. cbn [cc_age cc_public].
  pose proof (note_answers_age l) as L.
  assert (X : In (-1)%Z (flat_map ages (fetched_policies l))).
  { apply in_flat_map. exists p. split; [now apply fetched_iff|]. unfold ages. rewrite P. apply in_app_iff. right. now left. }
  destruct (c_age (note_answers true l)) as [m|]; cbn in L; [|rewrite L in X; destruct X].
  destruct L as [I L]. apply L in X.
  assert (m = -1)%Z.
  { apply in_flat_map in I as (q & J & K). unfold ages in K. apply in_app_iff in K as [K|K].
    - destruct (p_max_age q) as [a|] eqn:A; [|destruct K]. destruct K as [<-|[]].
      apply fetched_iff in J. specialize (R q a J A). unfold as_i32 in *.
      rewrite Z.mod_small in * by lia. lia.
    - destruct (p_cachability q) as [[]|]; cbn in K; intuition. }
  subst m. cbn. eexists. split; [reflexivity|]. destruct (c_public (note_answers true l)) as [[]|]; [left|right|left]; reflexivity.
Qed.

(** * Races *)
Lemma in_set_nth {A} (l : list A) : forall i x y, In y (set_nth i x l) -> y = x \/ In y l.
Proof.
  induction l as [|a l IH]; intros [|i] x y H; cbn in *; try tauto.
  - destruct H as [<-|H]; auto.
  - destruct H as [<-|H]; auto. apply IH in H as [H|H]; auto.
Qed.

Definition race_values (s : race) (vals : list Z) : Prop :=
  (forall z, s_age s = Some z -> In z vals) /\
  forall t, In t (s_threads s) -> (forall z, In z (t_todo t) -> In z vals) /\ (forall z, t_pending t = Some z -> In z vals).

Lemma race_step_values s i vals : race_values s vals -> race_values (race_step s i) vals.
Proof.
  intros [H1 H2]. unfold race_step. destruct (nth_error (s_threads s) i) as [t|] eqn:E; [|split; auto].
  apply nth_error_In in E. destruct (H2 t E) as [T1 T2].
  unfold thread_step. destruct (t_pending t) as [z|] eqn:P.
  - split; cbn.
    + intros y [= <-]. auto.
    + intros t' I. apply in_set_nth in I as [->|I]; [|auto]. cbn. split; [exact T1|discriminate].
  - destruct (t_todo t) as [|z rest] eqn:D; split; cbn; auto.
    + intros t' I. apply in_set_nth in I as [->|I]; [|auto]. auto.
    + intros t' I. apply in_set_nth in I as [->|I]; [|auto]. cbn. split.
      * intros y J. apply T1. now right.
      * intros y J. apply T1. left. destruct (s_age s) as [m|]; [|congruence]. destruct (z <? m)%Z; congruence.
Qed.

Lemma race_run_values sched : forall s vals, race_values s vals -> race_values (race_run s sched) vals.
Proof. induction sched as [|i sched IH]; intros s vals H; cbn; [exact H|]. apply IH. now apply race_step_values. Qed.

Lemma race_one_of todos sched z :
  s_age (race_run (race_start todos) sched) = Some z -> In z (concat todos).
Proof.
  intros H. assert (V : race_values (race_run (race_start todos) sched) (concat todos)).
  { apply race_run_values. split; cbn; [discriminate|]. intros t I. apply in_map_iff in I as (l & <- & J). cbn.
    split; [|discriminate]. intros y K. apply in_concat. eauto. }
  now apply V.
Qed.

(** Updates that are not interrupted: the value is the smallest of those taken so far. *)
Lemma nth_set_nth {A} (l : list A) : forall i x, i < length l -> nth_error (set_nth i x l) i = Some x.
Proof. induction l as [|a l IH]; intros [|i] x H; cbn in *; try lia; [reflexivity|]. apply IH. lia. Qed.
Lemma nth_set_other {A} (l : list A) : forall i j x, i <> j -> nth_error (set_nth i x l) j = nth_error l j.
Proof. induction l as [|a l IH]; intros [|i] [|j] x H; cbn; try reflexivity; [congruence|]. apply IH. congruence. Qed.
Lemma map_set_nth {A B} (f : A -> B) (l : list A) : forall i x, map f (set_nth i x l) = set_nth i (f x) (map f l).
Proof. induction l as [|a l IH]; intros [|i] x; cbn; try reflexivity. now rewrite IH. Qed.
Lemma set_same_nth {A} (l : list A) : forall i x, nth_error l i = Some x -> set_nth i x l = l.
Proof. induction l as [|a l IH]; intros [|i] x H; cbn in *; try discriminate; [congruence|]. now rewrite IH. Qed.
Lemma taken_perm (ls : list (list Z)) : forall i z rest, nth_error ls i = Some (z :: rest) ->
  Permutation (concat ls) (z :: concat (set_nth i rest ls)).
Proof.
  induction ls as [|l ls IH]; intros [|i] z rest H; cbn in *; try discriminate.
  - injection H as ->. reflexivity.
  - rewrite (IH i z rest H). symmetry. apply Permutation_middle.
Qed.

Definition rest_of (s : race) : list (list Z) := map t_todo (s_threads s).
Definition lowest (o : option Z) (taken : list Z) : Prop :=
  match o with None => taken = [] | Some z => smallest z taken end.
(** [who]: the thread about to write, if any. *)
Definition steady (all : list Z) (s : race) (who : option (nat * Z)) : Prop :=
  exists taken, Permutation all (taken ++ concat (rest_of s))%list /\
    lowest (match who with Some (_, z) => Some z | None => s_age s end) taken /\
    forall j t, nth_error (s_threads s) j = Some t ->
      match who with
      | Some (i, z) => if Nat.eqb i j then t_pending t = Some z else t_pending t = None
      | None => t_pending t = None
      end.

Lemma steady_step all s who i : steady all s who ->
  match who with Some (j, _) => i = j /\ nth_error (s_threads s) i <> None | None => True end ->
  exists who', steady all (race_step s i) who' /\
    match who' with Some (j, _) => nth_error (s_threads (race_step s i)) j <> None | None => True end.
Proof.
  intros (taken & P & L & T) W. unfold race_step. destruct (nth_error (s_threads s) i) as [t|] eqn:E.
  2:{ destruct who as [[j z]|]; [destruct W; congruence|]. exists None. split; [|exact I]. exists taken. auto. }
  assert (Li : i < length (s_threads s)) by (apply nth_error_Some; congruence).
  pose proof (T i t E) as Ti. destruct who as [[j z]|].
  - destruct W as [-> _]. rewrite Nat.eqb_refl in Ti. unfold thread_step. rewrite Ti. exists None. split; [|exact I].
    exists taken. cbn [s_age s_threads]. split; [|split; [exact L|]].
    + unfold rest_of in *. cbn [s_threads]. rewrite map_set_nth. cbn [t_todo].
      rewrite set_same_nth; [exact P|]. now rewrite nth_error_map, E.
    + intros k t' K. destruct (Nat.eq_dec j k) as [<-|N].
      * rewrite nth_set_nth in K by assumption. injection K as <-. reflexivity.
      * rewrite nth_set_other in K by assumption. specialize (T k t' K). destruct (Nat.eqb_spec j k); [congruence|exact T].
  - unfold thread_step. rewrite Ti. destruct (t_todo t) as [|z rest] eqn:D.
    + exists None. split; [|exact I]. cbn [s_age s_threads]. exists taken.
      unfold rest_of. cbn [s_age s_threads]. rewrite set_same_nth by assumption. auto.
    + assert (P' : forall low, Permutation all
          ((z :: taken) ++ concat (rest_of {| s_age := s_age s; s_threads := set_nth i {| t_todo := rest; t_pending := low |} (s_threads s) |}))%list).
      { intros low. unfold rest_of. cbn [s_threads]. rewrite map_set_nth. cbn [t_todo].
        assert (M : nth_error (map t_todo (s_threads s)) i = Some (z :: rest)) by (rewrite nth_error_map, E; cbn; now rewrite D).
        etransitivity; [exact P|]. unfold rest_of. rewrite (taken_perm _ _ _ _ M). cbn. symmetry. apply Permutation_middle. }
      assert (T' : forall low k t', nth_error (set_nth i {| t_todo := rest; t_pending := low |} (s_threads s)) k = Some t' ->
                 if Nat.eqb i k then t_pending t' = low else t_pending t' = None).
      { intros low k t' K. destruct (Nat.eqb_spec i k) as [<-|N].
        - rewrite nth_set_nth in K by assumption. injection K as <-. reflexivity.
        - rewrite nth_set_other in K by assumption. exact (T k t' K). }
      assert (Hi : forall low, nth_error (set_nth i {| t_todo := rest; t_pending := low |} (s_threads s)) i <> None)
        by (intros low; rewrite nth_set_nth by assumption; discriminate).
      destruct (s_age s) as [m|] eqn:A; [destruct (Z.ltb_spec z m) as [Lt|Ge]|]; cbn in L.
      * exists (Some (i, z)). split; [|apply Hi]. exists (z :: taken). split; [apply P'|]. split; [|apply T'].
        cbn. split; [now left|]. destruct L as [_ L]. intros y [<-|J]; [lia|]. specialize (L y J). lia.
      * exists None. split; [|exact I]. exists (z :: taken). split; [apply P'|]. split.
        -- cbn. destruct L as [L1 L]. split; [now right|]. intros y [<-|J]; [lia|auto].
        -- cbn. intros k t' K. specialize (T' None k t' K). destruct (Nat.eqb i k); exact T'.
      * exists (Some (i, z)). split; [|apply Hi]. exists (z :: taken). split; [apply P'|]. split; [|apply T'].
        cbn. subst taken. split; [now left|]. intros y [<-|[]]. lia.
Qed.

Lemma steady_run all sched : forall s who, steady all s who ->
  match who with Some (j, _) => nth_error (s_threads s) j <> None | None => True end ->
  uninterrupted s sched -> exists who', steady all (race_run s sched) who' /\
    match who' with Some (j, _) => nth_error (s_threads (race_run s sched)) j <> None | None => True end.
Proof.
  induction sched as [|i sched IH]; intros s who St W U; cbn; [eauto|].
  destruct (steady_step all s who i St) as (who' & St' & W').
  { destruct who as [[j z]|]; [|exact I]. destruct (nth_error (s_threads s) j) as [t|] eqn:E; [|congruence].
    assert (X : i = j).
    { apply (U [] i sched j t eq_refl E). destruct St as (taken & _ & _ & T). specialize (T j t E). rewrite Nat.eqb_refl in T. congruence. }
    subst i. split; [reflexivity|congruence]. }
  apply (IH _ who' St' W'). intros before j after k t E. apply (U (i :: before) j after k t). cbn. now rewrite E.
Qed.

Lemma race_smallest todos sched :
  uninterrupted (race_start todos) sched -> race_done (race_run (race_start todos) sched) -> concat todos <> [] ->
  exists z, s_age (race_run (race_start todos) sched) = Some z /\ smallest z (concat todos).
Proof.
  intros U D N. destruct (steady_run (concat todos) sched (race_start todos) None) as (who & (taken & P & L & T) & W); [|exact I|exact U|].
  - exists []. split; [|split; [reflexivity|]].
    + unfold rest_of, race_start. cbn. rewrite map_map. cbn. now rewrite map_id.
    + intros j t E. apply nth_error_In in E. cbn in E. apply in_map_iff in E as (l & <- & _). reflexivity.
  - set (s := race_run (race_start todos) sched) in *.
    assert (R : concat (rest_of s) = []).
    { unfold rest_of. assert (X : Forall (fun t => t_todo t = []) (s_threads s)) by (apply Forall_forall; intros t J; now apply D).
      clear -X. induction X as [|t l E X IH]; cbn; [reflexivity|]. now rewrite E, IH. }
    rewrite R, app_nil_r in P.
    destruct who as [[j z]|].
    + destruct (nth_error (s_threads s) j) as [t|] eqn:F.
      * specialize (T j t F). rewrite Nat.eqb_refl in T. apply nth_error_In in F. apply D in F as [_ F]. congruence.
      * congruence.
    + destruct (s_age s) as [z|]; cbn in L.
      * exists z. split; [reflexivity|]. destruct L as [L1 L2]. split.
        -- eapply Permutation_in; [symmetry; exact P|exact L1].
        -- intros y J. apply L2. eapply Permutation_in; [exact P|exact J].
      * subst taken. apply Permutation_sym, Permutation_nil in P. congruence.
Qed.

(** * C42 *)
Section Bodies.
  Variable atom : string -> value -> Prop.
  Variable key : string -> string -> Prop.
  Notation text := (text atom key).
  Notation items := (items atom key).

  Lemma commas_items rs vs : Forall2 (fun r v => text (r_body r) v) rs vs -> items (commas true rs) vs.
  Proof.
    intros F. induction F as [|r v rs vs T F IH]; cbn [commas]; [constructor|].
    cbn [String.append]. destruct F as [|r' v' rs vs T' F].
    - cbn [commas]. rewrite str_app_nil_r. now constructor.
    - cbn [commas] in *. change ("," ++ r_body r' ++ commas false rs) with ("," ++ ("" ++ r_body r' ++ commas false rs)).
      apply items_more; [exact T| |discriminate]. exact IH.
  Qed.

  Lemma batch_body_text rs vs :
    Forall2 (fun r v => text (r_body r) v) rs vs -> text (default_body (Batch rs)) (VList vs).
  Proof. intros F. cbn [default_body]. apply text_list. now apply commas_items. Qed.
End Bodies.

Lemma flatten_spec data : unwrapped data (flatten_response data).
Proof.
  destruct data as [| | | | |l|m]; try (right; split; [reflexivity|discriminate]).
  destruct m as [|[k v] [|p m]]; try (right; split; [reflexivity|discriminate]).
  left. exists k. reflexivity.
Qed.

Lemma batch_is_ok_iff l : batch_is_ok (Batch l) = true <-> forall r, In r l -> r_ok r = true.
Proof. cbn. apply forallb_forall. Qed.
