(** Proofs about the merging of similar types: comparing and grouping. *)
From Coq Require Import String Ascii ZArith Bool Arith List Lia.
From Verif Require Import Base Ordered OrderedFacts JsonModel TypeModel ConfigModel MergeModel RenameModel GraphModel AmbModel DocModel TmModel TmSpec BaseFacts.
Import ListNotations.
Open Scope string_scope.
Open Scope list_scope.

(** ** A comparison ends *)
Lemma nodup_bound {A} (l m : list A) : NoDup l -> incl l m -> length l <= length m.
Proof. apply NoDup_incl_length. Qed.
Lemma find_key c n t : find_type c n = Some t -> In n (map fst (c_types c)).
Proof. intros H. apply (oget_in scmp scmp_order) in H. apply in_map_iff. exists (n, t). auto. Qed.
Lemma pair_in_no a b s : pair_in a b s = false -> ~ In (a, b) s.
Proof.
  intros H I. enough (pair_in a b s = true) by congruence. apply existsb_exists. exists (a, b). split; [exact I|]. cbn. now rewrite !String.eqb_refl.
Qed.

Section Ends.
  Variable c : config.
  Variable t : threshold.
  Let keys := map fst (c_types c).
  Definition sound_pairs (st : sstate) : Prop := NoDup (ss_visited st) /\ incl (ss_visited st) (list_prod keys keys).
  Lemma pairs_bound st : sound_pairs st -> length (ss_visited st) <= length (c_types c) * length (c_types c).
  Proof. intros [N I]. apply nodup_bound in I; [|exact N]. rewrite prod_length in I. unfold keys in I. now rewrite !map_length in I. Qed.
  Lemma compare_end (rec : string -> gtype -> string -> gtype -> sstate -> option (verdict * sstate)) k :
    (forall n1 t1 n2 t2 st, sound_pairs st -> k <= length (ss_visited st) ->
       exists v st', rec n1 t1 n2 t2 st = Some (v, st') /\ sound_pairs st' /\ length (ss_visited st) <= length (ss_visited st')) ->
    forall l fs same st, sound_pairs st -> k <= S (length (ss_visited st)) ->
      exists r st', compare_fields c rec l fs same st = Some (r, st') /\ sound_pairs st' /\ length (ss_visited st) <= length (ss_visited st').
  Proof.
    intros R. induction l as [|[n x] l IH]; intros fs same st V K; cbn [compare_fields]; [eauto|].
    destruct (oget scmp n fs) as [y|]; [|now apply IH].
    destruct (is_scalar c _ && is_scalar c _).
    { destruct (_ || _); [|eauto]. destruct (Bool.eqb _ _); [now apply IH|eauto]. }
    destruct (String.eqb _ _). { destruct (Bool.eqb _ _); [now apply IH|eauto]. }
    destruct (find_type c (type_name (f_type x))) as [t1|] eqn:F1; [|now apply IH]. destruct (find_type c (type_name (f_type y))) as [t2|] eqn:F2; [|now apply IH].
    destruct (pair_in _ _ _) eqn:P; [eauto|]. apply pair_in_no in P. destruct V as [N I].
    set (st1 := {| ss_visited := (type_name (f_type x), type_name (f_type y)) :: ss_visited st; ss_cache := ss_cache st |}).
    assert (V1 : sound_pairs st1).
    { split; [constructor; assumption|]. intros p [<-|Ip]; [|now apply I]. apply in_prod; eapply find_key; eauto. }
    destruct (R (type_name (f_type x)) t1 (type_name (f_type y)) t2 st1 V1) as (v & st2 & E & V2 & L2); [cbn; lia|]. rewrite E. cbn [ss_visited length st1] in L2.
    destruct v as [b|]; [|exists (inl Cannot), st2; repeat split; try apply V2; lia].
    destruct (IH fs (if b then S same else same) st2 V2) as (r & st3 & E3 & V3 & L3); [lia|]. exists r, st3. repeat split; try apply V3; try exact E3; lia.
  Qed.
  Lemma inner_end : forall fuel n1 t1 n2 t2 st, sound_pairs st -> S (length (c_types c) * length (c_types c)) < fuel + length (ss_visited st) ->
    exists v st', similarity_inner c t fuel n1 t1 n2 t2 st = Some (v, st') /\ sound_pairs st' /\ length (ss_visited st) <= length (ss_visited st').
  Proof.
    induction fuel as [|fuel IH]; intros n1 t1 n2 t2 st V L; [pose proof (pairs_bound st V); lia|]. cbn [similarity_inner].
    destruct (pair_get n1 n2 (ss_cache st)); [eauto|].
    destruct (compare_end (similarity_inner c t fuel) (S (S (length (c_types c) * length (c_types c))) - fuel)) with (l := t_fields t1) (fs := t_fields t2) (same := 0) (st := st) as (r & st' & E & V' & L').
    - intros m1 u1 m2 u2 st0 V0 K0. apply IH; [exact V0|]. lia.
    - exact V.
    - lia.
    - rewrite E. destruct r as [v|same]; [eauto|]. eexists _, _. split; [reflexivity|]. split; [exact V'|exact L'].
  Qed.
  Lemma similarity_ends n1 t1 n2 t2 cache : exists v cache', similarity c t n1 t1 n2 t2 cache = Some (v, cache').
  Proof.
    unfold similarity. destruct (inner_end (sim_fuel c) n1 t1 n2 t2 {| ss_visited := []; ss_cache := cache |}) as (v & st & E & _).
    - split; [constructor|intros x []].
    - unfold sim_fuel. cbn. lia.
    - rewrite E. eauto.
  Qed.
End Ends.

(** ** The groups *)
Lemma NoDup_app_intro {A} (a b : list A) : NoDup a -> NoDup b -> (forall x, In x a -> ~ In x b) -> NoDup (a ++ b).
Proof.
  intros Na Nb D. induction Na as [|x a X Na IH]; [exact Nb|]. cbn. constructor.
  - intros I. apply in_app_iff in I. destruct I as [I|I]; [contradiction|]. now apply (D x (or_introl eq_refl)).
  - apply IH. intros y Y. apply D. now right.
Qed.
Section Groups.
  Variable c : config.
  Variable t : threshold.
  Variable m : mergeable_types.
  Variable types : list string.
  Variable ok : list (string * string * bool) -> Prop.   (* an invariant of the results kept *)
  Variable alike : string -> string -> Prop.
  Hypothesis ok_step : forall n1 t1 n2 t2 cache v cache', ok cache -> find_type c n1 = Some t1 -> find_type c n2 = Some t2 ->
    similarity c (get_threshold m t n1 n2) n1 t1 n2 t2 cache = Some (v, cache') -> ok cache' /\ (v = Similar true -> alike n1 n2).

  Lemma similar_to_ends n1 type_1 : forall l set st, exists r, similar_to c t m n1 type_1 l set st = Some r.
  Proof.
    induction l as [|n2 l IH]; intros set st; cbn [similar_to]; [eauto|]. destruct (_ || _); [apply IH|]. destruct (find_type c n2) as [type_2|]; [|apply IH].
    destruct (similarity_ends c (get_threshold m t n1 n2) n1 type_1 n2 type_2 (ms_cache st)) as (v & cache' & ->). destruct v as [[|]|]; apply IH.
  Qed.
  Lemma group_ends : forall l i st, exists gs, group c t m types l i st = Some gs.
  Proof.
    induction l as [|n1 l IH]; intros i st; cbn [group]; [eauto|]. destruct (find_type c n1) as [type_1|]; [|apply IH]. destruct (smem n1 _); [apply IH|].
    destruct (similar_to_ends n1 type_1 (skipn (S i) types) [n1] st) as ([set st'] & ->). destruct (IH (S i) st') as (gs & ->). eauto.
  Qed.

  Definition group_of (n1 : string) (set : list string) : Prop :=
    NoDup set /\ In n1 set /\ (forall n, In n set -> find_type c n <> None) /\ forall n, In n set -> n = n1 \/ alike n1 n.
  Lemma similar_to_ok n1 type_1 : find_type c n1 = Some type_1 -> forall l set st set' st', ok (ms_cache st) -> group_of n1 set ->
    (forall n, In n set -> n = n1 \/ In n (ms_visited st)) -> (2 <= length set -> In n1 (ms_visited st)) ->
    similar_to c t m n1 type_1 l set st = Some (set', st') ->
    ok (ms_cache st') /\ group_of n1 set' /\ incl (ms_visited st) (ms_visited st') /\ (forall n, In n set' -> In n set \/ ~ In n (ms_visited st)) /\
    (2 <= length set' -> forall n, In n set' -> In n (ms_visited st')).
  Proof.
    intros T1. induction l as [|n2 l IH]; intros set st set' st' Ok G V V1 H; cbn [similar_to] in H.
    { injection H as <- <-. repeat split; try apply G; auto; try (intros x X; exact X). intros L n I. destruct (V n I) as [->|X]; auto. }
    destruct (smem n2 (ms_visited st) || _) eqn:Sk; [now apply (IH set st)|]. apply orb_false_iff in Sk. destruct Sk as [Nv _]. apply smem_false in Nv.
    destruct (find_type c n2) as [type_2|] eqn:T2; [|now apply (IH set st)].
    destruct (similarity c _ n1 type_1 n2 type_2 (ms_cache st)) as [[v cache']|] eqn:Sim; [|discriminate].
    destruct (ok_step _ _ _ _ _ _ _ Ok T1 T2 Sim) as [Ok' Al].
    assert (Plain : forall st1, ms_cache st1 = cache' -> ms_visited st1 = n1 :: ms_visited st -> similar_to c t m n1 type_1 l set st1 = Some (set', st') ->
       ok (ms_cache st') /\ group_of n1 set' /\ incl (ms_visited st) (ms_visited st') /\ (forall n, In n set' -> In n set \/ ~ In n (ms_visited st)) /\
       (2 <= length set' -> forall n, In n set' -> In n (ms_visited st'))).
    { intros st1 C1 W1 H1. destruct (IH set st1 set' st') as (A & B & D & E & F); auto; [now rewrite C1|intros n I; destruct (V n I); auto; right; rewrite W1; now right|intros _; rewrite W1; now left|].
      split; [exact A|]. split; [exact B|]. split; [intros x X; apply D; rewrite W1; now right|]. split; [|exact F].
      intros n I. destruct (E n I) as [X|X]; auto. right. intros Y. apply X. rewrite W1. now right. }
    destruct v as [[|]|]; [|now apply (Plain {| ms_visited := n1 :: ms_visited st; ms_cache := cache' |})|now apply (Plain {| ms_visited := n1 :: ms_visited st; ms_cache := cache' |})].
    destruct G as (Nd & I1 & Ex & Al1).
    set (st1 := {| ms_visited := n2 :: n1 :: ms_visited st; ms_cache := cache' |}) in *.
    destruct (smem n2 set) eqn:M2.
    - destruct (IH set st1 set' st') as (A & B & D & E & F); auto.
      + split; [exact Nd|]. auto.
      + intros n I. destruct (V n I); auto. right. right. now right.
      + intros _. right. now left.
      + split; [exact A|]. split; [exact B|]. split; [intros x X; apply D; right; now right|]. split; [|exact F].
        intros n I. destruct (E n I) as [X|X]; auto. right. intros Y. apply X. right. now right.
    - apply smem_false in M2. destruct (IH (set ++ [n2]) st1 set' st') as (A & B & D & E & F); auto.
      + split; [|split; [apply in_app_iff; now left|split]].
        * apply NoDup_app_intro; [exact Nd|constructor; [intros []|constructor]|]. intros x X [<-|[]]. contradiction.
        * intros n I. apply in_app_iff in I. destruct I as [I|[<-|[]]]; [now apply Ex|congruence].
        * intros n I. apply in_app_iff in I. destruct I as [I|[<-|[]]]; [now apply Al1|]. right. now apply Al.
      + intros n I. apply in_app_iff in I. destruct I as [I|[<-|[]]]; [|right; now left]. destruct (V n I); auto. right. right. now right.
      + intros _. right. now left.
      + split; [exact A|]. split; [exact B|]. split; [intros x X; apply D; right; now right|]. split; [|exact F].
        intros n I. destruct (E n I) as [X|X].
        * apply in_app_iff in X. destruct X as [X|[<-|[]]]; auto.
        * right. intros Y. apply X. right. now right.
  Qed.
  Lemma group_ok : forall l i st gs, ok (ms_cache st) -> group c t m types l i st = Some gs ->
    NoDup (concat gs) /\ (forall n, In n (concat gs) -> ~ In n (ms_visited st)) /\
    forall g, In g gs -> 2 <= length g /\ exists n1, group_of n1 g.
  Proof.
    induction l as [|n1 l IH]; intros i st gs Ok H; cbn [group] in H.
    { injection H as <-. split; [constructor|]. split; [intros n []|intros g []]. }
    destruct (find_type c n1) as [type_1|] eqn:T1; [|now apply (IH (S i) st)]. destruct (smem n1 (ms_visited st)) eqn:V1; [now apply (IH i st)|]. apply smem_false in V1.
    destruct (similar_to c t m n1 type_1 (skipn (S i) types) [n1] st) as [[set st']|] eqn:Si; [|discriminate].
    destruct (group c t m types l (S i) st') as [gs'|] eqn:G; [|discriminate]. injection H as <-.
    destruct (similar_to_ok n1 type_1 T1 (skipn (S i) types) [n1] st set st' Ok) as (A & B & D & E & F).
    - split; [constructor; [intros []|constructor]|]. split; [now left|]. split; [intros n [<-|[]]; congruence|]. intros n [<-|[]]; now left.
    - intros n [<-|[]]. now left.
    - cbn. lia.
    - exact Si.
    - destruct (IH (S i) st' gs' A G) as (N & W & Gs). destruct (Nat.ltb 1 (length set)) eqn:L.
      + apply Nat.ltb_lt in L. split; [|split].
        * cbn [concat]. apply NoDup_app_intro; [apply B|exact N|]. intros x X Y. apply (W x Y). apply F; [lia|exact X].
        * intros n I. cbn [concat] in I. apply in_app_iff in I. destruct I as [I|I].
          -- destruct (E n I) as [[<-|[]]|X]; [exact V1|exact X].
          -- intros Y. apply (W n I). now apply D.
        * intros g [<-|I]; [split; [lia|exists n1; exact B]|now apply Gs].
      + split; [exact N|]. split; [|exact Gs]. intros n I Y. apply (W n I). now apply D.
  Qed.
End Groups.

(** ** Leaf types that are similar to the full *)
Definition fields_agree (c : config) (a b : gtype) : Prop :=
  length (t_fields a) = length (t_fields b) /\
  forall f x, oget scmp f (t_fields a) = Some x -> exists y, oget scmp f (t_fields b) = Some y /\
    is_list (f_type x) = is_list (f_type y) /\
    (type_name (f_type x) = type_name (f_type y) \/
     (is_scalar c (type_name (f_type x)) = true /\ is_scalar c (type_name (f_type y)) = true /\
      (type_name (f_type x) = "JSON" \/ type_name (f_type y) = "JSON"))).
Definition leaf_type (c : config) (a : gtype) : Prop :=
  forall f x, oget scmp f (t_fields a) = Some x -> find_type c (type_name (f_type x)) = None.
Definition agree (c : config) (n1 n2 : string) : Prop :=
  forall t1 t2, find_type c n1 = Some t1 -> find_type c n2 = Some t2 -> leaf_type c t1 \/ leaf_type c t2 -> fields_agree c t1 t2.

Section Leaves.
  Variable c : config.
  Hypothesis sorted : forall n t, find_type c n = Some t -> osorted scmp (t_fields t).

  Definition matching (x y : field) : Prop :=
    is_list (f_type x) = is_list (f_type y) /\
    (type_name (f_type x) = type_name (f_type y) \/
     (is_scalar c (type_name (f_type x)) = true /\ is_scalar c (type_name (f_type y)) = true /\
      (type_name (f_type x) = "JSON" \/ type_name (f_type y) = "JSON"))).
  (** the fields counted *)
  Lemma compare_counts rec : forall l fs same st r st', compare_fields c rec l fs same st = Some (r, st') ->
    (forall f x y, In (f, x) l -> oget scmp f fs = Some y -> find_type c (type_name (f_type x)) = None \/ find_type c (type_name (f_type y)) = None) ->
    st' = st /\ forall n, r = inr n -> exists counted, n = same + length counted /\ length counted <= length l /\ incl counted (map fst l) /\
       (NoDup (map fst l) -> NoDup counted) /\ forall f, In f counted -> exists x y, In (f, x) l /\ oget scmp f fs = Some y /\ matching x y.
  Proof.
    induction l as [|[f x] l IH]; intros fs same st r st' H Lf; cbn [compare_fields] in H.
    { injection H as <- <-. split; [reflexivity|]. intros n E. injection E as <-. exists []. cbn. split; [lia|]. split; [lia|]. split; [intros z []|]. split; [constructor|intros f []]. }
    assert (Lf' : forall f0 x0 y, In (f0, x0) l -> oget scmp f0 fs = Some y -> find_type c (type_name (f_type x0)) = None \/ find_type c (type_name (f_type y)) = None) by (intros; eapply Lf; [right|]; eauto).
    assert (Skip : compare_fields c rec l fs same st = Some (r, st') -> st' = st /\ forall n, r = inr n -> exists counted, n = same + length counted /\ length counted <= length ((f, x) :: l) /\ incl counted (map fst ((f, x) :: l)) /\
       (NoDup (map fst ((f, x) :: l)) -> NoDup counted) /\ forall g, In g counted -> exists x0 y, In (g, x0) ((f, x) :: l) /\ oget scmp g fs = Some y /\ matching x0 y).
    { intros H'. destruct (IH _ _ _ _ _ H' Lf') as (A & B). split; [exact A|]. intros n E. destruct (B n E) as (k & K1 & K2 & K3 & K4 & K5). exists k.
      split; [exact K1|]. split; [cbn; lia|]. split; [intros g G; right; now apply K3|]. split; [intros N; inversion N; auto|].
      intros g G. destruct (K5 g G) as (x0 & y & I & O & M). exists x0, y. split; [now right|]. auto. }
    destruct (oget scmp f fs) as [y|] eqn:O; [|now apply Skip].
    assert (Count : matching x y -> compare_fields c rec l fs (S same) st = Some (r, st') -> st' = st /\ forall n, r = inr n -> exists counted, n = same + length counted /\ length counted <= length ((f, x) :: l) /\ incl counted (map fst ((f, x) :: l)) /\
       (NoDup (map fst ((f, x) :: l)) -> NoDup counted) /\ forall g, In g counted -> exists x0 y0, In (g, x0) ((f, x) :: l) /\ oget scmp g fs = Some y0 /\ matching x0 y0).
    { intros M H'. destruct (IH _ _ _ _ _ H' Lf') as (A & B). split; [exact A|]. intros n E. destruct (B n E) as (k & K1 & K2 & K3 & K4 & K5). exists (f :: k). cbn [length].
      split; [lia|]. split; [lia|]. split; [intros g [<-|G]; [now left|right; now apply K3]|].
      split; [intros N; inversion N as [|? ? Nf Nl]; subst; constructor; [intros I; apply Nf, K3, I|auto]|].
      intros g [<-|G]; [exists x, y; split; [now left|auto]|]. destruct (K5 g G) as (x0 & y0 & I & O' & M'). exists x0, y0. split; [now right|]. auto. }
    assert (Stop : forall v, Some (inl v : verdict + nat, st) = Some (r, st') -> st' = st /\ forall n, r = inr n -> exists counted, n = same + length counted /\ length counted <= length ((f, x) :: l) /\ incl counted (map fst ((f, x) :: l)) /\
       (NoDup (map fst ((f, x) :: l)) -> NoDup counted) /\ forall g, In g counted -> exists x0 y0, In (g, x0) ((f, x) :: l) /\ oget scmp g fs = Some y0 /\ matching x0 y0).
    { intros v E. injection E as <- <-. split; [reflexivity|]. discriminate. }
    destruct (is_scalar c (type_name (f_type x)) && is_scalar c (type_name (f_type y))) eqn:Sc.
    { apply andb_true_iff in Sc. destruct Sc as [S1 S2]. destruct (_ || _) eqn:E; [|now apply Stop in H].
      destruct (Bool.eqb _ _) eqn:Li; [|now apply Stop in H]. apply Bool.eqb_prop in Li. apply Count in H; [exact H|]. split; [exact Li|].
      apply orb_true_iff in E. destruct E as [E|E]; [|apply String.eqb_eq in E; auto]. apply orb_true_iff in E. destruct E as [E|E]; apply String.eqb_eq in E; auto. }
    destruct (String.eqb _ _) eqn:E.
    { apply String.eqb_eq in E. destruct (Bool.eqb _ _) eqn:Li; [|now apply Stop in H]. apply Bool.eqb_prop in Li. apply Count in H; [exact H|]. split; auto. }
    destruct (Lf f x y (or_introl eq_refl) O) as [F|F]; rewrite F in H; [now apply Skip|].
    destruct (find_type c (type_name (f_type x))); now apply Skip.
  Qed.
  Lemma matching_sym x y : matching x y -> matching y x.
  Proof. intros (A & B). split; [auto|]. destruct B as [B|(B1 & B2 & [B|B])]; auto. Qed.
  Lemma oget_key {V} f (l : list (string * V)) : In f (map fst l) -> exists x, oget scmp f l = Some x.
  Proof.
    intros I. destruct (oget scmp f l) as [x|] eqn:O; [eauto|]. exfalso. pose proof (proj1 (oget_none scmp scmp_order f l) O) as N. exact (N I).
  Qed.
  Lemma key_oget {V} f (l : list (string * V)) x : oget scmp f l = Some x -> In f (map fst l).
  Proof. intros H. apply (oget_in scmp scmp_order) in H. apply in_map_iff. exists (f, x). auto. Qed.
  Lemma fields_agree_sym a b : osorted scmp (t_fields a) -> osorted scmp (t_fields b) -> fields_agree c a b -> fields_agree c b a.
  Proof.
    intros Sa Sb (Le & M). split; [auto|]. intros f y Y.
    assert (I : incl (map fst (t_fields b)) (map fst (t_fields a))).
    { apply NoDup_length_incl; [apply (osorted_nodup scmp scmp_order), Sa|rewrite !map_length; lia|].
      intros g G. destruct (oget_key g _ G) as (x & X). destruct (M g x X) as (y' & Y' & _). eapply key_oget; eauto. }
    destruct (oget_key f _ (I f (key_oget _ _ _ Y))) as (x & X). destruct (M f x X) as (y' & Y' & L' & N'). rewrite Y in Y'. injection Y' as <-.
    exists x. split; [exact X|]. split; [auto|]. destruct N' as [N'|(N1 & N2 & [N3|N3])]; auto.
  Qed.
  Lemma agree_sym n1 n2 : agree c n1 n2 -> agree c n2 n1.
  Proof.
    intros A t2 t1 F2 F1 L. apply fields_agree_sym; [eapply sorted; eauto|eapply sorted; eauto|]. apply A; auto. tauto.
  Qed.
  Lemma full_agree t1 t2 rec st same st' : osorted scmp (t_fields t1) -> osorted scmp (t_fields t2) -> leaf_type c t1 \/ leaf_type c t2 ->
    compare_fields c rec (t_fields t1) (t_fields t2) 0 st = Some (inr same, st') -> exactly same (length (t_fields t1) + length (t_fields t2) - same) = true -> fields_agree c t1 t2.
  Proof.
    intros S1 S2 Lf H E. unfold exactly in E. apply andb_true_iff in E. destruct E as [E0 E]. apply negb_true_iff, Nat.eqb_neq in E0. apply Nat.leb_le in E.
    apply compare_counts in H.
    2:{ intros f x y I O. destruct Lf as [Lf|Lf]; [left|right; eapply Lf; eauto]. eapply Lf. apply (in_oget scmp scmp_order); eauto. }
    destruct H as (_ & H). destruct (H same eq_refl) as (k & K1 & K2 & K3 & K4 & K5). cbn in K1.
    assert (Nd : NoDup k) by (apply K4, (osorted_nodup scmp scmp_order), S1).
    assert (L2 : length k <= length (t_fields t2)).
    { rewrite <- (map_length fst (t_fields t2)). apply NoDup_incl_length; [exact Nd|]. intros f F. destruct (K5 f F) as (x & y & _ & O & _). eapply key_oget; eauto. }
    split; [lia|]. intros f x X.
    assert (I : incl (map fst (t_fields t1)) k) by (apply NoDup_length_incl; [exact Nd|rewrite map_length; lia|exact K3]).
    destruct (K5 f (I f (key_oget _ _ _ X))) as (x0 & y & I0 & O & M). pose proof (in_oget scmp scmp_order f x0 (t_fields t1) S1 I0) as O0. rewrite X in O0. injection O0 as <-.
    exists y. split; [exact O|]. exact M.
  Qed.
  Definition cache_ok (cache : list (string * string * bool)) : Prop := forall a b, In (a, b, true) cache -> agree c a b.
  Lemma exact_get_in a b r cache : exact_get a b cache = Some r -> In (a, b, r) cache.
  Proof.
    unfold exact_get. destruct (find _ cache) as [[[a' b'] r']|] eqn:F; [|discriminate]. cbn. intros E. injection E as ->. apply find_some in F. destruct F as [I E].
    cbn in E. apply andb_true_iff in E. destruct E as [E1 E2]. apply String.eqb_eq in E1, E2. subst. exact I.
  Qed.
  Lemma pair_get_ok a b cache : cache_ok cache -> pair_get a b cache = Some true -> agree c a b.
  Proof.
    intros Ok H. unfold pair_get in H. destruct (exact_get a b cache) as [r|] eqn:E.
    - injection H as ->. apply exact_get_in in E. now apply Ok.
    - apply exact_get_in in H. apply agree_sym. now apply Ok.
  Qed.
  Lemma compare_cache (rec : string -> gtype -> string -> gtype -> sstate -> option (verdict * sstate)) :
    (forall n1 t1 n2 t2 st v st', find_type c n1 = Some t1 -> find_type c n2 = Some t2 -> cache_ok (ss_cache st) -> rec n1 t1 n2 t2 st = Some (v, st') -> cache_ok (ss_cache st')) ->
    forall l fs same st r st', cache_ok (ss_cache st) -> compare_fields c rec l fs same st = Some (r, st') -> cache_ok (ss_cache st').
  Proof.
    intros R. induction l as [|[f x] l IH]; intros fs same st r st' Ok H; cbn [compare_fields] in H; [injection H as <- <-; exact Ok|].
    assert (Stop : forall v, Some (inl v : verdict + nat, st) = Some (r, st') -> cache_ok (ss_cache st')) by (intros v E; injection E as <- <-; exact Ok).
    destruct (oget scmp f fs) as [y|]; [|now apply (IH _ _ _ _ _ Ok H)].
    destruct (is_scalar c _ && is_scalar c _).
    { destruct (_ || _); [|now apply Stop in H]. destruct (Bool.eqb _ _); [now apply (IH _ _ _ _ _ Ok H)|now apply Stop in H]. }
    destruct (String.eqb _ _). { destruct (Bool.eqb _ _); [now apply (IH _ _ _ _ _ Ok H)|now apply Stop in H]. }
    destruct (find_type c (type_name (f_type x))) as [u1|] eqn:F1; [|now apply (IH _ _ _ _ _ Ok H)].
    destruct (find_type c (type_name (f_type y))) as [u2|] eqn:F2; [|now apply (IH _ _ _ _ _ Ok H)].
    destruct (pair_in _ _ _); [now apply Stop in H|]. destruct (rec _ u1 _ u2 _) as [[[b|] st1]|] eqn:Re; [| |discriminate].
    - eapply IH; [|exact H]. eapply R; [exact F1|exact F2| |exact Re]. exact Ok.
    - injection H as <- <-. eapply R; [exact F1|exact F2| |exact Re]. exact Ok.
  Qed.
  Lemma inner_ok : forall fuel n1 t1 n2 t2 st v st', find_type c n1 = Some t1 -> find_type c n2 = Some t2 -> cache_ok (ss_cache st) ->
    similarity_inner c exactly fuel n1 t1 n2 t2 st = Some (v, st') -> cache_ok (ss_cache st') /\ (v = Similar true -> agree c n1 n2).
  Proof.
    induction fuel as [|fuel IH]; intros n1 t1 n2 t2 st v st' F1 F2 Ok H; [discriminate|]. cbn [similarity_inner] in H.
    destruct (pair_get n1 n2 (ss_cache st)) as [r|] eqn:P.
    { injection H as <- <-. split; [exact Ok|]. intros E. injection E as ->. now apply (pair_get_ok _ _ (ss_cache st)). }
    destruct (compare_fields c _ (t_fields t1) (t_fields t2) 0 st) as [[r st1]|] eqn:C; [|discriminate].
    assert (Ok1 : cache_ok (ss_cache st1)).
    { eapply compare_cache; [|exact Ok|exact C]. intros m1 u1 m2 u2 s0 w s1 G1 G2 O0 E0. exact (proj1 (IH m1 u1 m2 u2 s0 w s1 G1 G2 O0 E0)). }
    destruct r as [w|same].
    - injection H as <- <-. split; [exact Ok1|]. intros -> u1 u2 U1 U2 Lf. exfalso. assert (u1 = t1) by congruence. assert (u2 = t2) by congruence. subst u1 u2.
      enough (forall rec l fs k s0 s1, (forall f x y, In (f, x) l -> oget scmp f fs = Some y -> find_type c (type_name (f_type x)) = None \/ find_type c (type_name (f_type y)) = None) ->
                compare_fields c rec l fs k s0 <> Some (inl (Similar true), s1)) as X.
      { revert C. apply X. intros f x y I O. destruct Lf as [Lf|Lf]; [left|right; eapply Lf; eauto]. eapply Lf. apply (in_oget scmp scmp_order); eauto. }
      clear. intros rec. induction l as [|[f x] l IH]; intros fs k s0 s1 Lf; cbn [compare_fields]; [discriminate|].
      assert (N : forall k', compare_fields c rec l fs k' s0 <> Some (inl (Similar true), s1)) by (intros k'; apply IH; intros; eapply Lf; [right|]; eauto).
      destruct (oget scmp f fs) as [y|] eqn:O; [|apply N]. destruct (is_scalar c _ && is_scalar c _).
      { destruct (_ || _); [|discriminate]. destruct (Bool.eqb _ _); [apply N|discriminate]. }
      destruct (String.eqb _ _). { destruct (Bool.eqb _ _); [apply N|discriminate]. }
      destruct (Lf f x y (or_introl eq_refl) O) as [F|F]; rewrite F; [apply N|]. destruct (find_type c (type_name (f_type x))); apply N.
    - injection H as <- <-. cbn [ss_cache]. assert (A : exactly same (length (t_fields t1) + length (t_fields t2) - same) = true -> agree c n1 n2).
      { intros E u1 u2 U1 U2 Lf. assert (u1 = t1) by congruence. assert (u2 = t2) by congruence. subst u1 u2. eapply full_agree; eauto. }
      split.
      + intros a b [E|I]; [|now apply Ok1]. injection E as <- <- E. now apply A.
      + intros E. injection E as E. now apply A.
  Qed.
  Lemma similarity_leaves n1 t1 n2 t2 cache v cache' : cache_ok cache -> find_type c n1 = Some t1 -> find_type c n2 = Some t2 ->
    similarity c exactly n1 t1 n2 t2 cache = Some (v, cache') -> cache_ok cache' /\ (v = Similar true -> agree c n1 n2).
  Proof.
    intros Ok F1 F2 H. unfold similarity in H. destruct (similarity_inner c exactly _ n1 t1 n2 t2 _) as [[w st]|] eqn:I; [|discriminate]. injection H as <- <-.
    eapply inner_ok; [exact F1|exact F2| |exact I]. exact Ok.
  Qed.
End Leaves.
