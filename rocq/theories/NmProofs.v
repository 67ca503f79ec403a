From Coq Require Import String Ascii ZArith NArith Bool List Lia Permutation.
From Verif Require Import Base Ordered OrderedFacts JsonModel TypeModel ConfigModel RenameModel RenameSpec RenameProofs ImpModel NmModel NmSpec.
Import ListNotations.
Open Scope string_scope.
Open Scope list_scope.

Section Infer.
  Variable lowercase : string -> string.
  Variable generated : string.
  Variable ask : nat -> question -> outcome.

  Lemma asked_of t : asked t (question_of t).
  Proof. unfold asked, question_of. induction (t_fields t) as [|kf l IH]; cbn; constructor; auto. Qed.
  Lemma prefixed a b : prefix a b = true -> exists r, b = (a ++ r)%string.
  Proof.
    revert b. induction a as [|x a IH]; intros b H; [now exists b|]. destruct b as [|y b]; [discriminate|]. cbn in H.
    destruct (ascii_dec x y) as [->|]; [|discriminate]. destruct (IH b H) as [r ->]. now exists r.
  Qed.

  (** ** One type *)
  Lemma loop_answer fuel q : forall n d ws l n' ws', ask_loop ask fuel q n d ws = Some (l, n', ws') -> exists k, ask k q = Suggestions l.
  Proof.
    induction fuel as [|fuel IH]; intros n d ws l n' ws' H; cbn in H; [discriminate|]. destruct (ask n q) eqn:A; [injection H as <- <- <-; eauto|eauto|eauto].
  Qed.
  Lemma wait_pos n : (3 <= wait n)%Z.
  Proof. induction n as [|n IH]; [cbn; lia|]. destruct n as [|[|n]]; [cbn; lia|cbn; lia|]. change (wait (S (S (S n)))) with (60 * wait (S (S n)))%Z. lia. Qed.
  Lemma wait_next n : wait (S n) = (wait n * Z.min (wait n * 2) 60)%Z.
  Proof.
    destruct n as [|[|n]]; [reflexivity|reflexivity|]. change (wait (S (S (S n)))) with (60 * wait (S (S n)))%Z.
    assert (30 <= wait (S (S n)))%Z. { clear. induction n as [|n IH]; [cbn; lia|]. change (wait (S (S (S n)))) with (60 * wait (S (S n)))%Z. lia. }
    rewrite Z.min_r by lia. lia.
  Qed.
  Lemma loop_waits fuel q : forall n k ws l n' ws', ask_loop ask fuel q n (wait k) ws = Some (l, n', ws') -> exists j, ws' = ws ++ map wait (seq k j).
  Proof.
    induction fuel as [|fuel IH]; intros n k ws l n' ws' H; cbn in H; [discriminate|]. destruct (ask n q) eqn:A.
    - injection H as <- <- <-. exists 0. now rewrite app_nil_r.
    - rewrite <- wait_next in H. destruct (IH _ _ _ _ _ _ H) as [j ->]. exists (S j). cbn [seq map]. now rewrite <- app_assoc.
    - eauto.
  Qed.
  Lemma loop_mono fuel fuel' q : fuel <= fuel' -> forall n d ws r, ask_loop ask fuel q n d ws = Some r -> ask_loop ask fuel' q n d ws = Some r.
  Proof.
    revert fuel'. induction fuel as [|fuel IH]; intros fuel' L n d ws r H; cbn in H; [discriminate|]. destruct fuel' as [|fuel']; [lia|]. cbn. destruct (ask n q); [exact H| |]; apply IH; auto; lia.
  Qed.
  Lemma loop_ends q n : forall m, (n <= m) -> (exists l, ask m q = Suggestions l) -> forall d ws, exists fuel r, ask_loop ask fuel q n d ws = Some r.
  Proof.
    intros m L. remember (m - n) as k eqn:K. revert n L K. induction k as [|k IH]; intros n L K [l A] d ws.
    - replace m with n in A by lia. exists 1. cbn. rewrite A. eauto.
    - destruct (ask n q) as [l0| |] eqn:A0.
      + exists 1. cbn. rewrite A0. eauto.
      + destruct (IH (S n)) with (d := (d * Z.min (d * 2) 60)%Z) (ws := ws ++ [d]) as (f & r & H); [lia|lia|eauto|]. exists (S f), r. cbn. now rewrite A0.
      + destruct (IH (S n)) with (d := d) (ws := ws) as (f & r & H); [lia|lia|eauto|]. exists (S f), r. cbn. now rewrite A0.
  Qed.
  Lemma choose_some c used l v : choose c used l = Some v ->
    In v l /\ find_type c v = None /\ ~ In v used.
  Proof.
    induction l as [|n l IH]; cbn; [discriminate|]. destruct (has n (c_types c)) eqn:H; cbn; [intros E; destruct (IH E) as (A & B); auto|].
    destruct (existsb (String.eqb n) used) eqn:X; [intros E; destruct (IH E) as (A & B); auto|]. intros E. injection E as ->. split; [now left|]. split.
    - unfold has in H. unfold find_type. destruct (oget scmp v (c_types c)); [discriminate|reflexivity].
    - intros I. assert (existsb (String.eqb v) used = true) by (apply existsb_exists; exists v; split; [exact I|apply String.eqb_refl]). congruence.
  Qed.
  Lemma choose_none c used l : choose c used l = None -> forall v, In v l -> find_type c v <> None \/ In v used.
  Proof.
    induction l as [|n l IH]; cbn; [intros _ v []|]. destruct (has n (c_types c)) eqn:H; cbn.
    - intros E v [<-|I]; [left|auto]. unfold has in H. unfold find_type. now destruct (oget scmp n (c_types c)).
    - destruct (existsb (String.eqb n) used) eqn:X; [|discriminate]. intros E v [<-|I]; [right|auto]. apply existsb_exists in X as (y & I & E'). apply String.eqb_eq in E'. now subst.
  Qed.

  (** ** All types *)
  Lemma from_names fuel c : forall todo used n names all, infer_from ask fuel c todo used n = Some (names, all) -> NoDup (map fst todo) ->
    NoDup (map fst names) /\ NoDup (map snd names) /\ length all = length todo /\
    (forall k v, In (k, v) names -> (exists t, In (k, t) todo /\ exists l, answered ask t l /\ In v l) /\ find_type c v = None /\ ~ In v used) /\
    (forall k t, In (k, t) todo -> (exists v, In (k, v) names) \/
       exists l, answered ask t l /\ forall v, In v l -> find_type c v <> None \/ In v used \/ In v (map snd names)) /\
    (forall ws, In ws all -> exists j, ws = map wait (seq 0 j)).
  Proof.
    induction todo as [|[name t] todo IH]; intros used n names all H ND; cbn in H.
    - injection H as <- <-. cbn. split; [constructor|]. split; [constructor|]. split; [reflexivity|]. split; [intros k v []|]. split; [intros k t []|intros ws []].
    - destruct (ask_loop ask fuel (question_of t) n 3 []) as [[[l n1] ws]|] eqn:L; [|discriminate].
      destruct (infer_from ask fuel c todo _ n1) as [[names1 all1]|] eqn:R; [|discriminate]. injection H as <- <-. cbn in ND. inversion ND as [|? ? Nn ND']; subst.
      destruct (IH _ _ _ _ R ND') as (K & V & Ln & A & B & C). clear IH.
      assert (An : answered ask t l) by (destruct (loop_answer _ _ _ _ _ _ _ _ L) as [k E]; exists k, (question_of t); split; [apply asked_of|exact E]).
      assert (W : exists j, ws = map wait (seq 0 j)) by (exact (loop_waits fuel _ n 0 [] l n1 ws L)).
      assert (Nk : forall v, ~ In (name, v) names1).
      { intros v I. destruct (A _ _ I) as [(t0 & I0 & _) _]. apply Nn. apply in_map_iff. exists (name, t0). auto. }
      assert (Cw : forall ws0, In ws0 (ws :: all1) -> exists j, ws0 = map wait (seq 0 j)) by (intros ws0 [<-|I]; auto).
      destruct (choose c used l) as [v|] eqn:Ch.
      + destruct (choose_some _ _ _ _ Ch) as (Iv & Fv & Uv). cbn. split; [|split; [|split; [|split; [|split]]]].
        * constructor; [|exact K]. intros I. apply in_map_iff in I as ([k v0] & E & I). cbn in E. subst k. exact (Nk _ I).
        * constructor; [|exact V]. intros I. apply in_map_iff in I as ([k v0] & E & I). cbn in E. subst v0. destruct (A _ _ I) as (_ & _ & U). apply U, in_or_app. right. now left.
        * now rewrite Ln.
        * intros k v0 [E|I]; [injection E as <- <-; split; [exists t; split; [now left|eauto]|auto]|].
          destruct (A _ _ I) as ((t0 & I0 & X) & F & U). split; [exists t0; split; [now right|exact X]|]. split; [exact F|]. intros I1. apply U, in_or_app. now left.
        * intros k t0 [E|I]; [injection E as <- <-; left; exists v; now left|]. destruct (B _ _ I) as [[v0 I0]|(l0 & A0 & X)]; [left; exists v0; now right|right].
          exists l0. split; [exact A0|]. intros v0 I0. destruct (X _ I0) as [Y|[Y|Y]]; [auto| |auto]. apply in_app_or in Y as [Y|[Y|[]]]; auto.
        * exact Cw.
      + cbn. split; [exact K|]. split; [exact V|]. split; [now rewrite Ln|]. split; [|split; [|exact Cw]].
        * intros k v0 I. destruct (A _ _ I) as ((t0 & I0 & X) & F & U). split; [exists t0; split; [now right|exact X]|]. auto.
        * intros k t0 [E|I].
          -- injection E as <- <-. right. exists l. split; [exact An|]. intros v0 I0. destruct (choose_none _ _ _ Ch v0 I0); auto.
          -- exact (B _ _ I).
  Qed.
  Lemma from_mono fuel fuel' c : fuel <= fuel' -> forall todo used n r, infer_from ask fuel c todo used n = Some r -> infer_from ask fuel' c todo used n = Some r.
  Proof.
    intros L. induction todo as [|[name t] todo IH]; intros used n r H; [exact H|]. cbn in *. destruct (ask_loop ask fuel (question_of t) n 3 []) as [[[l n1] ws]|] eqn:A; [|discriminate].
    rewrite (loop_mono _ _ _ L _ _ _ _ A). destruct (infer_from ask fuel c todo _ n1) as [[names all]|] eqn:R; [|discriminate]. now rewrite (IH _ _ _ R).
  Qed.
  Lemma from_ends c : forall todo used n, (forall k t n, In (k, t) todo -> exists m l, n <= m /\ ask m (question_of t) = Suggestions l) ->
    exists fuel r, infer_from ask fuel c todo used n = Some r.
  Proof.
    induction todo as [|[name t] todo IH]; intros used n H; [exists 0; eexists; reflexivity|].
    destruct (H name t n (or_introl eq_refl)) as (m & l & Lm & A). destruct (loop_ends (question_of t) n m Lm (ex_intro _ l A) 3 []) as (f1 & [[l1 n1] ws] & E1).
    destruct (IH (match choose c used l1 with Some v => used ++ [v] | None => used end) n1) as (f2 & [names all] & E2); [intros; eapply H; right; eauto|].
    exists (f1 + f2). cbn. rewrite (loop_mono f1 (f1 + f2) _ ltac:(lia) _ _ _ _ E1). rewrite (from_mono f2 (f1 + f2) c ltac:(lia) _ _ _ _ E2). eexists. reflexivity.
  Qed.

  Lemma nodup_filtered {A} (p : string * A -> bool) l : NoDup (map fst l) -> NoDup (map fst (filter p l)).
  Proof.
    induction l as [|x l IH]; cbn; [auto|]. intros H. inversion H as [|? ? N D]; subst. destruct (p x); cbn; [|auto]. constructor; [|auto].
    intros I. apply N. apply in_map_iff in I as (y & E & I). apply filter_In in I as [I _]. apply in_map_iff. eauto.
  Qed.
  Lemma not_root c n : is_root_operation_type lowercase c n = false -> ~ is_root c n.
  Proof.
    unfold is_root_operation_type, is_root. cbn. intros H I. destruct I as [E|[E|E]]; rewrite E in H; rewrite String.eqb_refl in H; rewrite ?orb_true_r in H; discriminate.
  Qed.
  Lemma infer_names fuel c names all : infer lowercase generated ask fuel c = Some (names, all) -> osorted scmp (c_types c) ->
    NoDup (map fst names) /\ NoDup (map snd names) /\
    (forall k v, In (k, v) names -> (exists t l, In (k, t) (c_types c) /\ answered ask t l /\ In v l) /\ find_type c v = None /\ ~ is_root c k /\ exists r, k = (generated ++ r)%string) /\
    (forall k t r, In (k, t) (c_types c) -> k = (generated ++ r)%string -> is_root_operation_type lowercase c k = false -> (exists v, In (k, v) names) \/
       exists l, answered ask t l /\ forall v, In v l -> find_type c v <> None \/ In v (map snd names)) /\
    (forall ws, In ws all -> exists j, ws = map wait (seq 0 j)).
  Proof.
    intros H ND. unfold infer in H. destruct (from_names _ _ _ _ _ _ _ H) as (K & V & _ & A & B & C); [now apply nodup_filtered, (osorted_nodup scmp scmp_order)|].
    split; [exact K|]. split; [exact V|]. split; [|split; [|exact C]].
    - intros k v I. destruct (A k v I) as ((t & I0 & l & X & Y) & F & _). apply filter_In in I0 as [I0 P]. cbn in P. apply andb_true_iff in P as [P1 P2].
      split; [exists t, l; auto|]. split; [exact F|]. split; [apply not_root; now apply negb_true_iff in P1|]. now apply prefixed.
    - intros k t r I E R. destruct (B k t) as [X|(l & X & Y)]; [|now left|].
      + apply filter_In. split; [exact I|]. cbn [fst]. rewrite R. cbn [negb andb]. subst k. unfold is_auto_generated. clear. induction generated as [|x g IH]; cbn; [destruct r; reflexivity|]. destruct (ascii_dec x x); [exact IH|congruence].
      + right. exists l. split; [exact X|]. intros v I0. destruct (Y v I0) as [Z|[Z|Z]]; auto. left. apply in_map_iff in Z as ([n t0] & E0 & Z). cbn in E0. subst n. apply filter_In in Z as [Z _].
        unfold find_type. now rewrite (in_oget scmp scmp_order v t0 (c_types c) ND Z).
  Qed.
  Lemma aget_none (names : list (string * string)) n : ~ In n (map fst names) -> aget n names = None.
  Proof. induction names as [|[k v] names IH]; cbn; [reflexivity|]. intros H. destruct (String.eqb_spec n k) as [->|_]; [destruct H; now left|auto]. Qed.
  Lemma infer_consistent fuel c names all names' : infer lowercase generated ask fuel c = Some (names, all) -> osorted scmp (c_types c) -> proper_roots c ->
    (forall t l v, answered ask t l -> In v l -> find_enum c v = None /\ find_union c v = None) -> Permutation names names' ->
    exists c', rename_types names' c = Ok c' /\ consistently_renamed names' c c' /\ c_schema c' = c_schema c.
  Proof.
    intros H So P N Pe. destruct (infer_names _ _ _ _ H So) as (K & V & A & _).
    assert (A' : forall k v, In (k, v) names' -> In (k, v) names) by (intros k v; apply Permutation_in, Permutation_sym, Pe).
    assert (Fr : fresh_names names' c).
    { split.
      - eapply Permutation_NoDup; [apply Permutation_map, Pe|exact K].
      - eapply Permutation_NoDup; [apply Permutation_map, Pe|exact V].
      - intros v I. apply in_map_iff in I as ([k v0] & E & I). cbn in E. subst v0. destruct (A _ _ (A' _ _ I)) as ((t & l & I0 & An & Il) & F & _). destruct (N _ _ _ An Il). intros [D|[D|D]]; congruence.
      - intros v I J. apply in_map_iff in I as ([k v0] & E & I). cbn in E. subst v0. apply in_map_iff in J as ([v0 w] & E & J). cbn in E. subst v0.
        destruct (A _ _ (A' _ _ I)) as (_ & F & _). destruct (A _ _ (A' _ _ J)) as ((t & l & I0 & _) & _). unfold find_type in F. rewrite (in_oget scmp scmp_order v t (c_types c) So I0) in F. discriminate. }
    destruct (rename_main names' c Fr P) as [Ex Co]. destruct (proj2 Ex) as [c' E].
    { intros k I. apply in_map_iff in I as ([k0 v] & E & I). cbn in E. subst k0. destruct (A _ _ (A' _ _ I)) as ((t & l & I0 & _) & _). left. unfold find_type. now rewrite (in_oget scmp scmp_order k t (c_types c) So I0). }
    exists c'. split; [exact E|]. specialize (Co c' E). split; [exact Co|].
    assert (Sb : r_subscription (c_schema c') = r_subscription (c_schema c)).
    { unfold rename_types in E. destruct (rs_ok _); [|discriminate]. injection E as <-. reflexivity. }
    assert (Rn : forall n, is_root c n -> new_name names' n = n).
    { intros n R. unfold new_name. rewrite aget_none; [reflexivity|]. intros I. apply in_map_iff in I as ([k v] & E0 & I). cbn in E0. subst k. destruct (A _ _ (A' _ _ I)) as (_ & _ & X & _). exact (X R). }
    pose proof (cr_query _ _ _ Co) as Q. pose proof (cr_mutation _ _ _ Co) as M. destruct (c_schema c) as [q m s] eqn:Sc. destruct (c_schema c') as [q' m' s']. cbn in *. subst s' q' m'. f_equal.
    - destruct q as [q|]; [|reflexivity]. cbn. f_equal. apply Rn. left. now rewrite Sc.
    - destruct m as [m|]; [|reflexivity]. cbn. f_equal. apply Rn. right. left. now rewrite Sc.
  Qed.

  (** ** It may never end, or wait *)
  Lemma loop_stuck fuel q : (forall n, exists e, ask n q = e /\ (e = GenAIError \/ e = OtherError)) -> forall n d ws, ask_loop ask fuel q n d ws = None.
  Proof.
    intros H. induction fuel as [|fuel IH]; intros n d ws; cbn; [reflexivity|]. destruct (H n) as (e & E & [-> | ->]); rewrite E; apply IH.
  Qed.
End Infer.
Lemma loop_step ask f q n d ws : ask_loop ask (S f) q n d ws =
  match ask n q with
  | Suggestions l => Some (l, S n, ws)
  | GenAIError => ask_loop ask f q (S n) (d * Z.min (d * 2) 60) (ws ++ [d])
  | OtherError => ask_loop ask f q (S n) d ws
  end.
Proof. reflexivity. Qed.
Lemma loop_failures ask q l k : forall n0 n ws, (forall m, m < k -> ask (n0 + m) q = GenAIError) -> ask (n0 + k) q = Suggestions l ->
  ask_loop ask (S k) q n0 (wait n) ws = Some (l, S (n0 + k), ws ++ map wait (seq n k)).
Proof.
  induction k as [|k IH]; intros n0 n ws F A.
  - cbn. rewrite Nat.add_0_r in *. rewrite A. now rewrite app_nil_r.
  - rewrite loop_step. pose proof (F 0 ltac:(lia)) as F0. rewrite Nat.add_0_r in F0. rewrite F0, <- wait_next.
    rewrite (IH (S n0) (S n)).
    + cbn [seq map]. rewrite <- app_assoc. cbn. now rewrite Nat.add_succ_r.
    + intros m L. replace (S n0 + m) with (n0 + S m) by lia. apply F. lia.
    + replace (S n0 + k) with (n0 + S k) by lia. exact A.
Qed.
Lemma wait_grows n : (Z.of_nat n < wait n)%Z.
Proof.
  induction n as [|n IH]; [cbn; lia|]. rewrite wait_next. pose proof (wait_pos n). assert (2 <= Z.min (wait n * 2) 60)%Z by lia. nia.
Qed.

