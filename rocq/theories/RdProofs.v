(** Proofs about reading REST endpoints (C99). *)
From Coq Require Import String Ascii ZArith NArith Bool List Permutation Lia.
From Verif Require Import Base BaseFacts JsonModel RestModel RdModel RdSpec.
Import ListNotations.
Open Scope string_scope.

Lemma upper_ok : forall c, upper c (upper_char c).
Proof.
  intros c. unfold upper_char. destruct ((N.leb 97 (N_of_ascii c) && N.leb (N_of_ascii c) 122)%bool) eqn:E.
  - apply andb_true_iff in E as [L H]. apply N.leb_le in L, H. rewrite <- (ascii_N_embedding c) at 1. now constructor.
  - apply upper_other. intros [L H]. apply N.leb_le in L, H. rewrite L, H in E. discriminate E.
Qed.
Lemma to_uppercase_ok : forall s, names_method s (to_uppercase s).
Proof. induction s as [|c s IH]; constructor; auto using upper_ok. Qed.
Lemma upper_is : forall c d, upper c d -> upper_char c = d.
Proof.
  intros c d [n [L H]|c' N]; unfold upper_char.
  - rewrite N_ascii_embedding by lia. apply N.leb_le in L, H. now rewrite L, H.
  - destruct ((N.leb 97 (N_of_ascii c') && N.leb (N_of_ascii c') 122)%bool) eqn:E; [|reflexivity]. apply andb_true_iff in E as [L H]. apply N.leb_le in L, H. now destruct N.
Qed.
Lemma to_uppercase_is : forall s t, names_method s t -> to_uppercase s = t.
Proof. induction 1 as [|c d s t U _ IH]; [reflexivity|]. cbn. now rewrite (upper_is _ _ U), IH. Qed.
Lemma methods_iff : forall m, smem m methods = true <-> http_method m.
Proof.
  intros m. rewrite smem_In. unfold http_method, methods. cbn [In]. intuition congruence.
Qed.
Lemma once_aget : forall {A} (l : list (string * A)) k v, given_once l -> (aget k l = Some v <-> In (k, v) l).
Proof.
  intros A l k v H. split; [apply aget_In|]. revert H. induction l as [|[j w] l IH]; intros H I; [destruct I|]. inversion H as [|? ? N O]; subst. cbn [aget]. destruct I as [[= -> ->]|I]; [now rewrite String.eqb_refl|].
  destruct (String.eqb_spec k j) as [-> |D]; [|now apply IH]. destruct N. apply in_map_iff. now exists (j, v).
Qed.
Lemma insert_given : forall l m k v, given_once l -> (forall k' v', In (k', v') m -> ~ In k' (map fst l)) ->
  (In (k, v) (insert_variables l m) <-> In (k, v) m \/ In (k, AVar v) l).
Proof.
  induction l as [|[j a] l IH]; intros m k v O D; [cbn; tauto|]. inversion O as [|? ? N O']; subst. cbn [insert_variables map fst] in *.
  assert (D' : forall k' v', In (k', v') m -> ~ In k' (map fst l)) by (intros k' v' I X; apply (D k' v' I); now right).
  destruct a as [w|w|w|w|]; try (rewrite IH by assumption; cbn [In]; split; [tauto|]; intros [I|[[=]|I]]; tauto).
  assert (A : aset j w m = (m ++ [(j, w)])%list).
  { clear - D. induction m as [|[i u] m IH]; [reflexivity|]. cbn [aset List.app]. destruct (String.eqb_spec j i) as [-> |X]; [destruct (D i u (or_introl eq_refl)); now left|]. rewrite IH; [reflexivity|]. intros k' v' I. apply (D k' v'). now right. }
  rewrite A, IH; [|exact O'|].
  - rewrite in_app_iff. cbn [In]. split; [intros [[I|[[= -> ->]|[]]]|I]; auto|]. intros [I|[[= -> ->]|I]]; auto.
  - intros k' v' I. apply in_app_iff in I as [I|[[= -> ->]|[]]]; [now apply D' in I|exact N].
Qed.

Definition path_given (args : list (string * arg)) (old : option string) : option string := match aget "path" args with Some (AStr p) => Some p | _ => old end.
Definition method_given (args : list (string * arg)) (old : option string) : option string := match aget "method" args with Some (AName n) => Some (to_uppercase n) | _ => old end.
Definition query_given (args : list (string * arg)) (old : list (string * string)) : list (string * string) := match aget "query" args with Some (AObject l) => insert_variables l old | _ => old end.
Definition body_given (args : list (string * arg)) (old : option string) : option string := match aget "body" args with Some (AVar v) => Some v | _ => old end.
Definition readable (args : list (string * arg)) : Prop :=
  (forall a, In ("path", a) args -> exists p, a = AStr p) /\ (forall a, In ("method", a) args -> exists n, a = AName n /\ smem (to_uppercase n) methods = true).
Lemma not_in_aget : forall {A} (l : list (string * A)) k, ~ In k (map fst l) -> aget k l = None.
Proof. intros A l k N. destruct (aget k l) as [v|] eqn:E; [|reflexivity]. apply aget_In in E. destruct N. apply in_map_iff. now exists (k, v). Qed.
Lemma read_args_ok : forall args r, given_once args ->
  (readable args -> read_args args r = Ok {| r_path := path_given args (r_path r); r_method := method_given args (r_method r); r_query := query_given args (r_query r); r_body := body_given args (r_body r) |}) /\
  (forall r', read_args args r = Ok r' -> readable args).
Proof.
  induction args as [|[k v] args IH]; intros r O.
  - split; [intros _; destruct r; reflexivity|]. intros r' _. split; intros a [].
  - inversion O as [|? ? N O']; subst. cbn [map fst] in N. cbn [read_args].
    assert (Rd : readable ((k, v) :: args) -> readable args) by (intros [A B]; split; intros a I; [apply A|apply B]; now right).
    destruct (String.eqb_spec k "path") as [-> |K1].
    { destruct v as [w|w|w|w|]; try (split; [intros [A _]; destruct (A _ (or_introl eq_refl)) as [p [=]]|discriminate]).
      destruct (IH {| r_path := Some w; r_method := r_method r; r_query := r_query r; r_body := r_body r |} O') as [I1 I2]. split.
      - intros R. rewrite (I1 (Rd R)). unfold path_given, method_given, query_given, body_given. cbn [aget]. rewrite (not_in_aget args "path" N). reflexivity.
      - intros r' H. destruct (I2 r' H) as [A B]. split; intros a [E|I]; auto; try discriminate E; injection E as <-; eauto. }
    destruct (String.eqb_spec k "method") as [-> |K2].
    { destruct v as [w|w|w|w|]; try (split; [intros [_ A]; destruct (A _ (or_introl eq_refl)) as (p & [=] & _)|discriminate]).
      destruct (smem (to_uppercase w) methods) eqn:M; [|split; [intros [_ A]; destruct (A _ (or_introl eq_refl)) as (p & [= <-] & X); congruence|discriminate]].
      destruct (IH {| r_path := r_path r; r_method := Some (to_uppercase w); r_query := r_query r; r_body := r_body r |} O') as [I1 I2]. split.
      - intros R. rewrite (I1 (Rd R)). unfold path_given, method_given, query_given, body_given. cbn [aget]. rewrite (not_in_aget args "method" N). reflexivity.
      - intros r' H. destruct (I2 r' H) as [A B]. split; intros a [E|I]; auto; try discriminate E; injection E as <-; eauto. }
    assert (Up : readable args -> readable ((k, v) :: args)).
    { intros [A B]. split; intros a [E|I]; auto; injection E as E _; [now destruct K1|now destruct K2]. }
    destruct (String.eqb_spec k "query") as [-> |K3].
    { destruct v as [w|w|w|w|].
      4:{ destruct (IH {| r_path := r_path r; r_method := r_method r; r_query := insert_variables w (r_query r); r_body := r_body r |} O') as [I1 I2]. split; [|intros r' H; eauto].
          intros R. rewrite (I1 (Rd R)). unfold path_given, method_given, query_given, body_given. cbn [aget]. rewrite (not_in_aget args "query" N). reflexivity. }
      all: destruct (IH r O') as [I1 I2]; (split; [|intros r' H; eauto]); intros R; rewrite (I1 (Rd R)); unfold path_given, method_given, query_given, body_given; cbn [aget]; rewrite (not_in_aget args "query" N); reflexivity. }
    destruct (String.eqb_spec k "body") as [-> |K4].
    { destruct v as [w|w|w|w|].
      1:{ destruct (IH {| r_path := r_path r; r_method := r_method r; r_query := r_query r; r_body := Some w |} O') as [I1 I2]. split; [|intros r' H; eauto].
          intros R. rewrite (I1 (Rd R)). unfold path_given, method_given, query_given, body_given. cbn [aget]. rewrite (not_in_aget args "body" N). reflexivity. }
      all: destruct (IH r O') as [I1 I2]; (split; [|intros r' H; eauto]); intros R; rewrite (I1 (Rd R)); unfold path_given, method_given, query_given, body_given; cbn [aget]; rewrite (not_in_aget args "body" N); reflexivity. }
    destruct (IH r O') as [I1 I2]. split; [|intros r' H; eauto]. intros R. rewrite (I1 (Rd R)). unfold path_given, method_given, query_given, body_given. cbn [aget].
    apply not_eq_sym in K1, K2, K3, K4. apply String.eqb_neq in K1, K2, K3, K4. rewrite K1, K2, K3, K4. reflexivity.
Qed.
Definition start : rest := {| r_path := None; r_method := None; r_query := []; r_body := None |}.
Lemma read_ok : forall args p m q b, given_once args -> objects_once args -> read_rest args = Ok (p, m, q, b) -> says args p m q b.
Proof.
  intros args p m q b O OO H. unfold read_rest in H. fold start in H. destruct (read_args_ok args start O) as [R1 R2].
  destruct (read_args args start) as [r|e] eqn:E; [|discriminate]. pose proof (R2 r eq_refl) as R. specialize (R1 R). injection R1 as ->. cbn [r_path r_method r_query r_body start] in H.
  destruct R as [_ B]. unfold method_given, path_given, query_given, body_given in H.
  destruct (aget "method" args) as [mm|] eqn:EM; [|destruct (aget "path" args) as [[]|] in H; discriminate H].
  apply aget_In in EM. destruct (B mm EM) as (n & -> & Mn).
  destruct (aget "path" args) as [pp|] eqn:EP; [|discriminate]. destruct pp as [w|w|w|w|]; try discriminate. apply aget_In in EP.
  injection H as <- <- <- <-. split.
  - exact EP.
  - exists n. split; [exact EM|]. split; [apply to_uppercase_ok|]. now apply methods_iff.
  - intros k v. destruct (aget "query" args) as [a|] eqn:EQ.
    + assert (Only : forall l, In ("query", AObject l) args -> a = AObject l) by (intros l I; apply (once_aget _ _ _ O) in I; congruence).
      destruct a as [w'|w'|w'|w'|]; try (split; [intros []|]; intros (l & I & _); apply Only in I; discriminate I).
      apply aget_In in EQ. rewrite insert_given; [|now apply (OO "query")|intros ? ? []]. cbn [In]. split; [intros [[]|I]; eauto|]. intros (l & I & J). apply Only in I. injection I as ->. auto.
    + split; [intros []|]. intros (l & I & _). apply (once_aget _ _ _ O) in I. congruence.
  - intros v. rewrite <- (once_aget _ _ _ O). destruct (aget "body" args) as [[]|]; split; intros [= ->]; reflexivity.
Qed.
Lemma read_written : forall args p n m, given_once args -> In ("path", AStr p) args -> In ("method", AName n) args -> names_method n m -> http_method m ->
  exists q b, read_rest args = Ok (p, m, q, b).
Proof.
  intros args p n m O P M U H. apply to_uppercase_is in U. apply methods_iff in H. apply (once_aget _ _ _ O) in P, M.
  assert (R : readable args) by (split; intros a I; apply (once_aget _ _ _ O) in I; [rewrite P in I; injection I as <-; eauto|rewrite M in I; injection I as <-; exists n; subst; auto]).
  unfold read_rest. fold start. rewrite (proj1 (read_args_ok args start O) R). cbn [r_path r_method r_query r_body]. unfold path_given, method_given. rewrite P, M, U. eauto.
Qed.
Lemma read_missing : forall args msg, given_once args -> read_rest args = Err (Missing msg) ->
  (msg = "Path not provided in the directive" /\ (forall a, ~ In ("path", a) args) /\ exists a, In ("method", a) args) \/
  (msg = "Method not provided in the directive" /\ (forall a, ~ In ("method", a) args) /\ exists a, In ("path", a) args) \/
  (msg = "Method and Path not provided in the directive" /\ (forall a, ~ In ("path", a) args) /\ forall a, ~ In ("method", a) args).
Proof.
  intros args msg O H. unfold read_rest in H. fold start in H. destruct (read_args_ok args start O) as [R1 R2].
  destruct (read_args args start) as [r|e] eqn:E.
  2:{ injection H as ->. exfalso. clear - E. revert E. generalize start. induction args as [|[k v] args IH]; intros r E; [discriminate|]. cbn [read_args] in E.
      destruct (String.eqb k "path"); [destruct v; try discriminate; eauto|]. destruct (String.eqb k "method"); [destruct v as [w|w|w|w|]; try discriminate; destruct (smem _ _); try discriminate; eauto|].
      destruct (String.eqb k "query"); [destruct v; eauto|]. destruct (String.eqb k "body"); [destruct v; eauto|]. eauto. }
  pose proof (R2 r eq_refl) as R. specialize (R1 R). injection R1 as ->. cbn [r_path r_method r_query r_body start] in H. destruct R as [A B].
  unfold method_given, path_given in H.
  assert (NN : forall k, aget k args = None -> forall a, ~ In (k, a) args) by (intros k N a I; apply (once_aget _ _ _ O) in I; congruence).
  destruct (aget "method" args) as [mm|] eqn:EM.
  - pose proof (aget_In _ _ _ EM) as IM. destruct (B mm IM) as (n & -> & _). destruct (aget "path" args) as [pp|] eqn:EP.
    + apply aget_In in EP. destruct (A pp EP) as (p & ->). discriminate H.
    + injection H as <-. left. eauto.
  - destruct (aget "path" args) as [pp|] eqn:EP.
    + pose proof (aget_In _ _ _ EP) as IP. destruct (A pp IP) as (p & ->). injection H as <-. right. left. eauto.
    + injection H as <-. right. right. auto.
Qed.

Lemma first_iff : forall l args, aget "rest" l = Some args <-> first_rest l args.
Proof.
  induction l as [|[n a] l IH]; intros args; cbn [aget]; [split; [discriminate|inversion 1]|]. destruct (String.eqb_spec "rest" n) as [<- |N].
  - split; [intros [= ->]; constructor|]. inversion 1; subst; [reflexivity|contradiction].
  - rewrite IH. split; [intros H; constructor; [congruence|exact H]|]. inversion 1; subst; [contradiction|assumption].
Qed.
Lemma without_iff : forall l, aget "rest" l = None <-> without_rest l.
Proof.
  intros l. split.
  - intros N args I. induction l as [|[n a] l IH]; [destruct I|]. cbn [aget] in N. destruct (String.eqb_spec "rest" n) as [<- |D]; [discriminate|]. destruct I as [[= -> ->]|I]; [now destruct D|auto].
  - intros N. destruct (aget "rest" l) as [a|] eqn:E; [|reflexivity]. apply aget_In in E. now apply N in E.
Qed.
Lemma try_new_iff : forall ops es, try_new ops = Ok es <-> endpoints ops es.
Proof.
  induction ops as [|op ops IH]; intros es; cbn [try_new].
  - split; [intros [= <-]; constructor|now inversion 1].
  - destruct (aget "rest" (p_directives op)) as [args|] eqn:R.
    + pose proof (proj1 (first_iff _ _) R) as F. split.
      * destruct (read_rest args) as [[[[p m] q] b]|e] eqn:RR; [|discriminate]. destruct (make_endpoint _ m p q b) as [e|e] eqn:M; [|discriminate]. destruct (try_new ops) as [es'|e']; [|discriminate]. intros [= <-].
        eapply ends_rest; eauto. now apply IH.
      * inversion 1 as [|? ? ? W|? ? es' args' p m q b e F' RR M E]; subst.
        -- apply without_iff in W. congruence.
        -- apply first_iff in F'. rewrite R in F'. injection F' as <-. rewrite RR, M. apply IH in E. now rewrite E.
    + apply without_iff in R as W. rewrite IH. split; [intros E; now apply ends_other|]. inversion 1 as [| |? ? es' args' p m q b e F']; subst; [assumption|]. apply first_iff in F'. congruence.
Qed.
Lemma endpoints_permuted : forall ops ops', Permutation ops ops' -> forall es, endpoints ops es -> exists es', endpoints ops' es' /\ Permutation es es'.
Proof.
  induction 1 as [|op ops ops' _ IH|x y l|a b c _ IH1 _ IH2]; intros es E.
  - exists es. auto.
  - inversion E as [|? ? ? W E'|? ? es0 args p m q b e F RR M E']; subst; destruct (IH _ E') as (es' & A & B).
    + exists es'. split; [now apply ends_other|exact B].
    + eexists. split; [eapply ends_rest; eauto|]. now constructor.
  - inversion E as [|? ? ? W E'|? ? es0 args p m q b e F RR M E']; subst; inversion E' as [|? ? ? W2 E2|? ? es2 args2 p2 m2 q2 b2 e2 F2 RR2 M2 E2]; subst.
    + exists es. split; [apply ends_other; [assumption|now apply ends_other]|reflexivity].
    + eexists. split; [eapply ends_rest; [eassumption|eassumption|eassumption|apply ends_other; eassumption]|reflexivity].
    + eexists. split; [apply ends_other; [assumption|]; eapply ends_rest; eassumption|reflexivity].
    + eexists. split; [eapply ends_rest; [eassumption|eassumption|eassumption|eapply ends_rest; eassumption]|constructor].
  - destruct (IH1 _ E) as (e1 & A1 & B1). destruct (IH2 _ A1) as (e2 & A2 & B2). exists e2. split; [exact A2|]. now transitivity e1.
Qed.
Section Serve.
  Variable parse_f64 : string -> option value.
  Notation answers := (answers parse_f64).
  Notation fits := (fun n r => match_endpoint parse_f64 (n_endpoint n) r).
  Lemma answers_none : forall es r, answers es r = None <-> forall n, In n es -> fits n r = None.
  Proof.
    induction es as [|n es IH]; intros r; cbn [RdModel.answers]; [split; [intros _ n []|reflexivity]|]. destruct (fits n r) eqn:F.
    - split; [discriminate|]. intros H. specialize (H n (or_introl eq_refl)). cbn in H. congruence.
    - rewrite IH. split; [intros H m [<- |I]; auto|intros H m I; apply H; now right].
  Qed.
  Lemma answers_only : forall es r n vars, unambiguous parse_f64 es r -> In n es -> fits n r = Some vars -> answers es r = Some (p_name (n_operation n), vars).
  Proof.
    induction es as [|x es IH]; intros r n vars U I F; [destruct I|]. cbn [RdModel.answers]. destruct I as [-> |I]; [now rewrite F|].
    destruct (in_split _ _ I) as (b & c & E). destruct (U [] b c x n) as [X|X]; [now rewrite E|rewrite X|congruence].
    apply IH; auto. intros a b' c' y z E'. apply (U (x :: a) b' c' y z). now rewrite E'.
  Qed.
  Lemma unambiguous_permuted : forall es es' r, Permutation es es' -> unambiguous parse_f64 es r -> unambiguous parse_f64 es' r.
  Proof.
    intros es es' r P U a b c x y E. destruct (fits x r) as [vx|] eqn:X; [|now left]. destruct (fits y r) as [vy|] eqn:Y; [|now right]. exfalso.
    assert (I : In x es) by (eapply Permutation_in; [symmetry; exact P|]; rewrite E; apply in_elt).
    destruct (in_split _ _ I) as (l1 & l2 & E1).
    assert (P2 : Permutation (l1 ++ l2) (a ++ b ++ y :: c)).
    { apply Permutation_app_inv with x. now rewrite <- E1, <- E. }
    assert (J : In y (l1 ++ l2)) by (eapply Permutation_in; [symmetry; exact P2|]; apply in_app_iff; right; apply in_elt).
    apply in_app_iff in J as [J|J]; destruct (in_split _ _ J) as (m1 & m2 & E2); subst.
    - destruct (U m1 m2 l2 y x) as [Z|Z]; [now rewrite <- app_assoc|congruence|congruence].
    - destruct (U l1 m1 m2 x y) as [Z|Z]; [reflexivity|congruence|congruence].
  Qed.
  Lemma answers_permuted : forall es es' r, Permutation es es' -> unambiguous parse_f64 es r -> answers es r = answers es' r.
  Proof.
    intros es es' r P U. destruct (answers es r) as [a|] eqn:A.
    - assert (X : exists n vars, In n es /\ fits n r = Some vars /\ a = (p_name (n_operation n), vars)).
      { clear U P. revert A. induction es as [|x es IH]; cbn [RdModel.answers]; [discriminate|]. destruct (fits x r) as [vars|] eqn:F.
        - intros [= <-]. exists x, vars. split; [now left|auto].
        - intros A. destruct (IH A) as (n & vars & I & H). exists n, vars. split; [now right|exact H]. }
      destruct X as (n & vars & I & F & ->). symmetry. apply answers_only; [eapply unambiguous_permuted; eauto|eapply Permutation_in; eauto|exact F].
    - symmetry. apply answers_none. intros n I. apply (proj1 (answers_none es r) A). eapply Permutation_in; [symmetry; exact P|exact I].
  Qed.
End Serve.
Lemma default_given : forall segs vars k, aget k (default_variables segs vars) <> None <-> (exists v, In (Param v) segs /\ v_name v = k) \/ aget k vars <> None.
Proof.
  induction segs as [|[s|p] segs IH]; intros vars k; cbn [default_variables].
  - split; [auto|]. intros [(v & [] & _)|H]; exact H.
  - rewrite IH. split; (intros [(v & I & E)|H]; [left; exists v; split; [|exact E]|now right]); [now right|]. destruct I as [[=]|I]; exact I.
  - rewrite IH, aget_aset. split.
    + intros [(v & I & E)|H]; [left; exists v; split; [now right|exact E]|]. destruct (String.eqb_spec k (v_name p)) as [K|N]; [left; exists p; split; [now left|now symmetry]|now right].
    + intros [(v & [[= ->]|I] & E)|H]; [right; rewrite E, String.eqb_refl; discriminate|left; eauto|]. right. destruct (String.eqb k (v_name p)); [discriminate|exact H].
Qed.
Lemma default_typed : forall segs vars k x, aget k (default_variables segs vars) = Some x -> (exists v, In (Param v) segs /\ v_name v = k /\ of_type (v_type v) x) \/ aget k vars = Some x.
Proof.
  induction segs as [|[s|p] segs IH]; intros vars k x; cbn [default_variables]; [auto| |]; intros H; apply IH in H.
  - destruct H as [(v & I & H)|H]; [left; exists v; split; [now right|exact H]|now right].
  - destruct H as [(v & I & H)|H]; [left; exists v; split; [now right|exact H]|]. rewrite aget_aset in H. destruct (String.eqb_spec k (v_name p)) as [-> |N]; [|now right].
    injection H as <-. left. exists p. split; [now left|]. split; [reflexivity|]. destruct (v_type p); constructor.
Qed.
Lemma forall_in_iff : forall (A : Type) (l : list A) (P Q : A -> Prop), (forall x, P x <-> Q x) -> ((forall x, In x l -> P x) <-> (forall x, In x l -> Q x)).
Proof. intros A l P Q H. split; intros K x I; apply H, K, I. Qed.
