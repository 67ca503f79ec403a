(** Proofs about linked files. *)
From Coq Require Import String Ascii ZArith NArith Arith Bool Lia List.
From Verif Require Import Base BaseFacts StringFacts LinksModel LinksSpec.
Import ListNotations.
Open Scope list_scope.
Open Scope string_scope.

(** * Paths *)

Lemma prefix_text p s : prefix p s = true <-> exists t, s = p ++ t.
Proof.
  revert s. induction p as [|c p IH]; intros s.
  - split; [intros _; now exists s|intros _; now destruct s].
  - destruct s as [|d s]; [split; [discriminate|intros (t & E); discriminate]|].
    change (prefix (String c p) (String d s)) with (if ascii_dec c d then prefix p s else false). destruct (ascii_dec c d) as [->|N].
    + rewrite IH. split; intros (t & E); exists t; cbn in *; congruence.
    + split; [discriminate|]. intros (t & E). cbn in E. congruence.
Qed.
Lemma absolute_iff s : is_absolute s = true <-> Absolute s.
Proof. apply prefix_text. Qed.
Lemma web_iff s : prefix "http" s = true <-> Web s.
Proof. apply prefix_text. Qed.
Lemma ends_iff s : ends_with_slash s = true <-> exists d, s = d ++ "/".
Proof.
  induction s as [|c t IH].
  - split; [discriminate|]. intros [[|x d] D]; discriminate D.
  - cbn. destruct t as [|c' t'].
    + split.
      * intros H. apply Ascii.eqb_eq in H. subst. now exists "".
      * intros [[|x [|y d]] D]; cbn in D; [injection D as ->; reflexivity|discriminate D|discriminate D].
    + rewrite IH. split.
      * intros [d D]. exists (String c d). cbn. now rewrite <- D.
      * intros [[|x d] D]; cbn in D; [discriminate D|]. injection D as -> D. now exists d.
Qed.
Lemma below_iff dir s p : is_absolute s = false -> Below dir s p <-> p = join_path dir s.
Proof.
  intros A. unfold join_path. rewrite A. split.
  - intros [E|d E|E N].
    + subst. reflexivity.
    + destruct (String.eqb_spec dir "") as [E'|N]; [subst; destruct d; discriminate E'|].
      replace (ends_with_slash dir) with true; [reflexivity|]. symmetry. apply ends_iff. now exists d.
    + destruct (String.eqb_spec dir "") as [E'|N']; [contradiction|].
      destruct (ends_with_slash dir) eqn:Es; [|reflexivity].
      apply ends_iff in Es. destruct Es as [d D]. now apply N in D.
  - intros ->. destruct (String.eqb_spec dir "") as [E'|N']; [now constructor|].
    destruct (ends_with_slash dir) eqn:Es.
    + apply ends_iff in Es. destruct Es as [d D]. now apply below_slash with d.
    + apply below_plain; [exact N'|]. intros d D. enough (ends_with_slash dir = true) by congruence. apply ends_iff. now exists d.
Qed.
Definition dir_text (dir : option string) : string := match dir with Some d => d | None => "" end.
Lemma located_iff url dir src p : Located url (dir_text dir) src p <-> p = resolve_path url src dir.
Proof.
  unfold resolve_path. split.
  - intros [u U|U A|q U A Q].
    + now rewrite U.
    + rewrite U. apply absolute_iff in A. now rewrite A.
    + rewrite U. destruct (is_absolute src) eqn:E; [apply absolute_iff in E; contradiction|]. now apply below_iff in Q.
  - intros ->. destruct (url src) as [u|] eqn:U; [now constructor|].
    destruct (is_absolute src) eqn:E.
    + apply absolute_iff in E. now constructor.
    + apply loc_relative; [exact U| |now apply below_iff]. intros A. apply absolute_iff in A. congruence.
Qed.

(** * Proto files *)
Open Scope list_scope.

Lemma NoDup_snoc {A} (l : list A) x : NoDup l -> ~ In x l -> NoDup (l ++ [x]).
Proof.
  intros N X. apply NoDup_Add with (a := x) (l := l); [|now split].
  rewrite <- (app_nil_r l) at 1. apply Add_app.
Qed.

Section ProtoProofs.
  Context {B : Type}.
  Variable resolve : string -> option (pfile B).
  Hypothesis named_by_import : forall i p, resolve i = Some p -> f_name p = i.

  Lemma resolve_all_spec l ps : resolve_all resolve l = Some ps <-> Forall2 (fun i p => resolve i = Some p) l ps.
  Proof.
    revert ps. induction l as [|i l IH]; intros ps; cbn.
    - split; [intros H; injection H as <-; constructor|intros H; inversion H; reflexivity].
    - destruct (resolve i) as [p|] eqn:R.
      + destruct (resolve_all resolve l) as [qs|] eqn:Q.
        * split; intros H.
          -- injection H as <-. constructor; [exact R|now apply IH].
          -- inversion H as [|x y l1 l2 H1 H2]; subst. rewrite R in H1. injection H1 as <-. apply IH in H2. injection H2 as <-. reflexivity.
        * split; [discriminate|]. intros H. inversion H as [|x y l1 l2 H1 H2]; subst. apply IH in H2. discriminate H2.
      + split; [discriminate|]. intros H. inversion H as [|x y l1 l2 H1 H2]; subst. congruence.
  Qed.
  Lemma resolve_all_none l : resolve_all resolve l = None <-> exists i, In i l /\ resolve i = None.
  Proof.
    induction l as [|i l IH]; cbn.
    - split; [discriminate|intros (i & [] & _)].
    - destruct (resolve i) as [p|] eqn:R.
      + destruct (resolve_all resolve l) as [qs|] eqn:Q.
        * split; [discriminate|]. intros (j & [-> | J] & N); [congruence|]. destruct IH as [_ IH]. enough (Some qs = None) by discriminate. apply IH. now exists j.
        * split; [|reflexivity]. intros _. destruct IH as [IH _]. destruct (IH eq_refl) as (j & J & N). exists j. auto.
      + split; [|reflexivity]. intros _. exists i. auto.
  Qed.

  (** The root and the known files are those done and those in the queue, and the imports of
      those done are known. *)
  Definition Inv (root : pfile B) (done queue : list (pfile B)) (known : list (string * pfile B)) : Prop :=
    NoDup (akeys known) /\
    (forall n p, In (n, p) known -> resolve n = Some p /\ Reached (fun i p => resolve i = Some p) root n) /\
    (forall p, p = root \/ (exists n, In (n, p) known) <-> In p (done ++ queue)) /\
    (forall p, In p done -> forall i, In i (f_imports p) -> In i (akeys known)).

  Lemma take_keys (ps queue : list (pfile B)) (known : list (string * pfile B)) : exists new,
    (forall p, In p new -> In p ps) /\
    fst (fold_left take_import ps (queue, known)) = queue ++ new /\
    snd (fold_left take_import ps (queue, known)) = known ++ map (fun p => (f_name p, p)) new /\
    (NoDup (akeys known) -> NoDup (akeys (known ++ map (fun p => (f_name p, p)) new))) /\
    (forall p, In p ps -> In (f_name p) (akeys (known ++ map (fun p => (f_name p, p)) new))).
  Proof.
    revert queue known. induction ps as [|p ps IH]; intros queue known; cbn [fold_left].
    - exists []. cbn. rewrite !app_nil_r. repeat split; auto. contradiction.
    - cbn [take_import]. destruct (smem (f_name p) (akeys known)) eqn:M.
      + destruct (IH queue known) as (new & H1 & H2 & H3 & H4 & H5). exists new. repeat split; auto.
        * intros q Q. right. auto.
        * intros q [<- | Q]; [|now apply H5]. rewrite akeys_app. apply in_or_app. left. now apply smem_In.
      + destruct (IH (queue ++ [p]) (known ++ [(f_name p, p)])) as (new & H1 & H2 & H3 & H4 & H5). exists (p :: new).
        rewrite <- !app_assoc in H2, H3. rewrite <- !app_assoc in H4. rewrite <- app_assoc in H5. cbn [app map] in *.
        repeat split; auto.
        * intros q [<- | Q]; [now left|right; auto].
        * intros ND. apply H4. rewrite akeys_app. apply NoDup_snoc; [exact ND|]. now apply smem_false.
        * intros q [<- | Q]; [|now apply H5]. rewrite akeys_app. apply in_or_app. right. now left.
  Qed.

  Definition p_reached (root f : pfile B) : Prop := f = root \/ exists m, Reached (fun i p => resolve i = Some p) root m /\ resolve m = Some f.
  Lemma inv_step root done f rest known ps :
    Inv root done (f :: rest) known -> resolve_all resolve (f_imports f) = Some ps ->
    Inv root (done ++ [f]) (fst (fold_left take_import ps (rest, known))) (snd (fold_left take_import ps (rest, known))) /\
    exists new, fst (fold_left take_import ps (rest, known)) = rest ++ new /\
      List.length (snd (fold_left take_import ps (rest, known))) = List.length known + List.length new.
  Proof.
    intros (I1 & I2 & I3 & I4) R. apply resolve_all_spec in R.
    destruct (take_keys ps rest known) as (new & H1 & H2 & H3 & H4 & H5). rewrite H2, H3.
    assert (RF : p_reached root f).
    { unfold p_reached. destruct (I3 f) as [_ H]. destruct H as [-> | [n H]]; [apply in_or_app; right; now left|now left|].
      right. exists n. apply I2 in H. tauto. }
    assert (PS : forall p, In p ps -> resolve (f_name p) = Some p /\ In (f_name p) (f_imports f)).
    { clear -R named_by_import. induction R as [|i p l ps' E R IH]; [contradiction|]. intros q [<- | Q].
      - rewrite (named_by_import _ _ E). split; [exact E|now left].
      - destruct (IH q Q). split; [assumption|now right]. }
    split; [split; [now apply H4|split; [|split]]|].
    - intros n p N. apply in_app_or in N. destruct N as [N|N]; [now apply I2|].
      apply in_map_iff in N. destruct N as (q & Q & Qn). injection Q as <- <-. apply H1, PS in Qn. destruct Qn as [Q1 Q2].
      split; [exact Q1|]. destruct RF as [-> | (m & M1 & M2)]; [now constructor|]. now apply reached_on with m f.
    - intros p. rewrite <- app_assoc. cbn [app]. split.
      + intros [-> | [n N]].
        * assert (X : In root (done ++ f :: rest)) by (apply I3; now left).
          apply in_app_or in X. apply in_or_app. destruct X as [X|[X|X]]; [now left|right; now left|right; right; apply in_or_app; now left].
        * apply in_app_or in N. destruct N as [N|N].
          -- assert (X : In p (done ++ f :: rest)) by (apply I3; right; now exists n).
             apply in_app_or in X. apply in_or_app. destruct X as [X|[X|X]]; [now left|right; now left|right; right; apply in_or_app; now left].
          -- apply in_map_iff in N. destruct N as (q & Q & Qn). injection Q as <- <-. apply in_or_app. right. right. apply in_or_app. now right.
      + intros X. apply in_app_or in X.
        assert (Y : In p (done ++ f :: rest) \/ In p new).
        { destruct X as [X|[X|X]]; [left; apply in_or_app; now left|left; apply in_or_app; right; now left|].
          apply in_app_or in X. destruct X as [X|X]; [left; apply in_or_app; right; now right|now right]. }
        destruct Y as [Y|Y].
        * apply I3 in Y. destruct Y as [-> | [n N]]; [now left|right; exists n; apply in_or_app; now left].
        * right. exists (f_name p). apply in_or_app. right. apply in_map_iff. now exists p.
    - intros p P i Ii. rewrite akeys_app. apply in_app_or in P. destruct P as [P|[<- |[]]].
      + apply in_or_app. left. now apply (I4 p).
      + rewrite <- akeys_app.
        assert (X : exists q, In q ps /\ f_name q = i).
        { clear -R Ii named_by_import. induction R as [|j q l ps' E R IH]; [contradiction|]. destruct Ii as [-> | Ii].
          - exists q. split; [now left|now apply named_by_import].
          - destruct (IH Ii) as (r & R1 & R2). exists r. split; [now right|exact R2]. }
        destruct X as (q & Q & <-). now apply H5.
    - exists new. split; [reflexivity|]. now rewrite app_length, map_length.
  Qed.

  Lemma inv_done root done known : Inv root done [] known -> forall i, Reached (fun i p => resolve i = Some p) root i -> In i (akeys known).
  Proof.
    intros (I1 & I2 & I3 & I4) i R.
    induction R as [i I|j p i R IH E I].
    - apply (I4 root); [|exact I]. rewrite <- (app_nil_r done). apply I3. now left.
    - apply (I4 p); [|exact I]. rewrite <- (app_nil_r done). apply I3. right. exists j.
      apply In_akeys_aget in IH. destruct IH as [q Q]. apply aget_In in Q. destruct (I2 _ _ Q) as [E' _]. congruence.
  Qed.

  Lemma queue_sound fuel root done queue known :
    Inv root done queue known ->
    match resolve_queue fuel resolve queue known with
    | Found l => NoDup (akeys l) /\ forall n p, In (n, p) l <-> Reached (fun i p => resolve i = Some p) root n /\ resolve n = Some p
    | Failed => exists i, Reached (fun i p => resolve i = Some p) root i /\ resolve i = None
    | Unfinished => True
    end /\ (forall i, match resolve_queue fuel resolve queue known with Found _ => Reached (fun i p => resolve i = Some p) root i -> resolve i <> None | _ => True end).
  Proof.
    revert done queue known. induction fuel as [|n IH]; intros done queue known I; destruct queue as [|f rest]; cbn [resolve_queue]; try (split; auto; fail).
    1, 2: split; [split; [apply I|]|].
    1, 3: intros m p; split; [intros M; split; apply I in M; tauto|intros [R E]; apply (inv_done _ _ _ I) in R; apply In_akeys_aget in R; destruct R as [q Q]; apply aget_In in Q; pose proof Q as Q'; apply I in Q'; destruct Q' as [E' _]; congruence].
    1, 2: intros i R; apply (inv_done _ _ _ I) in R; apply In_akeys_aget in R; destruct R as [q Q]; apply aget_In in Q; apply I in Q; destruct Q as [E' _]; congruence.
    destruct (resolve_all resolve (f_imports f)) as [ps|] eqn:R.
    - destruct (inv_step _ _ _ _ _ _ I R) as [I' _].
      destruct (fold_left take_import ps (rest, known)) as [queue' known']. apply (IH _ _ _ I').
    - split; [|trivial]. apply resolve_all_none in R. destruct R as (i & Ii & N). exists i. split; [|exact N].
      destruct I as (I1 & I2 & I3 & I4). destruct (I3 f) as [_ H]. destruct H as [-> | [m M]]; [apply in_or_app; right; now left|now constructor|].
      apply I2 in M. apply reached_on with m f; tauto.
  Qed.

  Lemma queue_ends names fuel root done queue known :
    Inv root done queue known -> (forall i, Reached (fun i p => resolve i = Some p) root i -> In i names) ->
    List.length names + List.length queue <= fuel + List.length known ->
    resolve_queue fuel resolve queue known <> Unfinished.
  Proof.
    revert done queue known. induction fuel as [|n IH]; intros done queue known I N L; destruct queue as [|f rest]; cbn [resolve_queue]; try discriminate.
    - exfalso. cbn in L. assert (List.length (akeys known) <= List.length names).
      { apply NoDup_incl_length; [apply I|]. intros k K. apply N. apply In_akeys_aget in K. destruct K as [v V]. apply aget_In, I in V. tauto. }
      unfold akeys in H. rewrite map_length in H. lia.
    - destruct (resolve_all resolve (f_imports f)) as [ps|] eqn:R; [|discriminate].
      destruct (inv_step _ _ _ _ _ _ I R) as [I' (new & E1 & E2)].
      destruct (fold_left take_import ps (rest, known)) as [queue' known'] eqn:F. cbn [fst snd] in *.
      apply (IH _ _ _ I' N). subst queue'. rewrite app_length. cbn in L. rewrite E2. lia.
  Qed.

  Lemma inv_start root : Inv root [] [root] [].
  Proof.
    split; [constructor|split; [contradiction|split; [|contradiction]]].
    intros p. cbn. split; [intros [-> | [n []]]; auto|intros [-> |[]]; auto].
  Qed.

  Lemma dependencies_exact fuel root l :
    resolve_dependencies fuel resolve root = Some (Some l) ->
    exists deps, l = deps ++ [root] /\ NoDup (map f_name deps) /\
      (forall p, In p deps <-> exists i, Reached (fun i p => resolve i = Some p) root i /\ resolve i = Some p) /\
      (forall i, Reached (fun i p => resolve i = Some p) root i -> exists p, resolve i = Some p /\ In p deps).
  Proof.
    unfold resolve_dependencies. pose proof (queue_sound fuel root [] [root] [] (inv_start root)) as [S1 S2].
    destruct (resolve_queue fuel resolve [root] []) as [known| |]; try discriminate. intros H. injection H as <-.
    destruct S1 as [ND KN]. exists (map snd known). split; [reflexivity|].
    assert (NM : map f_name (map snd known) = akeys known).
    { unfold akeys. rewrite map_map. apply map_ext_in. intros [n p] P. cbn. apply KN in P. now apply named_by_import. }
    rewrite NM. split; [exact ND|].
    assert (X : forall p, In p (map snd known) <-> exists i, Reached (fun i p => resolve i = Some p) root i /\ resolve i = Some p).
    { intros p. rewrite in_map_iff. split.
      - intros ([n q] & Q & P). cbn in Q. subst. exists n. now apply KN.
      - intros (i & R & E). exists (i, p). split; [reflexivity|]. apply KN. now split. }
    split; [exact X|]. intros i R. destruct (resolve i) as [p|] eqn:E; [|now apply S2 in R].
    exists p. split; [reflexivity|]. apply X. exists i. now split.
  Qed.
  Lemma dependencies_fail fuel root :
    resolve_dependencies fuel resolve root = Some None -> exists i, Reached (fun i p => resolve i = Some p) root i /\ resolve i = None.
  Proof.
    unfold resolve_dependencies. pose proof (queue_sound fuel root [] [root] [] (inv_start root)) as [S1 S2].
    destruct (resolve_queue fuel resolve [root] []); try discriminate. intros _. exact S1.
  Qed.
  Lemma dependencies_end names root :
    (forall i, Reached (fun i p => resolve i = Some p) root i -> In i names) -> resolve_dependencies (S (List.length names)) resolve root <> None.
  Proof.
    intros N. unfold resolve_dependencies.
    pose proof (queue_ends names (S (List.length names)) root [] [root] [] (inv_start root) N) as Q.
    destruct (resolve_queue (S (List.length names)) resolve [root] []); try discriminate. exfalso. apply Q; [cbn; lia|reflexivity].
  Qed.
End ProtoProofs.

Lemma proto_path_iff exists_file dir src paths q :
  ImportAt exists_file dir src (match paths with Some l => l | None => [] end) q <-> q = proto_path exists_file src (Some dir) paths.
Proof.
  unfold proto_path. destruct (prefix "http" src) eqn:W.
  - apply web_iff in W. split; [intros I; now inversion I|intros ->; now constructor].
  - assert (NW : ~ Web src) by (intros X; apply web_iff in X; congruence).
    destruct (is_absolute src) eqn:A.
    + apply absolute_iff in A. split; [intros I; inversion I; subst; auto; contradiction|intros ->; now constructor].
    + assert (NA : ~ Absolute src) by (intros X; apply absolute_iff in X; congruence).
      set (l := match paths with Some l => l | None => [] end). clearbody l.
      assert (J : forall p r, Below p src r <-> r = join_path p src) by (intros p r; now apply below_iff).
      destruct (find exists_file (map (fun p => join_path p src) l)) as [r|] eqn:F.
      * assert (FF : exists a p b, l = a ++ p :: b /\ r = join_path p src /\ exists_file r = true /\ forall p', In p' a -> exists_file (join_path p' src) = false).
        { clear J. induction l as [|p l IH]; [discriminate F|]. cbn in F. destruct (exists_file (join_path p src)) eqn:E.
          - injection F as <-. exists [], p, l. repeat split; auto. intros p' [].
          - destruct (IH F) as (a & p' & b & -> & H1 & H2 & H3). exists (p :: a), p', b. repeat split; auto. intros x [<- | X]; auto. }
        destruct FF as (a & p & b & L & R & E & N). split.
        -- intros I. inversion I as [W'|A'|before p' after q' _ _ L' B' E' N'|q' _ _ N' B']; subst; try contradiction.
           ++ apply J in B'. subst q. 
              assert (X : forall (a a' b b' : list string) p p', a ++ p :: b = a' ++ p' :: b' -> exists_file (join_path p src) = true -> exists_file (join_path p' src) = true ->
                (forall x, In x a -> exists_file (join_path x src) = false) -> (forall x, In x a' -> exists_file (join_path x src) = false) -> p = p').
              { clear. induction a as [|x a IH]; intros [|y a'] b b' p p' L E E' N N'; cbn in L; injection L as L1 L2.
                - exact L1.
                - subst. rewrite N' in E; [discriminate|now left].
                - subst. rewrite N in E'; [discriminate|now left].
                - apply (IH a' b b' p p' L2 E E'); intros z Z; [apply N|apply N']; now right. }
              rewrite (X a before b after p p'); auto. intros x Hx. apply (N' x); [exact Hx|now apply J].
           ++ rewrite (N' p (join_path p src)) in E; [discriminate|apply in_or_app; right; now left|now apply J].
        -- intros ->. apply at_path with a p b; auto; [now apply J|]. intros p' q' P' B'. apply J in B'. subst. now apply N.
      * assert (N : forall p, In p l -> exists_file (join_path p src) = false).
        { intros p P. apply (find_none _ _ F). apply in_map_iff. now exists p. }
        split.
        -- intros I. inversion I as [W'|A'|before p' after q' _ _ L' B' E' N'|q' _ _ N' B']; subst; try contradiction.
           ++ apply J in B'. subst. rewrite N in E'; [discriminate|apply in_or_app; right; now left].
           ++ now apply J.
        -- intros ->. apply at_root; auto; [|now apply J]. intros p' q' P' B'. apply J in B'. subst. now apply N.
Qed.

Section ReadProto.
  Context {B : Type}.
  Variable google file : string -> option string.
  Variable exists_file : string -> bool.
  Variable parse_proto : string -> option (option string * list string * B).
  Lemma read_proto_iff src dir paths p :
    read_proto google file exists_file parse_proto src (Some dir) paths = Some p <->
    Imported google file exists_file parse_proto dir (match paths with Some l => l | None => [] end) src p.
  Proof.
    unfold read_proto. destruct (google src) as [t|] eqn:G.
    - destruct (parse_proto t) as [[[pk im] b]|] eqn:P.
      + split; [intros H; injection H as <-; now apply imported_google with t|]. intros I. inversion I as [t' pk' im' b' G' P'|]; subst; [|congruence].
        rewrite G in G'. injection G' as <-. rewrite P in P'. now injection P' as <- <- <-.
      + split; [discriminate|]. intros I. inversion I; congruence.
    - destruct (file (proto_path exists_file src (Some dir) paths)) as [t|] eqn:F.
      + destruct (parse_proto t) as [[[pk im] b]|] eqn:P.
        * split.
          -- intros H; injection H as <-. apply imported_file with (proto_path exists_file src (Some dir) paths) t; auto. now apply proto_path_iff.
          -- intros I. inversion I as [|q t' pk' im' b' G' A' F' P']; subst; [congruence|]. apply proto_path_iff in A'. subst. rewrite F in F'. injection F' as <-. rewrite P in P'. now injection P' as <- <- <-.
        * split; [discriminate|]. intros I. inversion I as [|q t' pk' im' b' G' A' F' P']; subst; [congruence|]. apply proto_path_iff in A'. subst. congruence.
      + split; [discriminate|]. intros I. inversion I as [|q t' pk' im' b' G' A' F' P']; subst; [congruence|]. apply proto_path_iff in A'. subst. congruence.
  Qed.
  Lemma read_proto_name src dir paths p : read_proto google file exists_file parse_proto src dir paths = Some p -> f_name p = src.
  Proof.
    unfold read_proto. destruct (match google src with Some t => Some t | None => _ end) as [t|]; [|discriminate].
    destruct (parse_proto t) as [[[pk im] b]|]; [|discriminate]. intros H. now injection H as <-.
  Qed.
End ReadProto.

Lemma parent_of_none s : parent_of s = None <-> forall a b, s <> (a ++ "/" ++ b)%string.
Proof.
  induction s as [|c t IH]; cbn.
  - split; [intros _ [|x a] b; discriminate|reflexivity].
  - destruct (parent_of t) as [d|] eqn:P.
    + split; [discriminate|]. intros H. exfalso.
      enough (Some d = None) by discriminate. apply IH. intros a b E. apply (H (String c a) b). cbn. now rewrite E.
    + destruct (Ascii.eqb_spec c "/") as [->|N].
      * split; [discriminate|]. intros H. exfalso. now apply (H ""%string t).
      * split; [|reflexivity]. intros _ [|x a] b E; cbn in E; injection E as E1 E2; [contradiction|]. now apply (proj1 IH eq_refl a b).
Qed.
Lemma parent_of_some s d : parent_of s = Some d <-> exists b, s = (d ++ "/" ++ b)%string /\ forall x y, b <> (x ++ "/" ++ y)%string.
Proof.
  revert d. induction s as [|c t IH]; intros d; cbn.
  - split; [discriminate|]. intros ([|b] & E & _); destruct d; discriminate E.
  - destruct (parent_of t) as [e|] eqn:P.
    + split.
      * intros H. injection H as <-. destruct (proj1 (IH e) eq_refl) as (b & -> & N). exists b. split; [reflexivity|exact N].
      * intros (b & E & N). destruct d as [|x d]; cbn in E; injection E as -> E.
        -- exfalso. subst. destruct (proj1 (IH e) eq_refl) as (b' & -> & _). now apply (N e b').
        -- f_equal. f_equal. enough (Some e = Some d) by congruence. apply IH. exists b. now split.
    + pose proof (proj1 (parent_of_none t) P) as N. destruct (Ascii.eqb_spec c "/") as [->|NC].
      * split.
        -- intros H. injection H as <-. exists t. split; [reflexivity|exact N].
        -- intros (b & E & Nb). destruct d as [|x d]; [reflexivity|]. cbn in E. injection E as <- E. now apply N in E.
      * split; [discriminate|]. intros (b & E & Nb). destruct d as [|x d]; cbn in E; injection E as -> E; [contradiction|]. now apply N in E.
Qed.
Lemma parent_in_dir path : exists d, parent path = Some d /\ InDir path d.
Proof.
  unfold parent. destruct (parent_of path) as [d|] eqn:P.
  - apply parent_of_some in P. destruct P as (b & -> & N). destruct (String.eqb_spec d "") as [->|Nd].
    + cbn. exists "/"%string. split; [now destruct b|]. now apply in_root with b.
    + cbn. exists d. split; [reflexivity|]. now apply in_dir with b.
  - exists ""%string. split; [reflexivity|]. constructor. now apply parent_of_none.
Qed.
Lemma in_dir_unique path d e : InDir path d -> InDir path e -> d = e.
Proof.
  assert (X : forall d b, path = (d ++ "/" ++ b)%string -> (forall x y, b <> (x ++ "/" ++ y)%string) -> parent_of path = Some d).
  { intros d' b E N. apply parent_of_some. now exists b. }
  intros [N|b E N|d1 b Nd E N] H; inversion H as [N'|b' E' N'|d' b' Nd' E' N']; subst; try reflexivity.
  - exfalso. now apply (N ""%string b').
  - exfalso. now apply (N e b').
  - exfalso. now apply (N' ""%string b).
  - exfalso. pose proof (X ""%string b eq_refl N) as X1. pose proof (X e b' E' N') as X2. congruence.
  - exfalso. now apply (N' d1 b).
  - pose proof (X ""%string b' E' N') as X1. pose proof (X d1 b eq_refl N) as X2. congruence.
  - pose proof (X e b' E' N') as X1. pose proof (X d1 b eq_refl N) as X2. congruence.
Qed.

Lemma reached_ext {B} (r r' : string -> pfile B -> Prop) root i : (forall j p, r j p -> r' j p) -> Reached r root i -> Reached r' root i.
Proof.
  intros E R. induction R as [i I|j p i R IH P I]; [now constructor|]. apply reached_on with j p; auto.
Qed.

(** * Links *)

Lemma forall2_snoc {A C} (R : A -> C -> Prop) l r a b : Forall2 R l r -> R a b -> Forall2 R (l ++ [a]) (r ++ [b]).
Proof. intros F H. apply Forall2_app; [exact F|]. constructor; [exact H|constructor]. Qed.
Lemma of_kind_snoc k ls l : l_src l <> ""%string -> of_kind k (ls ++ [l]) = if is_kind k (l_kind l) then of_kind k ls ++ [l] else of_kind k ls.
Proof.
  intros N. unfold of_kind, named. rewrite !filter_app. cbn. destruct (string_dec (l_src l) ""); [contradiction|]. cbn.
  destruct (is_kind k (l_kind l)); [reflexivity|now rewrite app_nil_r].
Qed.
Lemma named_snoc ls l : l_src l <> ""%string -> named (ls ++ [l]) = named ls ++ [l].
Proof. intros N. unfold named. rewrite filter_app. cbn. now destruct (string_dec (l_src l) ""). Qed.
Lemma merged_snoc {C} (unify : C -> C -> option C) c cs d e r : MergedWith unify c cs d -> unify d e = Some r -> MergedWith unify c (cs ++ [e]) r.
Proof.
  intros M U. induction M as [c|c d' e' cs r' U' M IH]; cbn; [econstructor; [exact U|constructor]|]. econstructor; [exact U'|auto].
Qed.
Lemma merged_snoc_inv {C} (unify : C -> C -> option C) c cs e r : MergedWith unify c (cs ++ [e]) r -> exists d, MergedWith unify c cs d /\ unify d e = Some r.
Proof.
  revert c. induction cs as [|x cs IH]; intros c M; cbn in M; inversion M as [|? ? y ? ? U M' E]; subst.
  - inversion M'; subst. exists c. split; [constructor|exact U].
  - apply IH in M'. destruct M' as (d & D & U'). exists d. split; [econstructor; eauto|exact U'].
Qed.
Lemma last_named_snoc {B} (files new : list (pfile B)) m :
  (forall n, LastNamed files n (aget n m)) ->
  forall n, LastNamed (files ++ new) n (aget n (fold_left (fun m f => aset (f_name f) f m) new m)).
Proof.
  revert files m. induction new as [|f new IH]; intros files m H n; cbn [fold_left].
  - rewrite app_nil_r. apply H.
  - replace (files ++ f :: new) with ((files ++ [f]) ++ new) by now rewrite <- app_assoc.
    apply IH. clear n. intros n. rewrite aget_aset. destruct (String.eqb_spec n (f_name f)) as [->|N].
    + cbn. split; [reflexivity|]. exists files, []. split; [reflexivity|intros g []].
    + specialize (H n). destruct (aget n m) as [g|].
      * destruct H as (G & a & b & -> & L). split; [exact G|]. exists a, (b ++ [f]). rewrite <- app_assoc. split; [reflexivity|].
        intros h Hh. apply in_app_or in Hh. destruct Hh as [Hh|[<- |[]]]; auto.
      * intros g G. apply in_app_or in G. destruct G as [G|[<- |[]]]; auto.
Qed.
Lemma last_named_unique {B} (files : list (pfile B)) n r r' : LastNamed files n r -> LastNamed files n r' -> r = r'.
Proof.
  destruct r as [f|], r' as [g|]; cbn.
  - intros (F & a & b & E & L) (G & a' & b' & E' & L'). f_equal. subst files. revert a' E'. induction a as [|x a IH]; intros [|y a'] E'; cbn in E'; injection E' as E1 E2.
    + now symmetry.
    + subst. exfalso. apply (L g); [apply in_or_app; right; now left|congruence].
    + subst. exfalso. apply (L' f); [apply in_or_app; right; now left|congruence].
    + now apply (IH a').
  - intros (F & a & b & E & L) H. exfalso. apply (H f); [subst; apply in_or_app; right; now left|exact F].
  - intros H (F & a & b & E & L). exfalso. apply (H g); [subst; apply in_or_app; right; now left|exact F].
  - reflexivity.
Qed.

Section LinkProofs.
  Context {Cfg Cert Key Endpoint Jwks B : Type}.
  Variable links_of : Cfg -> list link.
  Variable file : string -> option string.
  Variable render : string -> string.
  Variable parse_config : string -> string -> option Cfg.
  Variable unify : Cfg -> Cfg -> option Cfg.
  Variable parse_certs : string -> option (list Cert).
  Variable parse_keys : string -> option (list Key).
  Variable parse_endpoints : string -> option (list Endpoint).
  Variable parse_jwks : string -> option Jwks.
  Variable protos : string -> option (list string) -> option (list (pfile B)).
  Variable reflect : string -> list (string * string) -> option (list (pfile B)).
  Variable url : string -> option string.
  Variable dir : option string.
  Notation ext := (@extensions Cert Key Endpoint Jwks B).
  Notation rlink := (read_link file render parse_config unify parse_certs parse_keys parse_endpoints parse_jwks protos reflect url dir).
  Notation rlinks := (read_links file render parse_config unify parse_certs parse_keys parse_endpoints parse_jwks protos reflect url dir).
  Notation text_of := (TextOf file url (dir_text dir)).
  Notation config_of := (ConfigOf file render parse_config url (dir_text dir)).
  Notation loaded := (LoadedInto file parse_certs parse_keys parse_endpoints parse_jwks protos reflect url (dir_text dir)).
  Notation loadable := (Loadable file render parse_config parse_certs parse_keys parse_endpoints parse_jwks protos reflect url (dir_text dir)).
  Notation protos_of := (ProtosOf protos reflect url (dir_text dir)).

  Lemma text_of_iff l t : text_of l t <-> file (resolve_path url (l_src l) dir) = Some t.
  Proof.
    split; [intros (p & L & F); apply located_iff in L; now subst|]. intros F. exists (resolve_path url (l_src l) dir). split; [now apply located_iff|exact F].
  Qed.
  Lemma config_of_iff l c : config_of l c <->
    exists t, file (resolve_path url (l_src l) dir) = Some t /\ parse_config (resolve_path url (l_src l) dir) (render t) = Some c.
  Proof.
    split; [intros (p & t & L & F & P); apply located_iff in L; subst; now exists t|]. intros (t & F & P).
    exists (resolve_path url (l_src l) dir), t. split; [now apply located_iff|now split].
  Qed.
  Lemma located_all l r : Forall2 (fun g f => Located url (dir_text dir) g f) l r <-> r = map (fun p => resolve_path url p dir) l.
  Proof.
    revert r. induction l as [|x l IH]; intros r.
    - split; [intros F; inversion F; reflexivity|intros ->; constructor].
    - split.
      + intros F. inversion F as [|? y ? r' H1 H2]; subst. apply located_iff in H1. apply IH in H2. subst. reflexivity.
      + intros ->. cbn. constructor; [now apply located_iff|now apply IH].
  Qed.
  Lemma protos_of_file l r : l_kind l = LProtobuf ->
    protos_of l r <-> protos (resolve_path url (l_src l) dir) (option_map (map (fun p => resolve_path url p dir)) (l_paths l)) = Some r.
  Proof.
    intros K. unfold ProtosOf. rewrite K. split.
    - intros (p & ps & L & P & R). apply located_iff in L. subst p.
      destruct (l_paths l) as [g|], ps as [f|]; try contradiction; [|exact R]. apply located_all in P. now subst.
    - intros R. exists (resolve_path url (l_src l) dir), (option_map (map (fun p => resolve_path url p dir)) (l_paths l)).
      split; [now apply located_iff|]. split; [|exact R]. destruct (l_paths l) as [g|]; [|exact I]. now apply located_all.
  Qed.

  (** One link adds what it stands for. *)
  Definition Sound (c : Cfg) (ls : list link) (s : option Cfg * ext) : Prop :=
    loaded ls (snd s) /\
    exists cs, Forall2 config_of (of_kind LConfig ls) cs /\ forall c', fst s = Some c' <-> MergedWith unify c cs c'.

  Lemma all_give_none {A} (g : link -> list A -> Prop) ls rs l : AllGive g ls rs -> g l [] -> AllGive g (ls ++ [l]) rs.
  Proof.
    intros (gs & F & ->) G. exists (gs ++ [[]]). split; [now apply forall2_snoc|]. rewrite concat_app. cbn. now rewrite app_nil_r.
  Qed.
  Lemma all_give_snoc {A} (g : link -> list A -> Prop) ls rs l new : AllGive g ls rs -> g l new -> AllGive g (ls ++ [l]) (rs ++ new).
  Proof.
    intros (gs & F & ->) G. exists (gs ++ [new]). split; [now apply forall2_snoc|]. rewrite concat_app. cbn. now rewrite app_nil_r.
  Qed.
  Lemma last_gives_snoc {A} (g : link -> A -> Prop) ls none r l : g l r -> LastGives g (ls ++ [l]) none r.
  Proof. intros G. right. now exists ls, l. Qed.

  Lemma read_link_sound c ls s l s' : l_src l <> ""%string -> Sound c ls s -> rlink s l = Some s' -> Sound c (ls ++ [l]) s'.
  Proof.
    intros N [L (cs & F & M)] R. destruct s as [cfg x]. destruct L as [L1 L2 L3 L4 L5 L6 (files & L7 & L8)]. cbn [fst snd] in *.
    assert (PN : l_kind l <> LProtobuf -> l_kind l <> LGrpc -> protos_of l []) by (intros P1 P2; unfold ProtosOf; destruct (l_kind l); congruence).
    unfold read_link in R. destruct (l_kind l) eqn:K.
    - destruct (file (resolve_path url (l_src l) dir)) as [t|] eqn:E; [|discriminate R].
      destruct (parse_config (resolve_path url (l_src l) dir) (render t)) as [d|] eqn:P; [|discriminate R]. injection R as <-.
      split.
      + split; try (rewrite of_kind_snoc by exact N; rewrite K; assumption).
        exists files. split; [|exact L8]. rewrite named_snoc by exact N. apply all_give_none; [exact L7|apply PN; discriminate].
      + exists (cs ++ [d]). split.
        * rewrite of_kind_snoc by exact N. rewrite K. cbn. apply forall2_snoc; [exact F|]. apply config_of_iff. exists t. now split.
        * intros c'. cbn. split.
          -- destruct cfg as [cfg|]; [|discriminate]. intros U. apply merged_snoc with cfg; [now apply M|exact U].
          -- intros X. apply merged_snoc_inv in X. destruct X as (e & X & U). apply M in X. subst cfg. exact U.
    - destruct (protos _ _) as [fs|] eqn:E; [|discriminate R]. injection R as <-. split.
      + split; try (rewrite of_kind_snoc by exact N; rewrite K; assumption).
        exists (files ++ fs). split; [|cbn; now apply last_named_snoc]. rewrite named_snoc by exact N. apply all_give_snoc; [exact L7|]. now apply protos_of_file.
      + exists cs. rewrite of_kind_snoc by exact N. rewrite K. now split.
    - destruct (file (resolve_path url (l_src l) dir)) as [t|] eqn:E; [|discriminate R]. injection R as <-. apply text_of_iff in E. split.
      + split; try (rewrite of_kind_snoc by exact N; rewrite K; assumption).
        * rewrite of_kind_snoc by exact N. rewrite K. cbn. apply last_gives_snoc. now exists t.
        * exists files. split; [|exact L8]. rewrite named_snoc by exact N. apply all_give_none; [exact L7|apply PN; discriminate].
      + exists cs. rewrite of_kind_snoc by exact N. rewrite K. now split.
    - destruct (file (resolve_path url (l_src l) dir)) as [t|] eqn:E; [|discriminate R]. apply text_of_iff in E.
      destruct (parse_certs t) as [v|] eqn:P; [|discriminate R]. injection R as <-. split.
      + split; try (rewrite of_kind_snoc by exact N; rewrite K; assumption).
        * rewrite of_kind_snoc by exact N. rewrite K. cbn. apply all_give_snoc; [exact L2|]. exists t. now split.
        * exists files. split; [|exact L8]. rewrite named_snoc by exact N. apply all_give_none; [exact L7|apply PN; discriminate].
      + exists cs. rewrite of_kind_snoc by exact N. rewrite K. now split.
    - destruct (file (resolve_path url (l_src l) dir)) as [t|] eqn:E; [|discriminate R]. apply text_of_iff in E.
      destruct (parse_keys t) as [v|] eqn:P; [|discriminate R]. injection R as <-. split.
      + split; try (rewrite of_kind_snoc by exact N; rewrite K; assumption).
        * rewrite of_kind_snoc by exact N. rewrite K. cbn. apply last_gives_snoc. exists t. now split.
        * exists files. split; [|exact L8]. rewrite named_snoc by exact N. apply all_give_none; [exact L7|apply PN; discriminate].
      + exists cs. rewrite of_kind_snoc by exact N. rewrite K. now split.
    - destruct (file (resolve_path url (l_src l) dir)) as [t|] eqn:E; [|discriminate R]. apply text_of_iff in E.
      destruct (parse_endpoints t) as [v|] eqn:P; [|discriminate R]. injection R as <-. split.
      + split; try (rewrite of_kind_snoc by exact N; rewrite K; assumption).
        * rewrite of_kind_snoc by exact N. rewrite K. cbn. apply last_gives_snoc. exists t. now split.
        * exists files. split; [|exact L8]. rewrite named_snoc by exact N. apply all_give_none; [exact L7|apply PN; discriminate].
      + exists cs. rewrite of_kind_snoc by exact N. rewrite K. now split.
    - destruct (file (resolve_path url (l_src l) dir)) as [t|] eqn:E; [|discriminate R]. injection R as <-. apply text_of_iff in E. split.
      + split; try (rewrite of_kind_snoc by exact N; rewrite K; assumption).
        * rewrite of_kind_snoc by exact N. rewrite K. cbn. apply forall2_snoc; [exact L5|]. now split.
        * exists files. split; [|exact L8]. rewrite named_snoc by exact N. apply all_give_none; [exact L7|apply PN; discriminate].
      + exists cs. rewrite of_kind_snoc by exact N. rewrite K. now split.
    - destruct (file (resolve_path url (l_src l) dir)) as [t|] eqn:E; [|discriminate R]. apply text_of_iff in E.
      destruct (parse_jwks t) as [v|] eqn:P; [|discriminate R]. injection R as <-. split.
      + split; try (rewrite of_kind_snoc by exact N; rewrite K; assumption).
        * rewrite of_kind_snoc by exact N. rewrite K. cbn. apply forall2_snoc; [exact L6|]. split; [reflexivity|]. now exists t.
        * exists files. split; [|exact L8]. rewrite named_snoc by exact N. apply all_give_none; [exact L7|apply PN; discriminate].
      + exists cs. rewrite of_kind_snoc by exact N. rewrite K. now split.
    - destruct (reflect _ _) as [fs|] eqn:E; [|discriminate R]. injection R as <-. split.
      + split; try (rewrite of_kind_snoc by exact N; rewrite K; assumption).
        exists (files ++ fs). split; [|cbn; now apply last_named_snoc]. rewrite named_snoc by exact N. apply all_give_snoc; [exact L7|]. unfold ProtosOf. now rewrite K.
      + exists cs. rewrite of_kind_snoc by exact N. rewrite K. now split.
  Qed.
  Lemma read_links_sound c ls : (forall l, In l ls -> l_src l <> ""%string) -> forall done s s', Sound c done s -> rlinks s ls = Some s' -> Sound c (done ++ ls) s'.
  Proof.
    induction ls as [|l ls IH]; intros N done s s' S0 R; cbn in R.
    - injection R as <-. now rewrite app_nil_r.
    - destruct (rlink s l) as [s1|] eqn:E; [|discriminate R]. replace (done ++ l :: ls) with ((done ++ [l]) ++ ls) by now rewrite <- app_assoc.
      apply IH with s1; [intros k H; apply N; now right| |exact R]. apply (read_link_sound _ _ _ _ _ (N l (or_introl eq_refl)) S0 E).
  Qed.
  Lemma named_model ls : filter (fun l => negb (String.eqb (l_src l) "")) ls = named ls.
  Proof.
    unfold named. apply filter_ext. intros l. destruct (String.eqb_spec (l_src l) ""), (string_dec (l_src l) ""); auto; contradiction.
  Qed.
  Lemma named_named ls : named (named ls) = named ls.
  Proof.
    unfold named. induction ls as [|l ls IH]; [reflexivity|]. cbn. destruct (string_dec (l_src l) "") eqn:E; [exact IH|]. cbn. now rewrite E, IH.
  Qed.
  Lemma of_kind_named k ls : of_kind k (named ls) = of_kind k ls.
  Proof. unfold of_kind. now rewrite named_named. Qed.
  Lemma loaded_named ls x : loaded (named ls) x -> loaded ls x.
  Proof.
    intros [L1 L2 L3 L4 L5 L6 L7]. rewrite !of_kind_named in *. rewrite named_named in L7. now split.
  Qed.
  Lemma sound_start c : Sound c [] (Some c, no_extensions).
  Proof.
    split.
    - split; cbn; try constructor; auto.
      + exists []. split; [constructor|reflexivity].
      + exists []. split; [exists []; split; [constructor|reflexivity]|]. intros n g [].
    - exists []. split; [constructor|]. intros c'. cbn. split; [intros E; injection E as <-; constructor|intros M; now inversion M].
  Qed.

  Notation resolved := (resolve_config links_of file render parse_config unify parse_certs parse_keys parse_endpoints parse_jwks protos reflect url dir).
  Lemma resolve_sound c c' x : resolved c = Some (c', x) ->
    loaded (links_of c) x /\ exists cs, Forall2 config_of (of_kind LConfig (links_of c)) cs /\ MergedWith unify c cs c'.
  Proof.
    unfold resolve_config. rewrite named_model. destruct (rlinks _ _) as [[[d|] y]|] eqn:R; try discriminate. intros E. injection E as -> ->.
    apply (read_links_sound c) with (done := []) in R; [|intros l L; apply filter_In in L; destruct (string_dec (l_src l) ""); [destruct L; discriminate|assumption]|apply sound_start].
    destruct R as [L (cs & F & M)]. cbn [app fst snd] in *. split; [now apply loaded_named|]. rewrite of_kind_named in F. exists cs. split; [exact F|]. now apply M.
  Qed.

  Lemma loadable_reads s l : loadable l <-> rlink s l <> None.
  Proof.
    unfold Loadable, read_link. destruct s as [cfg x]. destruct (l_kind l) eqn:K.
    - split.
      + intros (c & C). apply config_of_iff in C. destruct C as (t & -> & ->). discriminate.
      + destruct (file _) as [t|] eqn:E; [|congruence]. destruct (parse_config _ _) as [c|] eqn:P; [|congruence]. intros _. exists c. apply config_of_iff. now exists t.
    - split.
      + intros (r & R). apply (protos_of_file _ _ K) in R. rewrite R. discriminate.
      + destruct (protos _ _) as [r|] eqn:P; [|congruence]. intros _. exists r. now apply protos_of_file.
    - split; [intros (t & T); apply text_of_iff in T; rewrite T; discriminate|].
      destruct (file _) as [t|] eqn:E; [|congruence]. intros _. exists t. now apply text_of_iff.
    - split.
      + intros (r & t & T & P). apply text_of_iff in T. rewrite T, P. discriminate.
      + destruct (file _) as [t|] eqn:E; [|congruence]. destruct (parse_certs t) as [r|] eqn:P; [|congruence]. intros _. exists r, t. split; [now apply text_of_iff|exact P].
    - split.
      + intros (r & t & T & P). apply text_of_iff in T. rewrite T, P. discriminate.
      + destruct (file _) as [t|] eqn:E; [|congruence]. destruct (parse_keys t) as [r|] eqn:P; [|congruence]. intros _. exists r, t. split; [now apply text_of_iff|exact P].
    - split.
      + intros (r & t & T & P). apply text_of_iff in T. rewrite T, P. discriminate.
      + destruct (file _) as [t|] eqn:E; [|congruence]. destruct (parse_endpoints t) as [r|] eqn:P; [|congruence]. intros _. exists r, t. split; [now apply text_of_iff|exact P].
    - split; [intros (t & T); apply text_of_iff in T; rewrite T; discriminate|].
      destruct (file _) as [t|] eqn:E; [|congruence]. intros _. exists t. now apply text_of_iff.
    - split.
      + intros (r & _ & t & T & P). apply text_of_iff in T. rewrite T, P. discriminate.
      + destruct (file _) as [t|] eqn:E; [|congruence]. destruct (parse_jwks t) as [r|] eqn:P; [|congruence]. intros _. exists (l_id l, r). split; [reflexivity|]. exists t. split; [now apply text_of_iff|exact P].
    - unfold ProtosOf. rewrite K. destruct (reflect _ _) as [r|]; split; try congruence; eauto.
      intros (r & R). discriminate R.
  Qed.
  Lemma links_read s ls : rlinks s ls <> None <-> forall l, In l ls -> loadable l.
  Proof.
    revert s. induction ls as [|l ls IH]; intros s; cbn.
    - split; [intros _ l []|discriminate].
    - destruct (rlink s l) as [s1|] eqn:E.
      + rewrite IH. split; [|auto]. intros H k [<- | K]; [|auto]. apply (loadable_reads s). congruence.
      + split; [congruence|]. intros H. exfalso. apply (loadable_reads s l); [|exact E]. apply H. now left.
  Qed.
  Lemma config_of_unique l c d : config_of l c -> config_of l d -> c = d.
  Proof. rewrite !config_of_iff. intros (t & T & P) (u & U & Q). congruence. Qed.
  Lemma configs_unique ls cs ds : Forall2 config_of ls cs -> Forall2 config_of ls ds -> cs = ds.
  Proof.
    intros F. revert ds. induction F as [|l c ls cs C F IH]; intros ds G; inversion G as [|? d ? ds' D G']; subst; [reflexivity|].
    f_equal; [now apply config_of_unique with l|now apply IH].
  Qed.
  Lemma resolve_outcome c :
    (exists c' x, resolved c = Some (c', x)) <->
    (forall l, In l (named (links_of c)) -> loadable l) /\
    (forall cs, Forall2 config_of (of_kind LConfig (links_of c)) cs -> exists c', MergedWith unify c cs c').
  Proof.
    split.
    - intros (c' & x & R). split.
      + intros l L. unfold resolve_config in R. rewrite named_model in R. revert l L. apply (links_read (Some c, no_extensions)). intros E. now rewrite E in R.
      + apply resolve_sound in R. destruct R as [_ (ds & D & M)]. intros cs C. rewrite (configs_unique _ _ _ C D). now exists c'.
    - intros [L M]. unfold resolve_config. rewrite named_model. apply (links_read (Some c, no_extensions)) in L.
      destruct (rlinks (Some c, no_extensions) (named (links_of c))) as [[o x]|] eqn:R; [|contradiction]. clear L.
      apply (read_links_sound c) with (done := []) in R; [|intros l L; apply filter_In in L; destruct (string_dec (l_src l) ""); [destruct L; discriminate|assumption]|apply sound_start].
      destruct R as [_ (cs & F & E)]. cbn [app fst] in *. rewrite of_kind_named in F. destruct (M cs F) as [c' C']. apply E in C'. subst. now exists c', x.
  Qed.
End LinkProofs.

(** * Several files *)

Section AllProofs.
  Context {Cfg Cert Key Endpoint Jwks B : Type}.
  Variable links_of : Cfg -> list link.
  Variable file : string -> option string.
  Variable render : string -> string.
  Variable parse_config : string -> string -> option Cfg.
  Variable unify : Cfg -> Cfg -> option Cfg.
  Variable parse_certs : string -> option (list Cert).
  Variable parse_keys : string -> option (list Key).
  Variable parse_endpoints : string -> option (list Endpoint).
  Variable parse_jwks : string -> option Jwks.
  Variable protos : string -> option (list string) -> option (list (pfile B)).
  Variable reflect : string -> list (string * string) -> option (list (pfile B)).
  Variable url : string -> option string.
  Notation ext := (@extensions Cert Key Endpoint Jwks B).
  Notation rcfg := (read_config links_of file render parse_config unify parse_certs parse_keys parse_endpoints parse_jwks protos reflect url).
  Notation rall := (read_all links_of file render parse_config unify parse_certs parse_keys parse_endpoints parse_jwks protos reflect url).
  Notation linked d := (LinkedUp file render parse_config parse_certs parse_keys parse_endpoints parse_jwks protos reflect url d unify links_of).
  Notation loadable d := (Loadable file render parse_config parse_certs parse_keys parse_endpoints parse_jwks protos reflect url d).
  Notation config_of d := (ConfigOf file render parse_config url d).

  Lemma read_all_one p : rall [p] = rcfg p.
  Proof. unfold read_all. cbn. destruct (rcfg p) as [[c x]|]; reflexivity. Qed.
  Lemma read_one_sound p m : rall [p] = Some m ->
    exists t c d, file p = Some t /\ parse_config p (render t) = Some c /\ InDir p d /\ linked d c m.
  Proof.
    rewrite read_all_one. unfold read_config. destruct (file p) as [t|]; [|discriminate]. destruct (parse_config p (render t)) as [c|] eqn:P; [|discriminate].
    destruct (parent_in_dir p) as (d & E & D). rewrite E. intros R. exists t, c, d. destruct m as [c' x].
    split; [reflexivity|]. split; [exact P|]. split; [exact D|]. apply resolve_sound in R. exact R.
  Qed.
  Lemma read_one_outcome p : (exists m, rall [p] = Some m) <->
    exists t c d, file p = Some t /\ parse_config p (render t) = Some c /\ InDir p d /\
      (forall l, In l (named (links_of c)) -> loadable d l) /\
      (forall cs, Forall2 (config_of d) (of_kind LConfig (links_of c)) cs -> exists c', MergedWith unify c cs c').
  Proof.
    rewrite read_all_one. unfold read_config. destruct (parent_in_dir p) as (d & E & D). rewrite E. split.
    - intros (m & R). destruct (file p) as [t|]; [|discriminate R]. destruct (parse_config p (render t)) as [c|] eqn:P; [|discriminate R].
      exists t, c, d. split; [reflexivity|]. split; [exact P|]. split; [exact D|]. apply (resolve_outcome links_of file render parse_config unify parse_certs parse_keys parse_endpoints parse_jwks protos reflect url (Some d)).
      destruct m as [c' x]. now exists c', x.
    - intros (t & c & e & F & P & D' & H). rewrite F, P. rewrite (in_dir_unique _ _ _ D' D) in H.
      apply (resolve_outcome links_of file render parse_config unify parse_certs parse_keys parse_endpoints parse_jwks protos reflect url (Some d)) in H.
      destruct H as (c' & x & R). now exists (c', x).
  Qed.

  Lemma nodup_aset_fold (fs : list (string * pfile B)) m : NoDup (akeys m) -> NoDup (akeys (fold_left (fun m kf => aset (fst kf) (snd kf) m) fs m)).
  Proof. revert m. induction fs as [|f fs IH]; intros m N; cbn; [exact N|]. apply IH. now apply NoDup_aset. Qed.
  Lemma nodup_add (fs : list (pfile B)) m : NoDup (akeys m) -> NoDup (akeys (fold_left (fun m f => aset (f_name f) f m) fs m)).
  Proof. revert m. induction fs as [|f fs IH]; intros m N; cbn; [exact N|]. apply IH. now apply NoDup_aset. Qed.
  Lemma nodup_link dir s l s' :
    read_link file render parse_config unify parse_certs parse_keys parse_endpoints parse_jwks protos reflect url dir s l = Some s' ->
    NoDup (akeys (x_protos (snd s : ext))) -> NoDup (akeys (x_protos (snd s'))).
  Proof.
    destruct s as [cfg x]. unfold read_link. intros R N.
    destruct (l_kind l); repeat (match type of R with match ?t with _ => _ end = _ => destruct t; [|discriminate R] end); injection R as <-; cbn [snd x_protos add_proto] in *; auto; now apply nodup_add.
  Qed.
  Lemma nodup_links dir ls s s' :
    read_links file render parse_config unify parse_certs parse_keys parse_endpoints parse_jwks protos reflect url dir s ls = Some s' ->
    NoDup (akeys (x_protos (snd s : ext))) -> NoDup (akeys (x_protos (snd s'))).
  Proof.
    revert s. induction ls as [|l ls IH]; intros s R N; cbn in R; [injection R as <-; exact N|].
    destruct (read_link _ _ _ _ _ _ _ _ _ _ _ _ _ _) as [s1|] eqn:E; [|discriminate R]. apply (IH _ R). now apply nodup_link in E.
  Qed.
  Lemma nodup_config p m : rcfg p = Some m -> NoDup (akeys (x_protos (snd m))).
  Proof.
    unfold read_config. destruct (file p); [|discriminate]. destruct (parse_config p _); [|discriminate]. unfold resolve_config.
    destruct (read_links _ _ _ _ _ _ _ _ _ _ _ _ _ _) as [[[c1|] x1]|] eqn:E; try discriminate. intros R. injection R as <-.
    apply nodup_links in E; [exact E|constructor].
  Qed.
  Lemma aget_merge (m y : list (string * pfile B)) n : NoDup (akeys y) ->
    aget n (fold_left (fun m kf => aset (fst kf) (snd kf) m) y m) = match aget n y with Some f => Some f | None => aget n m end.
  Proof.
    revert m. induction y as [|[k f] y IH]; intros m N; [reflexivity|]. cbn [akeys map fst] in N. inversion N as [|? ? N1 N2]; subst.
    cbn [fold_left fst snd]. rewrite IH by exact N2. cbn [aget]. rewrite aget_aset.
    destruct (String.eqb_spec n k) as [->|NE].
    - destruct (aget k y) as [g|] eqn:E; [|reflexivity]. exfalso. apply N1. now apply aget_Some_key in E.
    - reflexivity.
  Qed.
  Lemma last_there_snoc {A} (l : list (option A)) r o : LastThere l r -> LastThere (l ++ [o]) (match o with Some v => Some v | None => r end).
  Proof.
    intros H. destruct o as [v|].
    - exists l, []. split; [reflexivity|intros o []].
    - destruct r as [v|].
      + destruct H as (a & b & -> & H). exists a, (b ++ [None]). rewrite <- app_assoc. split; [reflexivity|]. intros o O. apply in_app_or in O. destruct O as [O|[<- |[]]]; auto.
      + intros o O. apply in_app_or in O. destruct O as [O|[<- |[]]]; auto.
  Qed.
  Lemma joined_snoc (xs : list ext) x y : NoDup (akeys (x_protos y)) -> Joined xs x -> Joined (xs ++ [y]) (merge_extensions x y).
  Proof.
    intros N [J1 J2 J3 J4 J5 J6 J7]. split; cbn; rewrite ?map_app, ?concat_app; cbn; rewrite ?app_nil_r; try congruence.
    - now apply last_there_snoc.
    - intros n. rewrite map_app. cbn. rewrite aget_merge by exact N. now apply last_there_snoc.
  Qed.
  Lemma joined_one (x : ext) : Joined [x] x.
  Proof.
    split; cbn; rewrite ?app_nil_r; try reflexivity.
    - destruct (x_script x) as [s|]; [exists [], []; split; [reflexivity|intros o []]|intros o [<- |[]]; reflexivity].
    - intros n. destruct (aget n (x_protos x)) as [s|]; [exists [], []; split; [reflexivity|intros o []]|intros o [<- |[]]; reflexivity].
  Qed.
  Lemma unify_all_spec paths : forall c0 xs cs acc r,
    Joined xs (snd acc) -> MergedWith unify c0 cs (fst acc) ->
    unify_all unify acc (map rcfg paths) = Some r ->
    exists ms, Forall2 (fun p m => rcfg p = Some m) paths ms /\ MergedWith unify c0 (cs ++ map fst ms) (fst r) /\ Joined (xs ++ map snd ms) (snd r).
  Proof.
    induction paths as [|p paths IH]; intros c0 xs cs acc r J M R; cbn in R.
    - injection R as <-. exists []. cbn. rewrite !app_nil_r. repeat split; auto; apply J.
    - destruct (rcfg p) as [[c x]|] eqn:E; [|discriminate R]. destruct (unify (fst acc) c) as [d|] eqn:U; [|discriminate R].
      apply (IH c0 (xs ++ [x]) (cs ++ [c])) in R.
      + destruct R as (ms & F & M' & J'). exists ((c, x) :: ms). cbn [map fst snd]. rewrite <- !app_assoc in M', J'. split; [now constructor|]. now split.
      + cbn. apply joined_snoc; [|exact J]. now apply nodup_config in E.
      + cbn. now apply merged_snoc with (fst acc).
  Qed.
  Lemma read_all_sound paths r : rall paths = Some r ->
    exists m ms, Forall2 (fun p m => rall [p] = Some m) paths (m :: ms) /\
      MergedWith unify (fst m) (map fst ms) (fst r) /\ Joined (map snd (m :: ms)) (snd r).
  Proof.
    unfold read_all at 1. destruct paths as [|p paths]; [discriminate|]. cbn [map]. destruct (rcfg p) as [m|] eqn:E; [|discriminate].
    intros R. apply (unify_all_spec paths (fst m) [snd m] []) in R; [|apply joined_one|constructor].
    destruct R as (ms & F & M & J). exists m, ms. split; [|now split].
    constructor; [now rewrite read_all_one|]. clear -F. induction F as [|q n qs ns H F IH]; constructor; [now rewrite read_all_one|exact IH].
  Qed.
  Lemma unify_all_total paths : forall ms acc c,
    Forall2 (fun p m => rcfg p = Some m) paths ms -> MergedWith unify (fst acc) (map fst ms) c ->
    exists r, unify_all unify acc (map rcfg paths) = Some r /\ fst r = c.
  Proof.
    induction paths as [|p paths IH]; intros ms acc c F M; inversion F as [|? m ? ns E F']; subst; cbn.
    - inversion M; subst. now exists acc.
    - rewrite E. destruct m as [d x]. cbn in M. inversion M as [|? ? e ? ? U M']; subst. rewrite U. now apply (IH ns).
  Qed.
  Lemma read_all_total paths m ms c :
    Forall2 (fun p m => rall [p] = Some m) paths (m :: ms) -> MergedWith unify (fst m) (map fst ms) c ->
    exists r, rall paths = Some r /\ fst r = c.
  Proof.
    intros F M. inversion F as [|p ? ps ? E F']; subst. rewrite read_all_one in E. unfold read_all. cbn [map]. rewrite E.
    apply unify_all_total with ms; [|exact M]. clear -F'. induction F' as [|q n qs ns H F IH]; constructor; [now rewrite read_all_one in H|exact IH].
  Qed.
End AllProofs.

(** * Proto files from disk *)

Section ReadProtos.
  Context {B : Type}.
  Variable google file : string -> option string.
  Variable exists_file : string -> bool.
  Variable parse_proto : string -> option (option string * list string * B).
  Notation is_file d paths := (Imported google file exists_file parse_proto d (match paths with Some l => l | None => [] end)).
  Notation rprotos := (read_protos google file exists_file parse_proto).

  (** The file a link points to. *)
  Lemma root_iff path p : read_proto google file exists_file parse_proto path None None = Some p <->
    exists t pk im b, (google path = Some t \/ google path = None /\ file path = Some t) /\ parse_proto t = Some (pk, im, b) /\
      p = {| f_name := path; f_package := pk; f_imports := im; f_body := b |}.
  Proof.
    unfold read_proto. assert (E : proto_path exists_file path None None = path) by (unfold proto_path; cbn; destruct (prefix "http" path); [reflexivity|destruct (is_absolute path); reflexivity]).
    rewrite E. destruct (google path) as [t|] eqn:G.
    - split.
      + destruct (parse_proto t) as [[[pk im] b]|] eqn:P; [|discriminate]. intros H. injection H as <-. exists t, pk, im, b. auto.
      + intros (t' & pk & im & b & [H|[H _]] & P & ->); [|discriminate H]. injection H as <-. now rewrite P.
    - split.
      + destruct (file path) as [t|]; [|discriminate]. destruct (parse_proto t) as [[[pk im] b]|] eqn:P; [|discriminate]. intros H. injection H as <-. exists t, pk, im, b. auto.
      + intros (t' & pk & im & b & [H|[_ H]] & P & ->); [discriminate H|]. now rewrite H, P.
  Qed.
  Lemma reached_iff d paths root i :
    Reached (fun i p => read_proto google file exists_file parse_proto i (Some d) paths = Some p) root i <-> Reached (is_file d paths) root i.
  Proof. split; apply reached_ext; intros j p; apply read_proto_iff. Qed.

  Lemma protos_exact fuel path paths l : rprotos fuel path paths = Some (Some l) ->
    exists t pk im b d deps,
      (google path = Some t \/ google path = None /\ file path = Some t) /\ parse_proto t = Some (Some pk, im, b) /\ InDir path d /\
      let root := {| f_name := path; f_package := Some pk; f_imports := im; f_body := b |} in
      l = deps ++ [root] /\ NoDup (map f_name deps) /\
      (forall p, In p deps <-> exists i, Reached (is_file d paths) root i /\ is_file d paths i p) /\
      (forall i, Reached (is_file d paths) root i -> exists p, is_file d paths i p /\ In p deps).
  Proof.
    unfold read_protos. destruct (read_proto google file exists_file parse_proto path None None) as [root|] eqn:R; [|discriminate].
    destruct (f_package root) as [pk'|] eqn:PK; [|discriminate]. apply root_iff in R. destruct R as (t & pk & im & b & T & P & ->). cbn in PK. subst pk.
    destruct (parent_in_dir path) as (d & E & D). rewrite E. intros H. apply dependencies_exact in H; [|intros i p; apply read_proto_name].
    destruct H as (deps & -> & N & H1 & H2). exists t, pk', im, b, d, deps. cbn zeta. split; [exact T|]. split; [exact P|]. split; [exact D|]. split; [reflexivity|]. split; [exact N|]. split.
    - intros p. rewrite H1. split; intros (i & X & Y); exists i; (split; [now apply reached_iff|now apply read_proto_iff]).
    - intros i Ri. apply reached_iff, H2 in Ri. destruct Ri as (p & Y & I). exists p. split; [now apply read_proto_iff|exact I].
  Qed.
  Lemma protos_fail fuel path paths : rprotos fuel path paths = Some None ->
    (forall t pk im b, (google path = Some t \/ google path = None /\ file path = Some t) -> parse_proto t = Some (Some pk, im, b) ->
      exists d i, InDir path d /\ Reached (is_file d paths) {| f_name := path; f_package := Some pk; f_imports := im; f_body := b |} i /\
        forall p, ~ is_file d paths i p).
  Proof.
    unfold read_protos. intros H t pk im b T P.
    rewrite (proj2 (root_iff path _) (ex_intro _ t (ex_intro _ (Some pk) (ex_intro _ im (ex_intro _ b (conj T (conj P eq_refl))))))) in H. cbn [f_package] in H.
    destruct (parent_in_dir path) as (d & E & D). rewrite E in H. apply dependencies_fail in H; [|intros i p; apply read_proto_name].
    destruct H as (i & Ri & N). exists d, i. split; [exact D|]. split; [now apply reached_iff|]. intros p I. apply read_proto_iff in I. congruence.
  Qed.
  Lemma protos_end texts path paths :
    (forall q t, google q = Some t \/ file q = Some t -> In t texts) ->
    exists n, forall fuel, n <= fuel -> rprotos fuel path paths <> None.
  Proof.
    intros F.
    set (names := flat_map (fun t => match parse_proto t with Some (_, im, _) => im | None => [] end) texts).
    exists (S (List.length names)). intros fuel L. unfold read_protos.
    destruct (read_proto google file exists_file parse_proto path None None) as [root|] eqn:R; [|discriminate].
    destruct (f_package root); [|discriminate]. unfold resolve_dependencies.
    set (resolve := fun i => read_proto google file exists_file parse_proto i (parent path) paths).
    assert (IM : forall src dir ps p, read_proto google file exists_file parse_proto src dir ps = Some p -> forall i, In i (f_imports p) -> In i names).
    { intros src dir ps p H i I. unfold read_proto in H.
      assert (X : exists t pk im b, In t texts /\ parse_proto t = Some (pk, im, b) /\ f_imports p = im).
      { destruct (google src) as [t|] eqn:G.
        - destruct (parse_proto t) as [[[pk im] b]|] eqn:P; [|discriminate H]. injection H as <-. exists t, pk, im, b. repeat split; auto. apply (F src). now left.
        - destruct (file (proto_path exists_file src dir ps)) as [t|] eqn:Q; [|discriminate H]. destruct (parse_proto t) as [[[pk im] b]|] eqn:P; [|discriminate H]. injection H as <-.
          exists t, pk, im, b. repeat split; auto. apply (F (proto_path exists_file src dir ps)). now right. }
      destruct X as (t & pk & im & b & T & P & <-). unfold names. apply in_flat_map. exists t. split; [exact T|]. now rewrite P. }
    assert (N : forall i, Reached (fun i p => resolve i = Some p) root i -> In i names).
    { intros i Ri. destruct Ri as [i I|j p i Rj P I]; [now apply (IM _ _ _ _ R)|now apply (IM _ _ _ _ P)]. }
    pose proof (queue_ends resolve (fun i p => read_proto_name google file exists_file parse_proto i _ _ p) names fuel root [] [root] [] (inv_start resolve root) N) as Q.
    destruct (resolve_queue fuel resolve [root] []); try discriminate. exfalso. apply Q; [cbn; lia|reflexivity].
  Qed.
End ReadProtos.

(** * The cached reader *)

Lemma cached_reads_direct hashed reads :
  (forall p q, In p (map snd reads) -> In q (map snd reads) -> hashed p <> q) ->
  forall c, (forall p k, In p (map snd reads) -> In k (akeys c) -> hashed p <> k) ->
  cached_reads hashed reads c = map (fun r => fst r (snd r)) reads.
Proof.
  induction reads as [|[d p] reads IH]; intros H c C; [reflexivity|]. cbn [cached_reads map fst snd]. unfold cached_read.
  assert (E : aget (hashed p) c = None).
  { apply aget_None. intros K. apply (C p (hashed p)); [now left|exact K|reflexivity]. }
  rewrite E. destruct (d p) as [t|]; f_equal.
  - apply IH; [intros; apply H; now right|]. intros q k Q K. apply In_akeys_aset in K. destruct K as [->|K]; [apply H; [now right|now left]|apply C; [now right|exact K]].
  - apply IH; [intros; apply H; now right|]. intros q k Q K. apply C; [now right|exact K].
Qed.
