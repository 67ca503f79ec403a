From Coq Require Import String Ascii ZArith NArith Bool List Lia.
From Verif Require Import Base ComposeModel LkModel LkSpec.
Import ListNotations.
Open Scope string_scope.
Open Scope list_scope.

Definition errs {A} (x : valid A) : list (cause setting_error) := match x with Ok _ => [] | Err e => e end.
(** No failure without a cause *)
Definition told {A} (x : valid A) : Prop := match x with Ok _ => True | Err e => e <> [] end.
Lemma each_ok {A B} (f : A -> valid B) l bs : each f l = Ok bs <-> Forall2 (fun a b => f a = Ok b) l bs.
Proof.
  revert bs. induction l as [|a l IH]; intros bs; cbn.
  - split; [intros E; injection E as <-; constructor|intros H; inversion H; reflexivity].
  - split.
    + destruct (f a) as [b|] eqn:Fa, (each f l) as [bs'|] eqn:El; try discriminate. intros E. injection E as <-. constructor; [exact Fa|now apply IH].
    + intros H. inversion H as [|? b ? bs' Fa R]; subst. rewrite Fa. apply IH in R. now rewrite R.
Qed.
Lemma each_err {A B} (f : A -> valid B) l es : each f l = Err es -> es = concat (map (fun a => errs (f a)) l).
Proof.
  revert es. induction l as [|a l IH]; intros es; cbn; [discriminate|]. destruct (f a) as [b|e] eqn:Fa, (each f l) as [bs'|e'] eqn:El; intros E; try discriminate; injection E as <-; cbn.
  - now apply IH.
  - apply each_ok in El. replace (concat _) with (@nil (cause setting_error)); [now rewrite app_nil_r|]. clear -El. induction El as [|x y l m H _ IH]; cbn; [reflexivity|]. now rewrite H.
  - now rewrite (IH _ eq_refl).
Qed.
Lemma each_told {A B} (f : A -> valid B) l : (forall a, In a l -> told (f a)) -> told (each f l).
Proof.
  induction l as [|a l IH]; intros H; cbn; [exact Logic.I|]. pose proof (H a (or_introl eq_refl)) as Ha. assert (Hl : told (each f l)) by (apply IH; intros; apply H; now right).
  destruct (f a), (each f l); cbn in *; auto. intros E. apply app_eq_nil in E. tauto.
Qed.
Lemma traced_told {A} (x : valid A) m : told x -> told (traced x m).
Proof. destruct x as [a|[|c e]]; cbn; auto. discriminate. Qed.

(** ** Counting *)
Lemma one_at {A} (p : A -> bool) l : 0 < length (filter p l) <-> exists i a, nth_error l i = Some a /\ p a = true.
Proof.
  induction l as [|x l IH]; cbn.
  - split; [lia|]. intros ([|i] & a & E & _); discriminate.
  - destruct (p x) eqn:P; cbn.
    + split; [|lia]. intros _. exists 0, x. auto.
    + rewrite IH. split; intros (i & a & E & Pa); [exists (S i), a; auto|]. destruct i as [|i]; cbn in E; [congruence|eauto].
Qed.
Lemma two_at {A} (p : A -> bool) l : 1 < length (filter p l) <-> exists i j a b, i <> j /\ nth_error l i = Some a /\ nth_error l j = Some b /\ p a = true /\ p b = true.
Proof.
  induction l as [|x l IH]; cbn.
  - split; [lia|]. intros ([|i] & j & a & b & _ & E & _); discriminate.
  - destruct (p x) eqn:P; cbn.
    + assert (O : 1 < S (length (filter p l)) <-> 0 < length (filter p l)) by lia. rewrite O, one_at. split.
      * intros (i & a & E & Pa). exists 0, (S i), x, a. auto.
      * intros (i & j & a & b & N & E1 & E2 & P1 & P2). destruct i as [|i]; [destruct j as [|j]; [congruence|eauto]|eauto].
    + rewrite IH. split.
      * intros (i & j & a & b & N & E1 & E2 & P1 & P2). exists (S i), (S j), a, b. auto.
      * intros (i & j & a & b & N & E1 & E2 & P1 & P2). destruct i as [|i]; [cbn in E1; congruence|]. destruct j as [|j]; [cbn in E2; congruence|]. exists i, j, a, b. auto.
Qed.
Lemma two_types t links : Nat.ltb 1 (length (filter (fun l => link_type_eqb (l_type l) t) links)) = true <-> two_of t links.
Proof.
  rewrite Nat.ltb_lt, two_at. assert (Q : forall a, link_type_eqb (l_type a) t = true <-> l_type a = t) by (intros a; destruct (l_type a), t; cbn; split; congruence).
  unfold two_of. split; intros (i & j & a & b & N & E1 & E2 & P1 & P2); exists i, j, a, b; rewrite ?Q in *; auto.
Qed.
Lemma same_id_ok id l : same_id id l = true <-> l_id l = Some id.
Proof. unfold same_id. destruct (l_id l) as [i|]; [|split; discriminate]. rewrite String.eqb_eq. split; congruence. Qed.
Lemma id_shared links pos l id : nth_error links pos = Some l -> l_id l = Some id ->
  (Nat.ltb 1 (length (filter (same_id id) links)) = true <-> shared_id links pos id).
Proof.
  intros E I. rewrite Nat.ltb_lt, two_at. split.
  - intros (i & j & a & b & N & E1 & E2 & P1 & P2). rewrite same_id_ok in P1, P2. destruct (Nat.eq_dec i pos) as [->|D].
    + exists l, j, b. auto.
    + exists l, i, a. auto.
  - intros (l0 & j & l' & E0 & I0 & N & E1 & I1). exists pos, j, l, l'. rewrite !same_id_ok. auto.
Qed.

(** ** Links *)
Definition cause_at (pos : nat) (e : setting_error) : cause setting_error := Build_cause [Z_to_string (Z.of_nat pos)] e.
Lemma check_one links pos l : nth_error links pos = Some l ->
  (check_link links (pos, l) = Ok l /\ forall e, ~ link_fault links pos e) \/
  exists e, check_link links (pos, l) = Err [cause_at pos e] /\ forall e', link_fault links pos e' <-> e' = e.
Proof.
  intros E. unfold check_link. destruct (String.eqb_spec (l_src l) "") as [S|S].
  - right. exists LinkSrcCannotBeEmpty. split; [reflexivity|]. intros e'. split; [|intros ->; now apply fault_empty with l]. intros F. inversion F as [l0 E0 S0|l0 id E0 S0 _]; subst; [reflexivity|]. congruence.
  - unfold and_then. cbn [rbind]. destruct (l_id l) as [id|] eqn:I.
    + destruct (Nat.ltb 1 (length (filter (same_id id) links))) eqn:D.
      * right. exists (Duplicated id). split; [reflexivity|]. apply (id_shared links pos l id E I) in D. intros e'. split; [|intros ->; now apply fault_shared with l].
        intros F. inversion F as [l0 E0 S0|l0 id' E0 S0 Sh]; subst; [congruence|]. destruct Sh as (l1 & _ & _ & E1 & I1 & _). congruence.
      * left. split; [reflexivity|]. intros e F. inversion F as [l0 E0 S0|l0 id' E0 S0 Sh]; subst; [congruence|].
        assert (id' = id) by (destruct Sh as (l1 & _ & _ & E1 & I1 & _); congruence). subst id'. apply (id_shared links pos l id E I) in Sh. congruence.
    + left. split; [reflexivity|]. intros e F. inversion F as [l0 E0 S0|l0 id' E0 S0 Sh]; subst; [congruence|]. destruct Sh as (l1 & _ & _ & E1 & I1 & _). congruence.
Qed.
Lemma in_numbered {A} (l : list A) pos a : In (pos, a) (combine (seq 0 (length l)) l) <-> nth_error l pos = Some a.
Proof.
  assert (G : forall l k, In (pos, a) (combine (seq k (length l)) l) <-> k <= pos /\ nth_error l (pos - k) = Some a).
  { clear. induction l as [|x l IH]; intros k; cbn.
    - split; [intros []|]. intros [_ H]. destruct (pos - k); discriminate.
    - rewrite IH. split.
      + intros [E|[L H]]; [injection E as -> ->; split; [lia|]; rewrite Nat.sub_diag; reflexivity|]. split; [lia|]. replace (pos - k) with (S (pos - S k)) by lia. exact H.
      + intros [L H]. destruct (Nat.eq_dec pos k) as [->|N]; [left; rewrite Nat.sub_diag in H; cbn in H; congruence|]. right. split; [lia|]. replace (pos - k) with (S (pos - S k)) in H by lia. exact H. }
  rewrite (G l 0), Nat.sub_0_r. split; [tauto|]. intros H. split; [lia|exact H].
Qed.
Lemma numbered_snd {A} (l : list A) k : map snd (combine (seq k (length l)) l) = l.
Proof. revert k. induction l as [|x l IH]; intros k; cbn; [reflexivity|]. now rewrite IH. Qed.
Lemma checked_each links :
  (each (check_link links) (combine (seq 0 (length links)) links) = Ok links /\ forall pos e, ~ link_fault links pos e) \/
  exists es, each (check_link links) (combine (seq 0 (length links)) links) = Err es /\ (exists pos e, link_fault links pos e) /\
    forall c, In c es <-> exists pos e, link_fault links pos e /\ c = cause_at pos e.
Proof.
  set (num := combine (seq 0 (length links)) links).
  assert (N : forall pos l, In (pos, l) num -> nth_error links pos = Some l) by (intros; now apply in_numbered).
  destruct (each (check_link links) num) as [bs|es] eqn:E.
  - left. apply each_ok in E. split.
    + f_equal. rewrite <- (numbered_snd links 0). fold num. clear -E N. induction E as [|[pos l] b num bs H _ IH]; [reflexivity|]. cbn. f_equal; [|apply IH; intros; apply N; now right].
      destruct (check_one links pos l) as [[O _]|(e & O & _)]; [apply N; now left| |]; congruence.
    + intros pos e F. assert (X : exists l, nth_error links pos = Some l) by (inversion F; eauto). destruct X as [l X]. pose proof (proj2 (in_numbered links pos l) X) as I. fold num in I.
      destruct (check_one links pos l X) as [[_ O]|(e' & O & _)]; [exact (O e F)|]. assert (Q : exists b, check_link links (pos, l) = Ok b).
      { clear -E I. induction E as [|x b num bs H _ IH]; [destruct I|]. destruct I as [->|I]; eauto. } destruct Q. congruence.
  - right. exists es. split; [reflexivity|]. assert (To : told (each (check_link links) num)).
    { apply each_told. intros [pos l] I. destruct (check_one links pos l (N _ _ I)) as [[O _]|(e & O & _)]; rewrite O; cbn; [exact Logic.I|discriminate]. }
    rewrite E in To. cbn in To. apply each_err in E.
    assert (C : forall c, In c es <-> exists pos e, link_fault links pos e /\ c = cause_at pos e).
    { intros c. rewrite E, in_concat. split.
      - intros (x & Ix & Ic). apply in_map_iff in Ix as ([pos l] & <- & I). destruct (check_one links pos l (N _ _ I)) as [[O _]|(e & O & Q)]; rewrite O in Ic; cbn in Ic; [destruct Ic|].
        destruct Ic as [<-|[]]. exists pos, e. split; [now apply Q|reflexivity].
      - intros (pos & e & F & ->). assert (X : exists l, nth_error links pos = Some l) by (inversion F; eauto). destruct X as [l X].
        destruct (check_one links pos l X) as [[_ O]|(e' & O & Q)]; [destruct (O e F)|]. apply Q in F. subst e'. exists (errs (check_link links (pos, l))). split.
        + apply in_map_iff. exists (pos, l). split; [reflexivity|]. now apply in_numbered.
        + rewrite O. now left. }
    split; [|exact C]. destruct es as [|c es]; [congruence|]. destruct (proj1 (C c) (or_introl eq_refl)) as (pos & e & F & _). eauto.
Qed.
Lemma links_main links :
  match check_links links with
  | Ok r => r = links /\ (forall pos e, ~ link_fault links pos e) /\ ~ two_of LScript links /\ ~ two_of LKey links
  | Err es =>
      ((exists pos e, link_fault links pos e) /\
       forall c, In c es <-> exists pos e, link_fault links pos e /\ c = Build_cause ["schema"; "@link"; Z_to_string (Z.of_nat pos)] e) \/
      ((forall pos e, ~ link_fault links pos e) /\
       (two_of LScript links /\ es = [Build_cause ["schema"; "@link"] OnlyOneScriptLinkAllowed] \/
        ~ two_of LScript links /\ two_of LKey links /\ es = [Build_cause ["schema"; "@link"] OnlyOneKeyLinkAllowed]))
  end.
Proof.
  unfold check_links. destruct (checked_each links) as [[E N]|(es & E & X & C)]; rewrite E; unfold and_then; cbn [rbind].
  - unfold at_most_one. destruct (Nat.ltb 1 (length (filter (fun l => link_type_eqb (l_type l) LScript) links))) eqn:S.
    + cbn. right. split; [exact N|]. left. split; [now apply two_types|reflexivity].
    + cbn [rbind]. assert (NS : ~ two_of LScript links) by (intros T; apply two_types in T; congruence).
      destruct (Nat.ltb 1 (length (filter (fun l => link_type_eqb (l_type l) LKey) links))) eqn:K.
      * cbn. right. split; [exact N|]. right. split; [exact NS|]. split; [now apply two_types|reflexivity].
      * cbn. split; [reflexivity|]. split; [exact N|]. split; [exact NS|]. intros T. apply two_types in T. congruence.
  - left. split; [exact X|]. intros c. rewrite map_map. rewrite in_map_iff. split.
    + intros (c0 & <- & I). apply C in I as (pos & e & F & ->). exists pos, e. auto.
    + intros (pos & e & F & ->). exists (cause_at pos e). split; [reflexivity|]. apply C. eauto.
Qed.

(** ** Telemetry *)
Lemma ref_char_ok c : ref_char c = true <-> graph_char c.
Proof.
  unfold ref_char, graph_char. rewrite !orb_true_iff, !andb_true_iff, !Nat.leb_le, !Ascii.eqb_eq. cbn [nat_of_ascii N_of_ascii]. cbn. tauto.
Qed.
Lemma rest_ok seen s : ref_rest seen s = true <-> Forall graph_char (list_ascii_of_string s) /\ (seen = true \/ s <> "").
Proof.
  revert seen. induction s as [|c s IH]; intros seen; cbn [ref_rest list_ascii_of_string].
  - split; [intros ->; split; [constructor|now left]|]. intros [_ [H|H]]; congruence.
  - rewrite andb_true_iff, ref_char_ok, IH. split.
    + intros [A [B _]]. split; [now constructor|right; discriminate].
    + intros [A _]. inversion A; subst. auto.
Qed.
Lemma first_ok seen s : ref_first seen s = true <-> exists g v, s = (g ++ "@" ++ v)%string /\ Forall graph_char (list_ascii_of_string g) /\ (seen = true \/ g <> "") /\ graph_word v.
Proof.
  revert seen. induction s as [|c s IH]; intros seen; cbn [ref_first].
  - split; [discriminate|]. intros (g & v & E & _). destruct g; discriminate.
  - destruct (Ascii.eqb_spec c "@") as [->|N].
    + rewrite andb_true_iff, rest_ok. split.
      * intros [-> [F [X|X]]]; [discriminate|]. exists "", s. split; [reflexivity|]. split; [constructor|]. split; [now left|]. now split.
      * intros (g & v & E & F & Sn & [V W]). destruct g as [|d g].
        -- cbn in E. injection E as ->. destruct Sn as [->|Sn]; [|congruence]. split; [reflexivity|]. split; [exact W|now right].
        -- cbn in E. injection E as <- ->. inversion F as [|? ? Ha _]; subst. exfalso. apply ref_char_ok in Ha. discriminate.
    + rewrite andb_true_iff, ref_char_ok, IH. split.
      * intros [Hc (g & v & -> & F & _ & V)]. exists (String c g), v. split; [reflexivity|]. split; [now constructor|]. split; [right; discriminate|exact V].
      * intros (g & v & E & F & Sn & V). destruct g as [|d g]; [cbn in E; injection E as -> _; congruence|]. cbn in E. injection E as <- ->. inversion F; subst. split; [assumption|]. exists g, v. auto.
Qed.
Lemma graph_ref_ok s : is_graph_ref s = true <-> graph_ref s.
Proof.
  unfold is_graph_ref. rewrite first_ok. unfold graph_ref, graph_word. split.
  - intros (g & v & E & F & [X|X] & V); [discriminate|]. exists g, v. auto.
  - intros (g & v & E & [X F] & V). exists g, v. auto.
Qed.

Section Telemetry.
  Variable parse_url : string -> option string.
  Variable header_name : string -> option string.
  Variable header_value : string -> bool.
  Local Notation fault := (telemetry_fault parse_url header_name header_value).
  Local Notation one := (fun kv : string * string => zip (match header_name (fst kv) with Some n => Ok n | None => fail (InvalidHeaderName (fst kv)) end)
                                (if header_value (snd kv) then Ok (snd kv) else fail (InvalidHeaderValue (snd kv)))).
  Lemma one_errs kv c : In c (errs (one kv)) <-> (header_name (fst kv) = None /\ c = Build_cause [] (InvalidHeaderName (fst kv))) \/ (header_value (snd kv) = false /\ c = Build_cause [] (InvalidHeaderValue (snd kv))).
  Proof.
    cbv beta. destruct (header_name (fst kv)), (header_value (snd kv)); cbn; (split; [intros H|intros [[H ->]|[H ->]]; try discriminate; auto]).
    - destruct H.
    - destruct H as [<-|[]]. auto.
    - destruct H as [<-|[]]. auto.
    - destruct H as [<-|[<-|[]]]; auto.
  Qed.
  Lemma headers_main hs :
    match each one hs with
    | Ok hs' => Forall2 (fun a b => header_name (fst a) = Some (fst b) /\ snd b = snd a) hs hs' /\ forall k v, In (k, v) hs -> header_name k <> None /\ header_value v = true
    | Err es => es <> [] /\ forall c, In c es <-> exists k v, In (k, v) hs /\
        ((header_name k = None /\ c = Build_cause [] (InvalidHeaderName k)) \/ (header_value v = false /\ c = Build_cause [] (InvalidHeaderValue v)))
    end.
  Proof.
    pose proof (each_told one hs) as To. destruct (each one hs) as [hs'|es] eqn:E.
    - apply each_ok in E. clear To. induction E as [|[k v] [k' v'] hs hs' H _ [IH1 IH2]]; [split; [constructor|intros k v []]|]. cbn in H.
      destruct (header_name k) as [n|] eqn:Hn, (header_value v) eqn:Hv; cbn in H; try discriminate. injection H as <- <-. split; [constructor; [cbn; auto|exact IH1]|].
      intros k0 v0 [X|X]; [injection X as <- <-; split; congruence|eauto].
    - split.
      + apply To. intros [k v] _. cbn. destruct (header_name k), (header_value v); cbn; auto; discriminate.
      + intros c. rewrite (each_err _ _ _ E), in_concat. split.
        * intros (x & Ix & Ic). apply in_map_iff in Ix as ([k v] & <- & I). apply one_errs in Ic. exists k, v. auto.
        * intros (k & v & I & H). exists (errs (one (k, v))). split; [apply in_map_iff; exists (k, v); auto|]. now apply one_errs.
  Qed.
  Lemma telemetry_main e hs up :
    match to_opentelemetry parse_url header_name header_value {| te_export := Some e; te_headers := hs |} up with
    | Ok t => (forall w x, ~ fault e w x) /\ exists e', te_export t = Some e' /\ exports parse_url header_name e e' /\ te_headers t = hs
    | Err es => (exists w x, fault e w x) /\ forall c, In c es <-> exists w x, fault e w x /\ c = Build_cause ("@telemetry" :: w) x
    end.
  Proof.
    destruct e as [p|u l|p f|r o]; cbn [to_opentelemetry te_export te_headers].
    - cbn. split; [intros w x F; inversion F|]. eexists. split; [reflexivity|]. split; [constructor|reflexivity].
    - unfold to_url, to_headers. pose proof (headers_main l) as H. destruct (parse_url u) as [u'|] eqn:U, (each one l) as [l'|es]; cbn.
      + destruct H as [H1 H2]. split; [intros w x F; inversion F as [? ? Z|? ? k v I Z|? ? k v I Z|]; subst; [congruence|destruct (H2 _ _ I); congruence|destruct (H2 _ _ I); congruence]|].
        eexists. split; [reflexivity|]. split; [now constructor|reflexivity].
      + destruct H as [H1 H2]. assert (C : forall c, In c (map (fun c => Build_cause ("@telemetry" :: at_ c) (message c)) (map (fun c => Build_cause ("otlp" :: at_ c) (message c))
            (map (fun c => Build_cause ("headers" :: at_ c) (message c)) es))) <-> exists w x, fault (Otlp u l) w x /\ c = Build_cause ("@telemetry" :: w) x).
        { intros c. rewrite !map_map, in_map_iff. split.
          - intros (c0 & <- & I). apply H2 in I as (k & v & I & [[Z ->]|[Z ->]]); eexists _, _; (split; [|reflexivity]); [eapply fault_name|eapply fault_value]; eauto.
          - intros (w & x & F & ->). inversion F as [? ? Z|? ? k v I Z|? ? k v I Z|]; subst; [congruence|exists (Build_cause [] (InvalidHeaderName k))|exists (Build_cause [] (InvalidHeaderValue v))];
              (split; [reflexivity|]); apply H2; exists k, v; auto. }
        split; [|exact C]. destruct es as [|c es]; [congruence|]. cbn [map] in C. destruct (proj1 (C _) (or_introl eq_refl)) as (w & x & F & _). eauto.
      + split; [eexists _, _; now apply fault_url|]. destruct H as [H1 H2]. intros c. split.
        * intros [<-|[]]. eexists _, _. split; [now apply fault_url|reflexivity].
        * intros (w & x & F & ->). inversion F as [? ? Z|? ? k v I Z|? ? k v I Z|]; subst; [now left|destruct (H2 _ _ I); congruence|destruct (H2 _ _ I); congruence].
      + split; [eexists _, _; now apply fault_url|]. destruct H as [H1 H2]. intros c. split.
        * intros [<-|I]; [eexists _, _; split; [now apply fault_url|reflexivity]|]. rewrite !map_map, in_map_iff in I. destruct I as (c0 & <- & I).
          apply H2 in I as (k & v & I & [[Z ->]|[Z ->]]); eexists _, _; (split; [|reflexivity]); [eapply fault_name|eapply fault_value]; eauto.
        * intros (w & x & F & ->). inversion F as [? ? Z|? ? k v I Z|? ? k v I Z|]; subst; [now left| |]; right; rewrite !map_map, in_map_iff;
            [exists (Build_cause [] (InvalidHeaderName k))|exists (Build_cause [] (InvalidHeaderValue v))]; (split; [reflexivity|]); apply H2; exists k, v; auto.
    - cbn. split; [intros w x F; inversion F|]. eexists. split; [reflexivity|]. split; [constructor|reflexivity].
    - unfold validate_apollo. destruct (is_graph_ref r) eqn:G; cbn.
      + apply graph_ref_ok in G. split; [intros w x F; inversion F; subst; contradiction|]. eexists. split; [reflexivity|]. split; [constructor|reflexivity].
      + assert (N : ~ graph_ref r) by (intros X; apply graph_ref_ok in X; congruence). split; [eexists _, _; now apply fault_ref|]. intros c. split.
        * intros [<-|[]]. eexists _, _. split; [now apply fault_ref|reflexivity].
        * intros (w & x & F & ->). inversion F; subst. now left.
  Qed.
End Telemetry.
