From Coq Require Import String Ascii NArith Arith Bool Lia List.
From Verif Require Import Base BaseFacts StringFacts MustacheModel MustacheSpec.
Import ListNotations.
Open Scope string_scope.
Open Scope list_scope.

Notation slen := String.length.

(** ** Characters *)
Definition starts (p : ascii -> bool) (s : string) : bool :=
  match s with String c _ => p c | EmptyString => false end.

Lemma span_spec : forall p s a b, span p s = (a, b) ->
  s = (a ++ b)%string /\ starts p b = false /\
  (forall q, (forall c, p c = true -> q c = true) ->
     span q a = (a, "")).
Proof.
  induction s as [|c t IH]; cbn; intros a b H.
  - inv H. auto.
  - destruct (p c) eqn:P.
    + destruct (span p t) as [a' b'] eqn:S. inv H.
      destruct (IH _ _ eq_refl) as (-> & B & Q). repeat split; auto.
      intros q Hq. cbn. rewrite (Hq _ P), (Q q Hq). auto.
    + inv H. cbn. rewrite P. auto.
Qed.

Lemma span_app : forall p a b,
  span p a = (a, "") -> starts p b = false -> span p (a ++ b) = (a, b).
Proof.
  induction a as [|c t IH]; cbn; intros b H S.
  - destruct b; cbn in *; auto. rewrite S. auto.
  - destruct (p c).
    + destruct (span p t) as [x y] eqn:E. inv H. rewrite (IH b); auto.
    + inv H.
Qed.

Lemma blanks_span : forall b, blanks b <-> span is_space b = (b, "").
Proof.
  induction b as [|c t IH]; cbn.
  - split; auto. constructor.
  - split.
    + intros H. inv H. apply IH in H3. rewrite H2, H3. auto.
    + destruct (is_space c) eqn:E; [|discriminate].
      destruct (span is_space t) as [x y]. intros H. inv H. constructor; tauto.
Qed.

Lemma words_span : forall b, word_chars b <-> span is_word b = (b, "").
Proof.
  induction b as [|c t IH]; cbn.
  - split; auto. constructor.
  - split.
    + intros H. inv H. apply IH in H3. rewrite H2, H3. auto.
    + destruct (is_word c) eqn:E; [|discriminate].
      destruct (span is_word t) as [x y]. intros H. inv H. constructor; tauto.
Qed.

Lemma alpha_word : forall c, is_alpha c = true -> is_word c = true.
Proof. unfold is_word. intros c ->. auto. Qed.

Lemma alpha_not_space : forall c, is_alpha c = true -> is_space c = false.
Proof.
  unfold is_alpha, is_space. intros c. generalize (N_of_ascii c). intros n.
  rewrite orb_true_iff, !andb_true_iff, !N.leb_le, !orb_false_iff, !N.eqb_neq. lia.
Qed.
Lemma space_not_word : forall c, is_space c = true -> is_word c = false.
Proof.
  intros c. unfold is_word, is_alpha, is_digit, is_space.
  assert (Ascii.eqb c "_" = true -> N_of_ascii c = 95%N).
  { rewrite Ascii.eqb_eq. intros ->. reflexivity. }
  destruct (Ascii.eqb c "_") eqn:E.
  - rewrite H by auto. cbn. discriminate.
  - clear H. generalize (N_of_ascii c). intros n.
    rewrite !orb_true_iff, !N.eqb_eq, !orb_false_iff, !andb_false_iff, !N.leb_gt. intros. repeat split; lia.
Qed.

Lemma word_chars_app : forall a b, word_chars a -> word_chars b -> word_chars (a ++ b).
Proof. induction 1; cbn; intros; auto. constructor; auto. Qed.

Lemma tag_app : forall p s, tag p (p ++ s) = Some s.
Proof. induction p; cbn; intros; auto. rewrite Ascii.eqb_refl. auto. Qed.

Lemma tag_some : forall p s r, tag p s = Some r -> s = (p ++ r)%string.
Proof.
  induction p as [|c p IH]; cbn; intros s r H; [congruence|].
  destruct s as [|d s]; [discriminate|]. destruct (Ascii.eqb_spec c d); [|discriminate].
  subst. f_equal. auto.
Qed.

(** ** Names *)
Definition stops (s : string) : Prop := starts is_space s = false /\ starts is_word s = false.

Lemma parse_name_complete : forall n b1 b2 rest,
  name n -> blanks b1 -> blanks b2 -> stops rest ->
  parse_name (b1 ++ n ++ b2 ++ rest) = Some (rest, n).
Proof.
  intros n b1 b2 rest N B1 B2 [R1 R2]. unfold parse_name.
  inv N. apply blanks_span in B1. apply words_span in H0.
  rewrite (span_app is_space b1); auto.
  2: { cbn. apply alpha_not_space; auto. }
  cbn [snd].
  (* the tail after the name does not start with a word character *)
  assert (T : starts is_word (b2 ++ rest) = false).
  { inv B2; cbn; auto. apply space_not_word; auto. }
  destruct (span is_alpha s) as [x y] eqn:E.
  assert (E2 : span is_alpha (String c s ++ (b2 ++ rest)) = (String c x, (y ++ (b2 ++ rest)))%string).
  { cbn. rewrite H. destruct (span_spec _ _ _ _ E) as (-> & Y & Q).
    rewrite str_app_assoc, (span_app is_alpha x); auto.
    - destruct y; cbn; auto. destruct (b2 ++ rest)%string; auto. cbn in *.
      destruct (is_alpha a) eqn:A; auto. apply alpha_word in A. congruence. }
  rewrite E2. destruct (span_spec _ _ _ _ E) as (-> & Y & Q).
  assert (E3 : span is_word y = (y, "")).
  { apply words_span. apply words_span in H0.
    clear - H0. induction x; cbn in *; auto. inv H0. auto. }
  rewrite (span_app is_word y); auto.
  apply blanks_span in B2. rewrite (span_app is_space b2); auto.
Qed.

Lemma parse_name_sound : forall s rest n,
  parse_name s = Some (rest, n) ->
  exists b1 b2, name n /\ blanks b1 /\ blanks b2 /\ s = (b1 ++ n ++ b2 ++ rest)%string /\
    starts is_space rest = false.
Proof.
  unfold parse_name. intros s rest n H.
  destruct (span is_space s) as [b1 s1] eqn:E1. cbn in H.
  destruct (span is_alpha s1) as [a s2] eqn:E2.
  destruct a as [|c a]; [discriminate|].
  destruct (span is_word s2) as [b s3] eqn:E3.
  destruct (span is_space s3) as [b2 s4] eqn:E4. cbn in H. inv H.
  destruct (span_spec _ _ _ _ E1) as (-> & S1 & Q1).
  destruct (span_spec _ _ _ _ E2) as (-> & S2 & Q2).
  destruct (span_spec _ _ _ _ E3) as (-> & S3 & Q3).
  destruct (span_spec _ _ _ _ E4) as (-> & S4 & Q4).
  exists b1, b2. split; [|split; [|split; [|split]]]; auto.
  - specialize (Q2 is_word alpha_word). apply words_span in Q2. inv Q2.
    assert (A : is_alpha c = true).
    { cbn in E2. destruct (is_alpha c); auto. inv E2. }
    assert (B : word_chars b) by (apply words_span; apply Q3; auto).
    exact (Name c (a ++ b) A (word_chars_app _ _ H2 B)).
  - apply blanks_span. auto.
  - apply blanks_span. auto.
  - cbn. rewrite !str_app_assoc. auto.
Qed.

Lemma stops_dot : forall s, stops (String "." s).
Proof. split; reflexivity. Qed.
Lemma stops_brace : forall s, stops (String "}" s).
Proof. split; reflexivity. Qed.

Lemma parse_name_shorter : forall s rest n, parse_name s = Some (rest, n) -> slen rest < slen s.
Proof.
  intros. apply parse_name_sound in H. destruct H as (b1 & b2 & N & _ & _ & -> & _).
  inv N. rewrite !str_app_length. cbn. rewrite ?str_app_length. lia.
Qed.

Lemma more_names_complete : forall p s, written_path p s ->
  forall fuel rest, slen (String "." s ++ "}" ++ rest) <= S fuel ->
  more_names (S fuel) (String "." (s ++ String "}" rest)) = (String "}" rest, p).
Proof.
  induction 1; intros fuel rest L.
  - cbn [more_names].
    change (String "." ((b1 ++ n ++ b2) ++ String "}" rest))
      with ("." ++ ((b1 ++ n ++ b2) ++ String "}" rest))%string.
    rewrite tag_app.
    rewrite !str_app_assoc, parse_name_complete; auto using stops_brace.
    destruct fuel; reflexivity.
  - set (SF := S fuel) in *. cbn [more_names]. subst SF. cbn [more_names].
    change (String "." ((b1 ++ n ++ b2 ++ "." ++ s) ++ String "}" rest))
      with ("." ++ ((b1 ++ n ++ b2 ++ "." ++ s) ++ String "}" rest))%string.
    rewrite tag_app.
    replace ((b1 ++ n ++ b2 ++ "." ++ s) ++ String "}" rest)%string
      with (b1 ++ n ++ b2 ++ String "." (s ++ String "}" rest))%string
      by (rewrite !str_app_assoc; reflexivity).
    rewrite parse_name_complete; auto using stops_dot.
    cbn [String.append] in L. cbn [slen] in L.
    repeat (rewrite str_app_length in L; cbn [slen String.append] in L).
    destruct fuel as [|fuel]; [lia|].
    rewrite IHwritten_path; auto.
    cbn [slen String.append]. rewrite str_app_length. cbn [slen String.append]. lia.
Qed.

Lemma more_names_sound : forall fuel s r ns,
  more_names fuel s = (r, ns) ->
  (ns = [] /\ r = s) \/
  (exists t, written_path ns t /\ s = String "." (t ++ r)).
Proof.
  induction fuel as [|fuel IH]; intros s r ns H.
  - cbn in H. inv H. auto.
  - cbn [more_names] in H. destruct (tag "." s) as [t|] eqn:T; [|inv H; auto].
    apply tag_some in T. subst s.
    destruct (parse_name t) as [[rest n]|] eqn:P; [|inv H; auto].
    destruct (more_names fuel rest) as [r' ns'] eqn:M. inv H.
    right. apply parse_name_sound in P. destruct P as (b1 & b2 & N & B1 & B2 & -> & _).
    destruct (IH _ _ _ M) as [[-> ->]|(t & W & ->)].
    + exists (b1 ++ n ++ b2)%string. split; [constructor; auto|]. rewrite !str_app_assoc. auto.
    + exists (b1 ++ n ++ b2 ++ "." ++ t)%string. split; [constructor; auto|].
      rewrite !str_app_assoc. cbn. rewrite ?str_app_assoc. auto.
Qed.

Lemma parse_names_complete : forall p s rest, written_path p s ->
  parse_names (s ++ String "}" rest) = Some (String "}" rest, p).
Proof.
  intros p s rest H. unfold parse_names. inv H.
  - rewrite !str_app_assoc, parse_name_complete; auto using stops_brace.
  - replace ((b1 ++ n ++ b2 ++ "." ++ s0) ++ String "}" rest)%string
      with (b1 ++ n ++ b2 ++ String "." (s0 ++ String "}" rest))%string
      by (rewrite !str_app_assoc; reflexivity).
    rewrite parse_name_complete; auto using stops_dot.
    cbn [slen]. rewrite more_names_complete with (p := p0); auto.
Qed.

Lemma parse_names_sound : forall s rest p,
  parse_names s = Some (rest, p) -> exists t, written_path p t /\ s = (t ++ rest)%string.
Proof.
  unfold parse_names. intros s rest p H.
  destruct (parse_name s) as [[r n]|] eqn:P; [|discriminate].
  destruct (more_names (slen r) r) as [r' ns] eqn:M. inv H.
  apply parse_name_sound in P. destruct P as (b1 & b2 & N & B1 & B2 & -> & _).
  destruct (more_names_sound _ _ _ _ M) as [[-> ->]|(t & W & ->)].
  - exists (b1 ++ n ++ b2)%string. split; [constructor; auto|]. rewrite !str_app_assoc. auto.
  - exists (b1 ++ n ++ b2 ++ "." ++ t)%string. split; [constructor; auto|].
    rewrite !str_app_assoc. cbn. rewrite ?str_app_assoc. auto.
Qed.

(** ** Expressions *)
Lemma written_path_head : forall p s, written_path p s ->
  exists c t, s = String c t /\ c <> "."%char.
Proof.
  assert (K : forall n b1 x, name n -> blanks b1 -> exists c t, (b1 ++ n ++ x)%string = String c t /\ c <> "."%char).
  { intros n b1 x N B. inv B.
    - inv N. cbn. eexists _, _. split; eauto. intros ->. discriminate.
    - cbn. eexists _, _. split; eauto. intros ->. discriminate. }
  intros p s H. inv H; apply K; auto.
Qed.

Lemma tag_dot_none : forall (c : ascii) t, c <> "."%char -> tag "." (String c t) = None.
Proof.
  intros. cbn [tag]. destruct (Ascii.eqb_spec "." c); auto. congruence.
Qed.

Lemma parse_expression_complete : forall p e rest,
  written_expr p e -> parse_expression (e ++ rest) = Some (rest, Expression p).
Proof.
  intros p e rest H. unfold parse_expression. inv H.
  - destruct (written_path_head _ _ H0) as (c & t & E & NE).
    rewrite !str_app_assoc, tag_app.
    replace (tag "." (s ++ "}}" ++ rest)) with (@None string).
    2: { rewrite E. cbn [String.append]. rewrite tag_dot_none; auto. }
    change (s ++ "}}" ++ rest)%string with (s ++ String "}" (String "}" rest))%string.
    rewrite (parse_names_complete p s (String "}" rest)); auto.
  - rewrite !str_app_assoc. change ("{{." ++ s ++ "}}" ++ rest)%string with ("{{" ++ ("." ++ (s ++ "}}" ++ rest)))%string.
    rewrite !tag_app.
    change (s ++ "}}" ++ rest)%string with (s ++ String "}" (String "}" rest))%string.
    rewrite (parse_names_complete p s (String "}" rest)); auto.
Qed.

Lemma parse_expression_sound : forall s rest seg,
  parse_expression s = Some (rest, seg) ->
  exists p e, seg = Expression p /\ written_expr p e /\ s = (e ++ rest)%string.
Proof.
  intros s rest seg H. unfold parse_expression in H.
  destruct (tag "{{" s) as [t|] eqn:T; [|discriminate]. apply tag_some in T. subst s.
  set (t0 := match tag "." t with Some t' => t' | None => t end) in H.
  destruct (parse_names t0) as [[r parts]|] eqn:P; [|discriminate].
  destruct (tag "}}" r) as [r'|] eqn:T2; [|discriminate]. apply tag_some in T2. subst r.
  inv H. apply parse_names_sound in P. destruct P as (u & W & E).
  assert (D : t = t0 \/ t = String "." t0).
  { subst t0. destruct (tag "." t) as [t'|] eqn:T3; auto. apply tag_some in T3. auto. }
  destruct D as [D|D]; rewrite D.
  - exists parts, ("{{" ++ u ++ "}}")%string. repeat split; [constructor; auto|].
    rewrite E, !str_app_assoc. auto.
  - exists parts, ("{{." ++ u ++ "}}")%string. repeat split; [apply WE_dot; auto|].
    rewrite E, !str_app_assoc. auto.
Qed.

Lemma parse_expression_none : forall s,
  (forall t, s <> String "{" (String "{" t)) -> parse_expression s = None.
Proof.
  intros s H. destruct (parse_expression s) as [[r seg]|] eqn:E; auto.
  exfalso. apply parse_expression_sound in E. destruct E as (p & e & _ & W & ->).
  inv W; eapply H; cbn; reflexivity.
Qed.

Lemma written_expr_open : forall p e, written_expr p e -> exists t, e = String "{" (String "{" t).
Proof. intros. inv H; cbn; eauto. Qed.

(** ** Literals *)
Lemma take_until_none : forall s, take_until s = None <-> braceless s.
Proof.
  unfold braceless. induction s as [|c t IH].
  - cbn. split; auto. intros _ [|? ?]; discriminate.
  - cbn. destruct (match t with String d _ => (Ascii.eqb c "{" && Ascii.eqb d "{")%bool | EmptyString => false end) eqn:E.
    + split; [discriminate|]. intros H. exfalso. destruct t as [|d t]; [discriminate|].
      apply andb_true_iff in E. rewrite !Ascii.eqb_eq in E. destruct E; subst.
      apply (H "" t). reflexivity.
    + split.
      * intros H a b EQ. destruct (take_until t) as [[? ?]|] eqn:T; [discriminate|].
        destruct a as [|x a]; cbn in EQ; inversion EQ; subst.
        -- cbn in E. discriminate.
        -- destruct IH as [IH _]. apply (IH eq_refl a b). reflexivity.
      * intros H. destruct (take_until t) as [[? ?]|] eqn:T; auto.
        assert (K : Some (s, s0) = None); [|discriminate].
        apply IH. intros a b EQ. subst. apply (H (String c a) b). reflexivity.
Qed.

Lemma take_until_some : forall s rest txt,
  take_until s = Some (rest, txt) ->
  s = (txt ++ rest)%string /\ (exists t, rest = String "{" (String "{" t)) /\
  braceless (txt ++ "{")%string.
Proof.
  induction s as [|c t IH]; cbn; intros rest txt H; [discriminate|].
  destruct (match t with String d _ => (Ascii.eqb c "{" && Ascii.eqb d "{")%bool | EmptyString => false end) eqn:E.
  - inv H. destruct t as [|d t]; [discriminate|].
    apply andb_true_iff in E. rewrite !Ascii.eqb_eq in E. destruct E; subst.
    repeat split; eauto. intros [|x a] b; cbn; [discriminate|]. intros K. inversion K.
    destruct a; discriminate.
  - destruct (take_until t) as [[r x]|] eqn:T; [|discriminate]. inv H.
    destruct (IH _ _ eq_refl) as (-> & (u & ->) & B).
    repeat split; eauto.
    intros [|y a] b K; cbn in K; inversion K; subst.
    + cbn in E. destruct x as [|z x]; cbn in *; [discriminate|]. inversion H1; subst. discriminate.
    + apply (B a b). auto.
Qed.

Lemma take_until_complete : forall t x,
  braceless (t ++ "{")%string -> take_until (t ++ String "{" (String "{" x)) = Some (String "{" (String "{" x), t).
Proof.
  induction t as [|c t IH]; intros x B.
  - reflexivity.
  - change (String c t ++ String "{" (String "{" x))%string with (String c (t ++ String "{" (String "{" x))).
    cbn [take_until].
    assert (E : match (t ++ String "{" (String "{" x))%string with
                | String d _ => (Ascii.eqb c "{" && Ascii.eqb d "{")%bool
                | EmptyString => false end = false).
    { destruct (Ascii.eqb c "{") eqn:C.
      - apply Ascii.eqb_eq in C. subst c. destruct t as [|d t]; cbn.
        + exfalso. apply (B "" ""). reflexivity.
        + destruct (Ascii.eqb d "{") eqn:D; auto. apply Ascii.eqb_eq in D. subst.
          exfalso. apply (B "" (t ++ "{")%string). reflexivity.
      - destruct (t ++ String "{" (String "{" x))%string; auto. }
    rewrite E, IH; auto.
    intros a b K. apply (B (String c a) b). cbn. rewrite K. auto.
Qed.

Lemma not_open : forall t x, t <> "" -> braceless (t ++ "{")%string ->
  forall u, (t ++ String "{" x)%string <> String "{" (String "{" u).
Proof.
  intros t x NE B u H. destruct t as [|c t]; [congruence|]. cbn in H. inversion H; subst.
  destruct t as [|d t]; cbn in *.
  - apply (B "" ""). reflexivity.
  - inversion H2; subst. apply (B "" (t ++ "{")%string). reflexivity.
Qed.

(** ** Whole templates *)
Definition with_rest (segs : list segment) (r : string) : list segment :=
  match r with EmptyString => segs | _ => segs ++ [Literal r] end.

Lemma with_rest_cons : forall g segs r, with_rest (g :: segs) r = g :: with_rest segs r.
Proof. destruct r; auto. Qed.

Lemma written_expr_len : forall p e, written_expr p e -> 2 <= slen e.
Proof. intros p e H. destruct (written_expr_open _ _ H) as [t ->]. cbn. lia. Qed.

Lemma many_complete : forall segs s, written segs s ->
  forall fuel, slen s <= fuel ->
  exists r out, many_segments fuel s = Some (r, out) /\ segs = with_rest out r.
Proof.
  assert (STEP : forall fuel s rest seg,
    parse_one s = Some (rest, seg) -> slen rest < slen s -> slen s <= fuel ->
    exists fuel', slen rest <= fuel' /\
    many_segments fuel s = match many_segments fuel' rest with
                           | None => None | Some (r, segs) => Some (r, seg :: segs) end).
  { intros fuel s rest seg P L F. destruct fuel as [|fuel]; [lia|]. exists fuel. split; [lia|].
    cbn [many_segments]. rewrite P. destruct (Nat.eqb_spec (slen rest) (slen s)); [lia|]. auto. }
  induction 1; intros fuel L.
  - exists "", []. destruct fuel; auto.
  - assert (P : parse_one t = None).
    { unfold parse_one. rewrite parse_expression_none.
      - rewrite (proj2 (take_until_none t)); auto.
      - intros u ->. apply (H0 "" u). reflexivity. }
    exists t, []. split.
    + destruct fuel; cbn [many_segments]; rewrite P; auto.
    + destruct t; [congruence|]. auto.
  - assert (P : parse_one (s ++ rest) = Some (rest, Expression p)).
    { unfold parse_one. rewrite (parse_expression_complete p); auto. }
    pose proof (written_expr_len _ _ H).
    destruct (STEP fuel _ _ _ P) as (fuel' & L' & E); auto.
    { rewrite str_app_length. lia. }
    destruct (IHwritten fuel' L') as (r & out & M & ->).
    rewrite E, M. exists r, (Expression p :: out). rewrite with_rest_cons. auto.
  - destruct (written_expr_open _ _ H1) as [u Eu].
    assert (P : parse_one (t ++ s ++ rest) = Some ((s ++ rest)%string, Literal t)).
    { unfold parse_one. rewrite parse_expression_none.
      - subst s. cbn [String.append]. rewrite take_until_complete; auto.
      - subst s. cbn [String.append]. apply not_open; auto. }
    assert (P2 : parse_one (s ++ rest) = Some (rest, Expression p)).
    { unfold parse_one. rewrite (parse_expression_complete p); auto. }
    pose proof (written_expr_len _ _ H1).
    destruct (STEP fuel _ _ _ P) as (fuel' & L' & E); auto.
    { rewrite (str_app_length t). destruct t; [congruence|]. cbn. lia. }
    destruct (STEP fuel' _ _ _ P2) as (fuel2 & L2 & E2); auto.
    { rewrite str_app_length. lia. }
    destruct (IHwritten fuel2 L2) as (r & out & M & ->).
    rewrite E, E2, M. exists r, (Literal t :: Expression p :: out). rewrite !with_rest_cons. auto.
Qed.

Lemma many_sound : forall fuel s r out, slen s <= fuel ->
  many_segments fuel s = Some (r, out) -> written (with_rest out r) s.
Proof.
  induction fuel as [|fuel IH]; intros s r out L H.
  - apply Nat.le_0_r, str_length_nil in L. subst. cbn in H. inv H. constructor.
  - cbn [many_segments] in H. destruct (parse_one s) as [[rest seg]|] eqn:P.
    + destruct (Nat.eqb_spec (slen rest) (slen s)); [discriminate|].
      destruct (many_segments fuel rest) as [[r' segs]|] eqn:M; [|discriminate]. inv H.
      unfold parse_one in P. destruct (parse_expression s) as [[r1 s1]|] eqn:PE.
      * inv P. apply parse_expression_sound in PE. destruct PE as (p & e & -> & W & ->).
        rewrite with_rest_cons. constructor; auto. apply IH; auto.
        rewrite str_app_length in L. pose proof (written_expr_len _ _ W). lia.
      * destruct (take_until s) as [[r1 txt]|] eqn:T; [|discriminate]. inv P.
        apply take_until_some in T. destruct T as (-> & (u & ->) & B).
        rewrite str_app_length in *.
        assert (txt <> "") by (intros ->; cbn in *; lia).
        assert (Lr : slen (String "{" (String "{" u)) <= fuel).
        { destruct txt; [congruence|]. cbn in *. lia. }
        specialize (IH _ _ _ Lr M). rewrite with_rest_cons.
        remember (with_rest segs r) as g. remember (String "{" (String "{" u)) as w.
        inv IH.
        -- discriminate.
        -- exfalso. apply (H1 "" u). auto.
        -- econstructor; eauto.
        -- exfalso. destruct (written_expr_open _ _ H2) as [x ->].
           eapply (not_open t); eauto.
    + inv H. unfold parse_one in P. destruct (parse_expression r) as [[? ?]|]; [discriminate|].
      destruct (take_until r) as [[? ?]|] eqn:T; [discriminate|].
      apply take_until_none in T. destruct r; cbn; constructor; auto. discriminate.
Qed.

Lemma parse_segment_complete : forall segs s, written segs s -> parse_segment s = segs.
Proof.
  intros segs s H. unfold parse_segment.
  destruct (many_complete _ _ H (slen s) (le_n _)) as (r & out & -> & ->).
  destruct r; auto.
Qed.

Lemma parse_segment_sound : forall s,
  written (parse_segment s) s \/
  (parse_segment s = [Literal s] /\ forall segs, ~ written segs s).
Proof.
  intros s. unfold parse_segment. destruct (many_segments (slen s) s) as [[r out]|] eqn:M.
  - left. pose proof (many_sound _ _ _ _ (le_n _) M). destruct r; auto.
  - right. split; auto. intros segs W.
    destruct (many_complete _ _ W (slen s) (le_n _)) as (r & out & E & _). congruence.
Qed.

Definition lone_quote (s : segment) : Prop := s = Literal """".

Lemma written_keep : forall segs s, written segs s ->
  filter keep_segment segs = filter (fun x => match x with Literal t => negb (String.eqb t """") | _ => true end) segs.
Proof.
  assert (K : forall t, t <> "" -> keep_segment (Literal t) = negb (String.eqb t """")).
  { intros t N. cbn. destruct (String.eqb_spec t ""); [congruence|]. auto. }
  induction 1; cbn [filter]; auto.
  - rewrite K; auto.
  - cbn [keep_segment]. f_equal. auto.
  - rewrite K; auto. cbn [keep_segment]. rewrite IHwritten. auto.
Qed.

Lemma filter_all : forall {A} (f : A -> bool) l, Forall (fun x => f x = true) l -> filter f l = l.
Proof. induction 1; cbn; auto. rewrite H, IHForall. auto. Qed.

Lemma parse_written : forall segs s,
  written segs s -> ~ In (Literal """") segs -> parse s = segs.
Proof.
  intros segs s W N. unfold parse. rewrite (parse_segment_complete _ _ W), (written_keep _ _ W).
  apply filter_all. apply Forall_forall. intros [t|p] I; auto.
  destruct (String.eqb_spec t """"); auto. subst. contradiction.
Qed.

Lemma parse_not_written : forall s,
  (forall segs, ~ written segs s) -> parse s = [Literal s].
Proof.
  intros s H. unfold parse. destruct (parse_segment_sound s) as [W|[-> _]].
  - exfalso. eapply H; eauto.
  - cbn. destruct (String.eqb_spec s "").
    { subst. exfalso. apply (H []). constructor. }
    destruct (String.eqb_spec s """"); auto.
    subst. exfalso. apply (H [Literal """"]). constructor; auto.
    intros [|x [|y a]] b; cbn; discriminate.
Qed.

Lemma written_fun : forall segs segs' s, written segs s -> written segs' s -> segs = segs'.
Proof.
  intros. apply parse_segment_complete in H, H0. congruence.
Qed.

Lemma quote_refuted : exists s segs,
  written segs s /\ (forall f, render f (parse s) <> render f segs).
Proof.
  exists """{{.a}}""", [Literal """"; Expression ["a"]; Literal """"].
  assert (W : written [Literal """"; Expression ["a"]; Literal """"] ("""" ++ "{{.a}}" ++ """")).
  { apply W_text_expr.
    - discriminate.
    - intros [|x [|y [|z a]]] b; cbn; discriminate.
    - apply (WE_dot ["a"] "a"). apply (WP_one "a" "" ""); constructor; try constructor; reflexivity.
    - constructor; [discriminate|]. intros [|x [|y a]] b; cbn; discriminate. }
  split; [exact W|].
  intros f. assert (E : parse """{{.a}}""" = [Expression ["a"]]) by reflexivity.
  rewrite E. cbn. destruct (f ["a"]) as [v|]; [|discriminate].
  intros K. apply (f_equal slen) in K. cbn in K. rewrite str_app_length in K. cbn in K. lia.
Qed.

(** ** Printing *)
Lemma show_path : forall p, p <> [] -> Forall name p -> written_path p (String.concat "." p).
Proof.
  induction p as [|n p IH]; intros NE F; [congruence|]. inv F. destruct p as [|m p].
  - cbn. replace n with ("" ++ n ++ "")%string at 2 by (cbn; apply str_app_nil_r).
    constructor; auto; constructor.
  - exact (WP_more n "" "" (m :: p) (String.concat "." (m :: p)) H1 B_nil B_nil
             (IH ltac:(discriminate) H2)).
Qed.

Lemma show_expr : forall p, p <> [] -> Forall name p -> written_expr p (show_segment (Expression p)).
Proof. intros. cbn [show_segment]. apply WE_dot, show_path; auto. Qed.

Lemma show_written : forall segs, canonical segs -> written segs (show segs).
Proof.
  unfold show. induction 1; cbn [map].
  - constructor.
  - cbn. constructor; auto.
  - rewrite concat_nil_cons. constructor; auto. apply show_expr; auto.
  - rewrite !concat_nil_cons.
    exact (W_text_expr t p _ segs _ H H0 (show_expr p H1 H2) IHcanonical).
Qed.

Lemma parse_show : forall segs,
  canonical segs -> ~ In (Literal """") segs -> parse (show segs) = segs.
Proof. intros. apply parse_written; auto. apply show_written; auto. Qed.

(** ** Rendering *)
Lemma render_rendered : forall f segs s, rendered f segs s <-> render f segs = s.
Proof.
  intros f. unfold render. induction segs as [|g segs IH]; intros s; cbn [map].
  - cbn. split; [intros H; inv H; auto|]. intros <-. constructor.
  - rewrite concat_nil_cons. split.
    + intros H. inv H; apply IH in H4 || apply IH in H3; subst; auto.
      * rewrite H2. auto.
      * rewrite H2. auto.
    + intros <-. destruct g as [t|p].
      * constructor. apply IH. auto.
      * destruct (f p) eqn:E; [constructor|apply R_absent]; auto; apply IH; auto.
Qed.

Lemma render_parse : forall f segs s,
  written segs s -> ~ In (Literal """") segs ->
  forall out, render f (parse s) = out <-> rendered f segs out.
Proof. intros. rewrite (parse_written segs); auto. symmetry. apply render_rendered. Qed.

Lemma const_written : forall segs s, written segs s -> mustache_is_const (filter keep_segment segs) = true ->
  segs = [] /\ s = "" \/ segs = [Literal s].
Proof.
  intros segs s H C. inv H; auto.
  - cbn in C. discriminate.
  - cbn in C. destruct (negb (String.eqb t "") && negb (String.eqb t """"))%bool; discriminate.
Qed.

Lemma render_const : forall s f, mustache_is_const (parse s) = true -> s <> """" ->
  render f (parse s) = s.
Proof.
  intros s f C N. unfold parse in *.
  assert (L : forall s, s <> """" -> render f (filter keep_segment [Literal s]) = s).
  { clear. intros s N. cbn. destruct (String.eqb_spec s ""); [subst; auto|].
    destruct (String.eqb_spec s """"); [congruence|]. reflexivity. }
  destruct (parse_segment_sound s) as [W|[-> _]]; auto.
  destruct (const_written _ _ W C) as [[E ->]| ->]; auto.
Qed.

Lemma render_const_any : forall m f g, mustache_is_const m = true -> render f m = render g m.
Proof.
  unfold render. induction m as [|[t|p] m IH]; cbn [map mustache_is_const]; intros; auto; [|discriminate].
  rewrite !concat_nil_cons. f_equal. auto.
Qed.

Lemma partial_total : forall f m,
  (forall p, In (Expression p) m -> f p <> None) -> eval_partial f m = render f m.
Proof.
  unfold eval_partial, render. induction m as [|[t|p] m IH]; intros H; auto; cbn [map];
    rewrite !concat_nil_cons, IH; auto with datatypes.
  destruct (f p) eqn:E; auto. exfalso. apply (H p); auto with datatypes.
Qed.

Lemma partial_absent : forall f m,
  (forall p, In (Expression p) m -> f p = None) -> eval_partial f m = show m.
Proof.
  intros f m H. unfold eval_partial. change (show m) with (String.concat "" (map show_segment m)).
  f_equal. apply map_ext_in. intros [t|p] I; auto. rewrite H; auto.
Qed.
