(** Proofs for REST endpoints. *)
From Coq Require Import String Ascii ZArith NArith Bool Lia Arith List.
From Verif Require Import Base BaseFacts StringFacts JsonModel JsonSpec JsonProofs RestModel RestSpec.
Import ListNotations.
Open Scope string_scope.
Open Scope list_scope.

(** * Cutting at slashes *)
Definition noslash (x : string) : Prop := forall a b, x <> String.append a (String "/" b).

Lemma noslash_nil : noslash "".
Proof. intros [|c a] b; discriminate. Qed.

Lemma noslash_cons c t : noslash (String c t) <-> c <> "/"%char /\ noslash t.
Proof.
  split.
  - intros H. split.
    + intros ->. apply (H "" t). reflexivity.
    + intros a b ->. apply (H (String c a) b). reflexivity.
  - intros [H1 H2] [|c' a] b E; cbn in E; injection E as E1 E2.
    + congruence.
    + subst. apply (H2 a b). reflexivity.
Qed.

Lemma noslash_snoc x c : noslash x -> c <> "/"%char -> noslash (String.append x (String c "")).
Proof.
  intros H Hc. induction x as [|d x IH]; cbn.
  - apply noslash_cons. split; [exact Hc|apply noslash_nil].
  - apply noslash_cons in H as [H1 H2]. apply noslash_cons. split; auto.
Qed.

Notation nonempty := (fun x => negb (String.eqb x "")).

Lemma split_slash_cut s : forall cur, noslash cur -> cut (String.append cur s) (filter nonempty (split_slash s cur)).
Proof.
  induction s as [|c t IH]; intros cur H; cbn [split_slash].
  - rewrite str_app_nil_r. cbn [filter]. destruct (String.eqb_spec cur "") as [->|N]; cbn.
    + constructor.
    + constructor. split; auto.
  - destruct (Ascii.eqb_spec c "/") as [->|Hc].
    + cbn [filter]. specialize (IH "" noslash_nil). cbn in IH.
      destruct (String.eqb_spec cur "") as [->|N]; cbn [negb].
      * cbn. now constructor.
      * apply cut_piece; [split; auto|exact IH].
    + rewrite str_app_cons_shift. apply IH. now apply noslash_snoc.
Qed.

Lemma split_slash_word x : forall cur, noslash x -> split_slash x cur = [String.append cur x].
Proof.
  induction x as [|c x IH]; intros cur H; cbn.
  - now rewrite str_app_nil_r.
  - apply noslash_cons in H as [H1 H2]. destruct (Ascii.eqb_spec c "/") as [->|_]; [congruence|].
    rewrite IH by exact H2. now rewrite (str_app_cons_shift cur c x).
Qed.

Lemma split_slash_app x s : forall cur, noslash x ->
  split_slash (String.append x (String "/" s)) cur = String.append cur x :: split_slash s "".
Proof.
  induction x as [|c x IH]; intros cur H; cbn [String.append split_slash].
  - now rewrite str_app_nil_r.
  - apply noslash_cons in H as [H1 H2]. destruct (Ascii.eqb_spec c "/") as [->|_]; [congruence|].
    rewrite IH by exact H2. now rewrite (str_app_cons_shift cur c x).
Qed.

Lemma cut_iff s l : cut s l <-> pieces s = l.
Proof.
  split.
  - unfold pieces. induction 1 as [|s l H IH|x [N H]|x s l [N H] _ IH].
    + reflexivity.
    + cbn. exact IH.
    + rewrite split_slash_word by exact H. cbn. destruct (String.eqb_spec x ""); [congruence|reflexivity].
    + rewrite split_slash_app by exact H. cbn.
      destruct (String.eqb_spec x ""); [congruence|]. cbn. now rewrite IH.
  - intros <-. apply (split_slash_cut s ""). apply noslash_nil.
Qed.

(** * Reading values *)
Lemma digits_value_from s : forall acc, digits_value acc s = digits_from acc s.
Proof. induction s as [|c t IH]; intros acc; cbn [digits_value digits_from]; [reflexivity|]. destruct (digit_value c); auto. Qed.

Lemma in_i64_iff z : in_i64 z = true <-> (- 2 ^ 63 <= z < 2 ^ 63)%Z.
Proof. unfold in_i64. rewrite andb_true_iff, Z.leb_le, Z.ltb_lt. reflexivity. Qed.

Definition finish (neg : bool) (t : string) :=
  match t with
  | EmptyString => None
  | _ => match digits_value 0 t with
         | Some n => let z := if neg then (- Z.of_N n)%Z else Z.of_N n in if in_i64 z then Some z else None
         | None => None
         end
  end.

Lemma finish_iff neg t z :
  finish neg t = Some z <->
  exists n, digits t n /\ z = (if neg then (- Z.of_N n)%Z else Z.of_N n) /\ (- 2 ^ 63 <= z < 2 ^ 63)%Z.
Proof.
  unfold finish. split.
  - intros H. destruct t as [|c t]; [discriminate|].
    rewrite digits_value_from in H. destruct (digits_from 0 (String c t)) as [n|] eqn:E; [|discriminate].
    exists n. split; [apply digits_iff; split; [discriminate|exact E]|].
    cbv zeta in H. destruct (in_i64 (if neg then (- Z.of_N n)%Z else Z.of_N n)) eqn:I; [|discriminate].
    injection H as <-. split; [reflexivity|]. now apply in_i64_iff.
  - intros (n & D & -> & R). apply digits_iff in D as [N D].
    destruct t as [|c t]; [congruence|]. rewrite digits_value_from, D. cbv zeta.
    now rewrite (proj2 (in_i64_iff _) R).
Qed.

Lemma parse_i64_eq s : parse_i64 s =
  match s with
  | String c t => if Ascii.eqb c "+" then finish false t else if Ascii.eqb c "-" then finish true t else finish false s
  | EmptyString => None
  end.
Proof. reflexivity. Qed.

Lemma digits_not_sign c t n : digits (String c t) n -> c <> "+"%char /\ c <> "-"%char.
Proof.
  intros D. apply digits_iff in D as [_ D]. cbn [digits_from] in D.
  split; intros ->; vm_compute in D; discriminate.
Qed.

Lemma parse_i64_iff s z : parse_i64 s = Some z <-> integer_text s z /\ (- 2 ^ 63 <= z < 2 ^ 63)%Z.
Proof.
  rewrite parse_i64_eq. unfold integer_text. split.
  - destruct s as [|c t]; [discriminate|].
    destruct (Ascii.eqb_spec c "+") as [->|N1].
    { rewrite finish_iff. intros (n & D & -> & R). split; [|exact R]. exists t, n. auto. }
    destruct (Ascii.eqb_spec c "-") as [->|N2].
    { rewrite finish_iff. intros (n & D & -> & R). split; [|exact R]. exists t, n. auto. }
    rewrite finish_iff. intros (n & D & -> & R). split; [|exact R]. exists (String c t), n. auto.
  - intros [(d & n & D & [[-> ->]|[[-> ->]|[-> ->]]]) R].
    + destruct d as [|c t]; [apply digits_iff in D as [D _]; congruence|].
      destruct (digits_not_sign _ _ _ D) as [N1 N2].
      destruct (Ascii.eqb_spec c "+"); [congruence|]. destruct (Ascii.eqb_spec c "-"); [congruence|].
      apply finish_iff. exists n. auto.
    + change (Ascii.eqb "+" "+") with true. cbv iota. apply finish_iff. exists n. auto.
    + change (Ascii.eqb "-" "+") with false. change (Ascii.eqb "-" "-") with true. cbv iota. apply finish_iff. exists n. auto.
Qed.

Section Proofs.
  Variable parse_f64 : string -> option value.
  Notation to_value := (to_value parse_f64).
  Notation reads := (reads parse_f64).
  Notation fits := (fits parse_f64).

  Lemma to_value_iff t x v : to_value t x = Some v <-> reads t x v.
  Proof.
    split.
    - destruct t; cbn; intros H.
      + injection H as <-. constructor.
      + destruct (parse_i64 x) as [z|] eqn:E; [|discriminate]. injection H as <-.
        apply parse_i64_iff in E as [E R]. now constructor.
      + now constructor.
      + destruct (String.eqb_spec x "true") as [->|]; [injection H as <-; constructor|].
        destruct (String.eqb_spec x "false") as [->|]; [injection H as <-; constructor|discriminate].
    - intros H; destruct H as [| x z I R | | |]; cbn; auto.
      rewrite (proj2 (parse_i64_iff x z)) by auto. reflexivity.
  Qed.

  Lemma reads_fun t x v w : reads t x v -> reads t x w -> v = w.
  Proof. rewrite <- !to_value_iff. congruence. Qed.

  Lemma match_segments_iff segs : forall rs vars out,
    match_segments parse_f64 segs rs vars = Some out <->
    exists p1 p2 b, segs = p1 ++ p2 /\ fits p1 rs b /\
                    out = fold_left (fun m kv => aset (fst kv) (snd kv) m) b vars.
  Proof.
    induction segs as [|s segs IH]; intros rs vars out; cbn [match_segments].
    - destruct rs as [|r rs].
      + split.
        * intros [= <-]. exists [], [], []. split; [reflexivity|]. split; [constructor|reflexivity].
        * intros (p1 & p2 & b & E & F & ->). symmetry in E. apply app_eq_nil in E as [-> ->].
          inversion F; subst. reflexivity.
      + split; [discriminate|]. intros (p1 & p2 & b & E & F & _).
        symmetry in E. apply app_eq_nil in E as [-> ->]. inversion F.
    - destruct rs as [|r rs].
      + assert (X : Some vars = Some out <->
                    exists p1 p2 b, s :: segs = p1 ++ p2 /\ fits p1 [] b /\
                    out = fold_left (fun m kv => aset (fst kv) (snd kv) m) b vars).
        { split.
          * intros [= <-]. exists [], (s :: segs), []. split; [reflexivity|]. split; [constructor|reflexivity].
          * intros (p1 & p2 & b & E & F & ->). inversion F; subst. reflexivity. }
        destruct s; exact X.
      + destruct s as [s|v].
        * destruct (String.eqb_spec s r) as [->|N].
          -- rewrite IH. split.
             ++ intros (p1 & p2 & b & -> & F & ->). exists (Literal r :: p1), p2, b.
                split; [reflexivity|]. split; [now constructor|reflexivity].
             ++ intros (p1 & p2 & b & E & F & ->). destruct p1 as [|q p1]; [inversion F|].
                injection E as <- ->. inversion F; subst. exists p1, p2, b. auto.
          -- split; [discriminate|]. intros (p1 & p2 & b & E & F & _).
             destruct p1 as [|q p1]; [inversion F|]. injection E as <- _. inversion F; subst. congruence.
        * destruct (to_value (v_type v) r) as [y|] eqn:T.
          -- rewrite IH. split.
             ++ intros (p1 & p2 & b & -> & F & ->). exists (Param v :: p1), p2, ((v_name v, y) :: b).
                split; [reflexivity|]. split; [|reflexivity].
                constructor; [now apply to_value_iff|exact F].
             ++ intros (p1 & p2 & b & E & F & ->). destruct p1 as [|q p1]; [inversion F|].
                injection E as <- ->. inversion F; subst.
                apply to_value_iff in H4. assert (y0 = y) by congruence. subst.
                eexists p1, p2, _. split; [reflexivity|]. split; [eassumption|]. reflexivity.
          -- split; [discriminate|]. intros (p1 & p2 & b & E & F & _).
             destruct p1 as [|q p1]; [inversion F|]. injection E as <- _. inversion F; subst.
             apply to_value_iff in H4. congruence.
  Qed.

  Lemma fold_aset_get {A} n (b : list (string * A)) : forall m,
    aget n (fold_left (fun m kv => aset (fst kv) (snd kv) m) b m) =
    match bound b n with Some v => Some v | None => aget n m end.
  Proof.
    unfold bound. induction b as [|[k v] b IH]; intros m; cbn [fold_left rev]; [reflexivity|].
    rewrite IH, aget_app. destruct (aget n (rev b)); [reflexivity|].
    cbn [fst snd aget]. rewrite aget_aset. now destruct (String.eqb n k).
  Qed.

  Lemma aget_rev_nodup {A} n (m : list (string * A)) : NoDup (akeys m) -> aget n (rev m) = aget n m.
  Proof.
    intros D. destruct (aget n m) as [v|] eqn:E.
    - apply NoDup_aget.
      + unfold akeys. rewrite map_rev. now apply NoDup_rev.
      + apply -> in_rev. now apply aget_In.
    - apply aget_None in E. apply aget_None. unfold akeys. rewrite map_rev, <- in_rev. exact E.
  Qed.

  Lemma fold_aset_nodup {A} (b : list (string * A)) : forall m,
    NoDup (akeys m) -> NoDup (akeys (fold_left (fun m kv => aset (fst kv) (snd kv) m) b m)).
  Proof. induction b as [|[k v] b IH]; intros m D; cbn; [exact D|]. apply IH. now apply NoDup_aset. Qed.

  Lemma query_map_get q n : aget n (query_map q) = given q n.
  Proof. unfold query_map. rewrite fold_aset_get. unfold bound, given. now destruct (aget n (rev q)). Qed.

  (** The query parameters found, in declaration order. *)
  Lemma match_query_iff ps q : forall vars out,
    match_query parse_f64 ps (query_map q) vars = Some out <->
    query_readable parse_f64 ps q /\
    exists b, out = fold_left (fun m kv => aset (fst kv) (snd kv) m) b vars /\
      (forall n y, In (n, y) b <-> exists k tv x, In (k, tv) ps /\ v_name tv = n /\ given q k = Some x /\ reads (v_type tv) x y) /\
      b = flat_map (fun p => match given q (fst p) with
                             | Some x => match to_value (v_type (snd p)) x with Some y => [(v_name (snd p), y)] | None => [] end
                             | None => [] end) ps.
  Proof.
    intros vars out.
    assert (M : match_query parse_f64 ps (query_map q) vars = Some out <->
      query_readable parse_f64 ps q /\ out = fold_left (fun m kv => aset (fst kv) (snd kv) m)
        (flat_map (fun p => match given q (fst p) with
                             | Some x => match to_value (v_type (snd p)) x with Some y => [(v_name (snd p), y)] | None => [] end
                             | None => [] end) ps) vars).
    { revert vars out. induction ps as [|[k tv] ps IH]; intros vars out; cbn [match_query flat_map].
      - split; [intros [= <-]; split; [intros ? ? ? []|reflexivity]|intros [_ ->]; reflexivity].
      - rewrite query_map_get. cbn [fst snd]. destruct (given q k) as [x|] eqn:G.
        + destruct (to_value (v_type tv) x) as [y|] eqn:T.
          * rewrite IH. cbn [app fold_left fst snd]. split.
            -- intros [R ->]. split; [|reflexivity]. intros k' tv' x' [[= <- <-]|I] G'.
               ++ exists y. apply to_value_iff. congruence.
               ++ eauto.
            -- intros [R ->]. split; [|reflexivity]. intros k' tv' x' I G'. eapply R; [right; exact I|exact G'].
          * split; [discriminate|]. intros [R _]. destruct (R k tv x) as [y Y]; [now left|exact G|].
            apply to_value_iff in Y. congruence.
        + rewrite IH. cbn [app]. split.
          * intros [R ->]. split; [|reflexivity]. intros k' tv' x' [[= <- <-]|I] G'; [congruence|eauto].
          * intros [R ->]. split; [|reflexivity]. intros k' tv' x' I G'. eapply R; [right; exact I|exact G']. }
    rewrite M. split.
    - intros [R ->]. split; [exact R|]. eexists. split; [reflexivity|]. split; [|reflexivity].
      intros n y. rewrite in_flat_map. split.
      + intros ([k tv] & I & J). cbn [fst snd] in J. destruct (given q k) as [x|] eqn:G; [|destruct J].
        destruct (to_value (v_type tv) x) as [y'|] eqn:T; [|destruct J].
        destruct J as [[= <- <-]|[]]. exists k, tv, x. rewrite <- to_value_iff. auto.
      + intros (k & tv & x & I & <- & G & Y). exists (k, tv). split; [exact I|]. cbn [fst snd]. rewrite G.
        apply to_value_iff in Y. rewrite Y. now left.
    - intros [R (b & -> & _ & ->)]. auto.
  Qed.

  Lemma bound_in {A} (b : list (string * A)) n y : bound b n = Some y -> In (n, y) b.
  Proof. unfold bound. intros H. apply aget_In in H. now apply in_rev. Qed.

  Lemma bound_none {A} (b : list (string * A)) n : bound b n = None <-> ~ In n (akeys b).
  Proof. unfold bound. rewrite aget_None. unfold akeys. rewrite map_rev, <- in_rev. reflexivity. Qed.

  Lemma in_bound {A} (b : list (string * A)) n y : In (n, y) b -> exists z, bound b n = Some z.
  Proof.
    intros I. destruct (bound b n) eqn:E; [eauto|]. apply bound_none in E. exfalso. apply E.
    change n with (fst (n, y)). now apply in_map.
  Qed.

  (** * Whole endpoints *)
  Lemma merge_get a b n :
    aget n (merge_variables (merge_variables [] a) b) =
    match bound b n with Some v => Some v | None => bound a n end.
  Proof.
    unfold merge_variables. rewrite fold_aset_get.
    destruct (bound b n) eqn:E; [reflexivity|].
    rewrite fold_aset_get. cbn [fold_left].
    assert (D : NoDup (akeys (fold_left (fun m kv => aset (fst kv) (snd kv) m) a ([] : list (string * value))))).
    { apply fold_aset_nodup. constructor. }
    unfold bound at 1. rewrite aget_rev_nodup by exact D. rewrite fold_aset_get.
    destruct (bound a n); reflexivity.
  Qed.

  Definition query_bindings (ps : list (string * typed_variable)) (q : list (string * string)) :=
    flat_map (fun p => match given q (fst p) with
                       | Some x => match to_value (v_type (snd p)) x with Some y => [(v_name (snd p), y)] | None => [] end
                       | None => [] end) ps.

  Lemma match_endpoint_iff e r vars :
    match_endpoint parse_f64 e r = Some vars <->
    e_method e = u_method r /\ query_readable parse_f64 (e_query e) (u_query r) /\
    exists rs p1 p2 b, cut (u_path r) rs /\ e_path e = p1 ++ p2 /\ fits p1 rs b /\
      vars = merge_variables
               (merge_variables [] (fold_left (fun m kv => aset (fst kv) (snd kv) m) b []))
               (fold_left (fun m kv => aset (fst kv) (snd kv) m) (query_bindings (e_query e) (u_query r)) []).
  Proof.
    unfold match_endpoint, match_path. destruct (String.eqb_spec (e_method e) (u_method r)) as [Em|Nm].
    2:{ split; [discriminate|]. intros (H & _). congruence. }
    destruct (match_segments parse_f64 (e_path e) (pieces (u_path r)) []) as [path|] eqn:P.
    - apply match_segments_iff in P as (p1 & p2 & b & E & F & ->).
      destruct (match_query parse_f64 (e_query e) (query_map (u_query r)) []) as [qs|] eqn:Q.
      + apply match_query_iff in Q as [R (b' & -> & _ & ->)]. split.
        * intros [= <-]. split; [exact Em|]. split; [exact R|]. exists (pieces (u_path r)), p1, p2, b.
          split; [now apply cut_iff|]. split; [exact E|]. split; [exact F|reflexivity].
        * intros (_ & _ & rs & q1 & q2 & b2 & C & E2 & F2 & ->). apply cut_iff in C. subst rs.
          assert (X : match_segments parse_f64 (e_path e) (pieces (u_path r)) [] =
                      Some (fold_left (fun m kv => aset (fst kv) (snd kv) m) b2 [])).
          { apply match_segments_iff. exists q1, q2, b2. auto. }
          assert (Y : match_segments parse_f64 (e_path e) (pieces (u_path r)) [] =
                      Some (fold_left (fun m kv => aset (fst kv) (snd kv) m) b [])).
          { apply match_segments_iff. exists p1, p2, b. auto. }
          rewrite X in Y. injection Y as ->. reflexivity.
      + split; [discriminate|]. intros (_ & R & _). exfalso.
        assert (X : match_query parse_f64 (e_query e) (query_map (u_query r)) [] =
                    Some (fold_left (fun m kv => aset (fst kv) (snd kv) m) (query_bindings (e_query e) (u_query r)) [])).
        { apply match_query_iff. split; [exact R|]. eexists. split; [reflexivity|]. split; [|reflexivity].
          intros n y. unfold query_bindings. rewrite in_flat_map. split.
          - intros ([k tv] & I & J). cbn [fst snd] in J. destruct (given (u_query r) k) as [x|] eqn:G; [|destruct J].
            destruct (to_value (v_type tv) x) as [y'|] eqn:T; [|destruct J].
            destruct J as [[= <- <-]|[]]. exists k, tv, x. rewrite <- to_value_iff. auto.
          - intros (k & tv & x & I & <- & G & Y). exists (k, tv). split; [exact I|]. cbn [fst snd]. rewrite G.
            apply to_value_iff in Y. rewrite Y. now left. }
        congruence.
    - split; [discriminate|]. intros (_ & _ & rs & q1 & q2 & b2 & C & E2 & F2 & _). apply cut_iff in C. subst rs.
      assert (X : match_segments parse_f64 (e_path e) (pieces (u_path r)) [] =
                  Some (fold_left (fun m kv => aset (fst kv) (snd kv) m) b2 [])).
      { apply match_segments_iff. exists q1, q2, b2. auto. }
      congruence.
  Qed.

  Lemma fold_bound {A} (b : list (string * A)) n :
    bound (fold_left (fun m kv => aset (fst kv) (snd kv) m) b []) n = bound b n.
  Proof.
    unfold bound at 1. rewrite aget_rev_nodup.
    - rewrite fold_aset_get. now destruct (bound b n).
    - apply fold_aset_nodup. constructor.
  Qed.

  (** The exact set of requests an endpoint answers, and its variables. *)
  Lemma match_exact e r :
    (exists vars, match_endpoint parse_f64 e r = Some vars) <->
    e_method e = u_method r /\ query_readable parse_f64 (e_query e) (u_query r) /\
    exists rs p1 p2 b, cut (u_path r) rs /\ e_path e = p1 ++ p2 /\ fits p1 rs b.
  Proof.
    split.
    - intros [vars H]. apply match_endpoint_iff in H as (A & B & rs & p1 & p2 & b & C & D & F & _).
      split; [exact A|]. split; [exact B|]. exists rs, p1, p2, b. auto.
    - intros (A & B & rs & p1 & p2 & b & C & D & F). eexists. apply match_endpoint_iff.
      split; [exact A|]. split; [exact B|]. exists rs, p1, p2, b. split; [exact C|].
      split; [exact D|]. split; [exact F|reflexivity].
  Qed.

  Lemma fits_length p rs b : fits p rs b -> length p = length rs.
  Proof. induction 1; cbn; congruence. Qed.

  Lemma same_length_prefix (segs p1 p2 : list segment) : segs = p1 ++ p2 -> length segs <= length p1 -> p2 = [] /\ p1 = segs.
  Proof.
    intros -> H. rewrite app_length in H. assert (length p2 = 0) by lia.
    destruct p2; [|discriminate]. rewrite app_nil_r. auto.
  Qed.

  (** C18, for requests with the declared number of segments and no query. *)
  Lemma match_same_length e r rs :
    cut (u_path r) rs -> length (e_path e) <= length rs -> u_query r = [] ->
    forall vars, match_endpoint parse_f64 e r = Some vars ->
      e_method e = u_method r /\ exists b, fits (e_path e) rs b /\ forall n, aget n vars = bound b n.
  Proof.
    intros C L Q vars H. apply match_endpoint_iff in H as (A & _ & rs' & p1 & p2 & b & C' & D & F & ->).
    apply cut_iff in C, C'. assert (rs' = rs) by congruence. subst rs'.
    split; [exact A|]. pose proof (fits_length _ _ _ F) as Lf.
    destruct (same_length_prefix _ _ _ D) as [-> ->]; [rewrite Lf, C; exact L|].
    exists b. split; [rewrite <- C; exact F|]. intros n. rewrite Q. rewrite merge_get, fold_bound, fold_bound.
    replace (query_bindings (e_query e) []) with ([] : list (string * value)).
    - reflexivity.
    - unfold query_bindings, given. cbn. induction (e_query e); cbn; auto.
  Qed.

  Lemma same_length_match e r rs b :
    cut (u_path r) rs -> u_query r = [] -> e_method e = u_method r -> fits (e_path e) rs b ->
    exists vars, match_endpoint parse_f64 e r = Some vars /\ forall n, aget n vars = bound b n.
  Proof.
    intros C Q A F.
    assert (X : exists vars, match_endpoint parse_f64 e r = Some vars).
    { apply match_exact. split; [exact A|]. split.
      - intros k tv x _. rewrite Q. discriminate.
      - exists rs, (e_path e), [], b. rewrite app_nil_r. auto. }
    destruct X as [vars X]. exists vars. split; [exact X|].
    destruct (match_same_length e r rs C (Nat.eq_le_incl _ _ (fits_length _ _ _ F)) Q vars X) as (_ & b' & F' & G).
    intros n. rewrite G. f_equal.
    revert F F'. clear. generalize (e_path e). intros p F. revert b'.
    induction F as [|s segs rs b F IH|v segs x rs y b R F IH]; intros b' F'; inversion F'; subst; auto.
    f_equal; [|auto]. f_equal. eapply reads_fun; eassumption.
  Qed.

  (** * Sets of endpoints *)
  Lemma match_set_some es r n vars :
    match_set parse_f64 es r = Some (n, vars) <->
    (exists e, nth_error es n = Some e /\ match_endpoint parse_f64 e r = Some vars) /\
    forall m e, m < n -> nth_error es m = Some e -> match_endpoint parse_f64 e r = None.
  Proof.
    revert n vars. induction es as [|e es IH]; intros n vars; cbn [match_set].
    - split; [discriminate|]. intros [(e & H & _) _]. destruct n; discriminate.
    - destruct (match_endpoint parse_f64 e r) as [vs|] eqn:M.
      + split.
        * intros [= <- <-]. split; [exists e; auto|]. intros m e' L. lia.
        * intros [(e' & H & M') H2]. destruct n as [|n].
          -- injection H as <-. congruence.
          -- specialize (H2 0 e). rewrite H2 in M; [discriminate|lia|reflexivity].
      + destruct (match_set parse_f64 es r) as [[m vs]|] eqn:S1.
        * split.
          -- intros [= <- <-]. destruct (proj1 (IH m vs) eq_refl) as [(e' & H & M') H2].
             split; [exists e'; auto|]. intros [|k] e2 L K; [injection K as <-; exact M|].
             apply (H2 k); [lia|exact K].
          -- intros [(e' & H & M') H2]. destruct n as [|n]; [injection H as <-; congruence|].
             assert (X : Some (m, vs) = Some (n, vars)).
             { apply IH. split; [exists e'; auto|]. intros k e2 L K. apply (H2 (S k)); [lia|exact K]. }
             injection X as -> ->. reflexivity.
        * split; [discriminate|]. intros [(e' & H & M') H2]. destruct n as [|n]; [injection H as <-; congruence|].
          assert (X : None = Some (n, vars)).
          { apply IH. split; [exists e'; auto|]. intros k e2 L K. apply (H2 (S k)); [lia|exact K]. }
          discriminate.
  Qed.

  Lemma match_set_none es r :
    match_set parse_f64 es r = None <-> forall e, In e es -> match_endpoint parse_f64 e r = None.
  Proof.
    induction es as [|e es IH]; cbn [match_set].
    - split; [intros _ e []|reflexivity].
    - destruct (match_endpoint parse_f64 e r) as [vs|] eqn:M.
      + split; [discriminate|]. intros H. specialize (H e (or_introl eq_refl)). congruence.
      + destruct (match_set parse_f64 es r) as [[m vs]|] eqn:S1.
        * split; [discriminate|]. intros H. assert (X : Some (m, vs) = None); [|discriminate].
          apply IH. intros e' I. apply H. now right.
        * split; [|reflexivity]. intros _ e' [<-|I]; [exact M|]. now apply IH.
  Qed.

  (** * Declarations *)
  Lemma parse_segments_iff types l : forall segs,
    parse_segments types l = Ok segs <-> Forall2 (stands_for types) l segs.
  Proof.
    assert (X : forall s l segs,
      (forall segs, parse_segments types l = Ok segs <-> Forall2 (stands_for types) l segs) ->
      (forall k, s <> String "$" k) ->
      match parse_segments types l with Ok r => Ok (Literal s :: r) | Err e => Err e end = Ok segs <->
      Forall2 (stands_for types) (s :: l) segs).
    { intros s l' segs IH N. split.
      - destruct (parse_segments types l') as [r|] eqn:P; [|discriminate]. intros [= <-].
        constructor; [now constructor|]. now apply IH.
      - intros F. inversion F as [|? q ? segs' A B]; subst. apply IH in B. rewrite B.
        inversion A; subst; [reflexivity|]. exfalso. eapply N. reflexivity. }
    induction l as [|s l IH]; intros segs; cbn [parse_segments].
    - split; [intros [= <-]; constructor|]. intros F. inversion F. reflexivity.
    - destruct s as [|c key].
      + apply X; [exact IH|discriminate].
      + destruct (Ascii.eqb_spec c "$") as [->|N].
        * split.
          -- destruct (aget key types) as [ty|] eqn:A; [|discriminate]. unfold typed.
             destruct (url_type_of ty) as [u|] eqn:U; [|discriminate].
             destruct (parse_segments types l) as [r|] eqn:P; [|discriminate]. intros [= <-].
             constructor; [now apply stands_param with ty|]. now apply IH.
          -- intros F. inversion F as [|? q ? segs' A B]; subst. apply IH in B.
             inversion A as [? N|? ty u Ht Hu]; subst; [exfalso; eapply N; reflexivity|].
             rewrite Ht. unfold typed. rewrite Hu, B. reflexivity.
        * apply X; [exact IH|]. intros k [= -> _]. congruence.
  Qed.

  Lemma query_params_iff types m : forall ps,
    query_params types m = Ok ps <->
    Forall2 (fun kv p => fst p = fst kv /\ v_name (snd p) = snd kv /\
                         exists ty, aget (fst kv) types = Some ty /\ url_type_of ty = Some (v_type (snd p))) m ps.
  Proof.
    induction m as [|[k v] m IH]; intros ps; cbn [query_params].
    - split; [intros [= <-]; constructor|]. intros F. inversion F. reflexivity.
    - split.
      + destruct (aget k types) as [ty|] eqn:A; [|discriminate]. unfold typed.
        destruct (url_type_of ty) as [u|] eqn:U; [|discriminate].
        destruct (query_params types m) as [r|] eqn:P; [|discriminate]. intros [= <-].
        constructor; [|now apply IH]. cbn. eauto.
      + intros F. inversion F as [|? [k' tv] ? ps' (A & B & ty & Ht & Hu) G]; subst. cbn in *. subst.
        apply IH in G. rewrite Ht. unfold typed. rewrite Hu, G. destruct tv. reflexivity.
  Qed.

  Lemma make_endpoint_iff types method path query body e :
    make_endpoint types method path query body = Ok e <->
    exists segs ps, parse_path types path = Ok segs /\ query_params types query = Ok ps /\
      e = {| e_method := method; e_path := segs; e_query := ps; e_body := body |}.
  Proof.
    unfold make_endpoint. split.
    - destruct (parse_path types path) as [segs|] eqn:P; [|discriminate].
      destruct (query_params types query) as [ps|] eqn:Q; [|discriminate]. intros [= <-]. eauto.
    - intros (segs & ps & -> & -> & ->). reflexivity.
  Qed.

  (** * The handler *)
  Lemma prefix_iff p s : String.prefix p s = true <-> exists b, s = String.append p b.
  Proof.
    split.
    - revert s. induction p as [|c p IH]; intros s H; [exists s; reflexivity|].
      destruct s as [|d s]; [discriminate|]. cbn in H. destruct (Ascii.ascii_dec c d) as [->|]; [|discriminate].
      apply IH in H as [b ->]. exists b. reflexivity.
    - intros [b ->]. induction p as [|c p IH]; cbn; [destruct b; reflexivity|]. now destruct (Ascii.ascii_dec c c).
  Qed.

  Lemma remove_all_none pat s : ~ contains pat s -> remove_all pat 0 s = s.
  Proof.
    induction s as [|c t IH]; intros H; cbn [remove_all]; [reflexivity|].
    destruct (String.prefix pat (String c t)) eqn:P.
    - exfalso. apply H. apply prefix_iff in P as [b ->]. exists "", b. reflexivity.
    - f_equal. apply IH. intros (a & b & ->). apply H. exists (String c a), b. reflexivity.
  Qed.

  Lemma rest_request_under_api r p :
    u_path r = String.append "/api" p -> (exists q, p = String "/" q) -> ~ contains "/api" p ->
    rest_request r = Some {| u_method := u_method r; u_path := p; u_query := [] |}.
  Proof.
    intros E [q ->] N. unfold rest_request. rewrite E.
    assert (X : remove_all "/api" 0 (String.append "/api" (String "/" q)) = remove_all "/api" 0 (String "/" q)).
    { reflexivity. }
    rewrite X, remove_all_none by exact N. reflexivity.
  Qed.

  Lemma handler_ignores_query es r q :
    handle_rest parse_f64 es {| u_method := u_method r; u_path := u_path r; u_query := q |} =
    handle_rest parse_f64 es r.
  Proof. reflexivity. Qed.

  (** C18 through the handler. *)
  Lemma handled_exact es r p rs n vars :
    u_path r = String.append "/api" p -> (exists q, p = String "/" q) -> ~ contains "/api" p -> cut p rs ->
    (forall e, In e es -> length (e_path e) <= length rs) ->
    (handle_rest parse_f64 es r = Found n vars ->
      exists e b, nth_error es n = Some e /\ e_method e = u_method r /\ fits (e_path e) rs b /\
        (forall x, aget x vars = bound b x) /\
        forall m e', m < n -> nth_error es m = Some e' -> ~ (e_method e' = u_method r /\ exists b', fits (e_path e') rs b')).
  Proof.
    intros E Q N C L H. unfold handle_rest in H. rewrite (rest_request_under_api r p E Q N) in H.
    destruct (match_set parse_f64 es {| u_method := u_method r; u_path := p; u_query := [] |}) as [[k vs]|] eqn:M; [|discriminate].
    injection H as -> ->. apply match_set_some in M as [(e & He & Me) F].
    destruct (match_same_length e {| u_method := u_method r; u_path := p; u_query := [] |} rs C (L e (nth_error_In _ _ He)) eq_refl _ Me) as (A & b & Fb & G).
    exists e, b. split; [exact He|]. split; [exact A|]. split; [exact Fb|]. split; [exact G|].
    intros m e' Lm K [A' [b' F']].
    destruct (same_length_match e' {| u_method := u_method r; u_path := p; u_query := [] |} rs b' C eq_refl A' F') as (v' & M' & _).
    rewrite (F m e' Lm K) in M'. discriminate.
  Qed.

  Lemma not_found_exact es r p rs :
    u_path r = String.append "/api" p -> (exists q, p = String "/" q) -> ~ contains "/api" p -> cut p rs ->
    handle_rest parse_f64 es r = NotFound ->
    forall e, In e es -> ~ (e_method e = u_method r /\ exists b, fits (e_path e) rs b).
  Proof.
    intros E Q N C H e I [A [b F]]. unfold handle_rest in H. rewrite (rest_request_under_api r p E Q N) in H.
    destruct (match_set parse_f64 es {| u_method := u_method r; u_path := p; u_query := [] |}) as [[k vs]|] eqn:M; [discriminate|].
    destruct (same_length_match e {| u_method := u_method r; u_path := p; u_query := [] |} rs b C eq_refl A F) as (v' & M' & _).
    rewrite (proj1 (match_set_none _ _) M e I) in M'. discriminate.
  Qed.

  (** C19 for the matcher alone. *)
  Lemma query_variables e r vars :
    match_endpoint parse_f64 e r = Some vars ->
    NoDup (map (fun p => v_name (snd p)) (e_query e)) ->
    forall k tv x, In (k, tv) (e_query e) -> given (u_query r) k = Some x ->
    exists y, aget (v_name tv) vars = Some y /\ reads (v_type tv) x y.
  Proof.
    intros H D k tv x I G. apply match_endpoint_iff in H as (_ & R & rs & p1 & p2 & b & _ & _ & _ & ->).
    rewrite merge_get, fold_bound. destruct (R k tv x I G) as [y Y].
    assert (J : In (v_name tv, y) (query_bindings (e_query e) (u_query r))).
    { unfold query_bindings. apply in_flat_map. exists (k, tv). split; [exact I|]. cbn [fst snd]. rewrite G.
      apply to_value_iff in Y. rewrite Y. now left. }
    destruct (in_bound _ _ _ J) as [z Z]. rewrite Z. exists z. split; [reflexivity|].
    apply bound_in in Z. unfold query_bindings in Z. apply in_flat_map in Z as ([k' tv'] & I' & J').
    cbn [fst snd] in J'. destruct (given (u_query r) k') as [x'|] eqn:G'; [|destruct J'].
    destruct (to_value (v_type tv') x') as [y'|] eqn:T; [|destruct J'].
    destruct J' as [[= E1 <-]|[]].
    assert (X : (k', tv') = (k, tv)).
    { clear - D I I' E1. induction (e_query e) as [|q l IH]; [destruct I|]. cbn in D. inversion D as [|? ? N D']; subst.
      destruct I as [->|I], I' as [I'|I']; auto.
      - exfalso. apply N. cbn. rewrite <- E1. change (v_name tv') with ((fun p => v_name (snd p)) (k', tv')). now apply in_map.
      - subst q. exfalso. apply N. cbn. rewrite E1. change (v_name tv) with ((fun p => v_name (snd p)) (k, tv)). now apply in_map. }
    injection X as -> ->. assert (x' = x) by congruence. subst. now apply to_value_iff.
  Qed.
End Proofs.
