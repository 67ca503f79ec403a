(** Proofs for C66. *)
From Coq Require Import String Ascii ZArith NArith Bool Lia List.
From Verif Require Import Base BaseFacts Ordered OrderedFacts StringFacts JsonModel JsonProofs TypeModel ConfigModel MustacheModel MustacheSpec MustacheProofs
  CtxModel ComposeModel EntityModel EntitySpec.
Import ListNotations.
Open Scope string_scope.
Open Scope list_scope.

(** * Trees of keys *)

Section Ind.
  Variable P : keys -> Prop.
  Hypothesis H : forall m, Forall (fun nk => P (snd nk)) m -> P (Keys m).
  Fixpoint keys_ind' (k : keys) : P k :=
    match k with
    | Keys m => H m ((fix go (m : list (string * keys)) : Forall (fun nk => P (snd nk)) m :=
                        match m with
                        | [] => Forall_nil _
                        | nk :: t => Forall_cons _ (keys_ind' (snd nk)) (go t)
                        end) m)
    end.
End Ind.

Fixpoint has (k : keys) (p : list string) {struct p} : Prop :=
  match p with
  | [] => True
  | n :: rest => let '(Keys m) := k in match oget scmp n m with Some k' => has k' rest | None => False end
  end.
Inductive wf : keys -> Prop :=
| Wf : forall m, osorted scmp m -> (forall n k, In (n, k) m -> name n /\ wf k) -> wf (Keys m).

Definition prefix (p q : list string) : Prop := exists r, q = p ++ r.
Lemma prefix_cons a p b q : prefix (a :: p) (b :: q) <-> a = b /\ prefix p q.
Proof.
  split.
  - intros [r E]. cbn in E. injection E as -> ->. split; [reflexivity|]. now exists r.
  - intros [-> [r ->]]. now exists r.
Qed.
Lemma prefix_nil p : prefix [] p. Proof. now exists p. Qed.
Lemma prefix_of_nil a p : ~ prefix (a :: p) []. Proof. intros [r E]. discriminate. Qed.

Lemma scmp_dec (a b : string) : a = b \/ a <> b.
Proof. destruct (string_dec a b); auto. Qed.

Lemma has_nothing p : has no_keys p <-> p = [].
Proof. destruct p; cbn; split; try tauto; try discriminate; try contradiction. Qed.

Lemma has_set q : forall k p, has (set_path q k) p <-> has k p \/ prefix p q.
Proof.
  induction q as [|n q IH]; intros k p; cbn [set_path].
  - split; [auto|]. intros [H | H]; [exact H|]. destruct p; [exact I|]. now apply prefix_of_nil in H.
  - destruct k as [m]. destruct p as [|a p].
    { cbn. split; [left; exact I|intros _; exact I]. }
    cbn [has]. rewrite prefix_cons. destruct (scmp_dec a n) as [-> | N].
    + rewrite (oget_oins_same scmp scmp_order), IH. destruct (oget scmp n m) as [k'|].
      * tauto.
      * rewrite has_nothing. split; [|tauto]. intros [-> | X]; [|tauto]. right. split; [reflexivity|apply prefix_nil].
    + rewrite (oget_oins_other scmp scmp_order) by congruence. intuition congruence.
Qed.
Lemma wf_nothing : wf no_keys.
Proof. constructor; [constructor|]. intros n k []. Qed.
Lemma wf_ins n k m : name n -> wf k -> wf (Keys m) -> wf (Keys (oins scmp n k m)).
Proof.
  intros N K W. inversion W as [m' S E]; subst. constructor; [now apply (osorted_oins scmp scmp_order)|].
  intros n' k' I. apply (oins_in scmp scmp_order) in I. destruct I as [(-> & ->) | I]; [auto|]. now apply E in I.
Qed.
Lemma wf_get n k m : wf (Keys m) -> oget scmp n m = Some k -> wf k.
Proof. intros W G. apply (oget_in scmp scmp_order) in G. inversion W as [m' S E]; subst. now apply E in G. Qed.
Lemma wf_set q : forall k, Forall name q -> wf k -> wf (set_path q k).
Proof.
  induction q as [|n q IH]; intros k F W; cbn [set_path]; [exact W|]. inversion F as [|? ? N F']; subst. destruct k as [m].
  apply wf_ins; [exact N| |exact W]. apply IH; [exact F'|]. destruct (oget scmp n m) as [k'|] eqn:G; [|exact wf_nothing]. now apply wf_get in G.
Qed.
Definition merge_into (l m : list (string * keys)) : list (string * keys) :=
  fold_left (fun m nk => oins scmp (fst nk) (match oget scmp (fst nk) m with Some k' => merge_keys (snd nk) k' | None => snd nk end) m) l m.
Lemma merge_keys_eq l m : merge_keys (Keys l) (Keys m) = Keys (merge_into l m).
Proof. cbn [merge_keys]. f_equal. revert m. induction l as [|[n k] l IH]; intros m; cbn; [reflexivity|apply IH]. Qed.

Lemma merge_ok : forall a, wf a -> forall b, wf b -> wf (merge_keys a b) /\ forall p, has (merge_keys a b) p <-> has a p \/ has b p.
Proof.
  induction a as [l IH] using keys_ind'. intros WA [m] WB. rewrite merge_keys_eq.
  inversion WA as [l' SL EL]; subst. clear WA. revert m WB. induction l as [|[n k] l IHl]; intros m WB.
  - cbn. split; [exact WB|]. intros p. destruct p; cbn; tauto.
  - unfold merge_into. cbn [fold_left fst snd]. inversion IH as [|? ? IHk IH']; subst. cbn [snd] in IHk.
    inversion SL as [|? ? ? LT SL']; subst.
    destruct (EL n k (or_introl eq_refl)) as [NN WK].
    set (k2 := match oget scmp n m with Some k' => merge_keys k k' | None => k end).
    assert (K2 : wf k2 /\ forall p, has k2 p <-> has k p \/ (match oget scmp n m with Some k' => has k' p | None => False end)).
    { subst k2. destruct (oget scmp n m) as [k'|] eqn:G; [apply IHk; [exact WK|now apply wf_get in G]|]. split; [exact WK|]. tauto. }
    destruct K2 as [WK2 HK2].
    assert (W2 : wf (Keys (oins scmp n k2 m))) by now apply wf_ins.
    destruct (IHl IH' SL' (fun n' k' I => EL n' k' (or_intror I)) _ W2) as [W3 H3].
    split; [exact W3|]. intros p. fold (merge_into l (oins scmp n k2 m)). rewrite H3.
    destruct p as [|a p]; [cbn; tauto|]. cbn [has]. cbn [oget].
    destruct (scmp_dec a n) as [-> | N].
    + rewrite (oget_oins_same scmp scmp_order), HK2, (to_refl scmp n scmp_order).
      assert (oget scmp n l = None) as ->.
      { apply (oget_none scmp scmp_order). intros I. apply in_map_iff in I. destruct I as ([n' v] & E2 & I). cbn in E2. subst n'. apply LT in I. rewrite (to_refl scmp n scmp_order) in I. discriminate. }
      destruct (oget scmp n m); tauto.
    + rewrite (oget_oins_other scmp scmp_order) by congruence. destruct (scmp a n) eqn:C; [|tauto|tauto].
      apply (to_eq _ scmp_order) in C. contradiction.
Qed.
Lemma combine_ok l : Forall wf l -> wf (combine_keys l) /\ forall p, has (combine_keys l) p <-> p = [] \/ exists k, In k l /\ has k p.
Proof.
  unfold combine_keys. intros F.
  enough (G : forall l acc, Forall wf l -> wf acc -> wf (fold_left (fun acc k => merge_keys k acc) l acc) /\
            forall p, has (fold_left (fun acc k => merge_keys k acc) l acc) p <-> has acc p \/ exists k, In k l /\ has k p).
  { destruct (G l no_keys F wf_nothing) as [W H]. split; [exact W|]. intros p. rewrite H, has_nothing. reflexivity. }
  clear l F. induction l as [|k l IH]; intros acc F WA; cbn [fold_left].
  - split; [exact WA|]. intros p. split; [auto|]. intros [H | (k & [] & _)]. exact H.
  - inversion F as [|? ? WK F']; subst. destruct (merge_ok k WK acc WA) as [W H].
    destruct (IH _ F' W) as [W2 H2]. split; [exact W2|]. intros p. rewrite H2, H. clear.
    split.
    + intros [[X | X] | (k' & I & X)]; [right; exists k; cbn; auto|auto|right; exists k'; cbn; auto].
    + intros [X | (k' & [<- | I] & X)]; [auto|auto|right; eauto].
Qed.

(** * Leaves and the printed text *)
Fixpoint leaves (k : keys) : list (list string) :=
  let '(Keys m) := k in
  flat_map (fun nk => if keys_empty (snd nk) then [[fst nk]] else map (cons (fst nk)) (leaves (snd nk))) m.

Lemma leaves_iff : forall k, wf k -> forall p, In p (leaves k) <-> p <> [] /\ has k p /\ forall q, has k (p ++ q) -> q = [].
Proof.
  induction k as [m IH] using keys_ind'. intros W p. inversion W as [m' S E]; subst. cbn [leaves]. rewrite in_flat_map. split.
  - intros ([n k] & I & J). cbn [fst snd] in J. pose proof (in_oget scmp scmp_order _ _ _ S I) as G.
    destruct (keys_empty k) eqn:EK.
    + destruct J as [<- | []]. split; [discriminate|]. cbn. rewrite G. split; [exact Logic.I|]. intros q H.
      destruct k as [[|]]; [|discriminate]. destruct q; [reflexivity|]. contradiction.
    + apply in_map_iff in J. destruct J as (p' & <- & J). rewrite Forall_forall in IH.
      apply (IH _ I) in J; [|now apply E in I]. destruct J as (N & H & M). split; [discriminate|]. cbn. rewrite G. split; [exact H|exact M].
  - intros (N & H & M). destruct p as [|n p]; [contradiction|]. cbn in H. destruct (oget scmp n m) as [k|] eqn:G; [|contradiction].
    pose proof (oget_in scmp scmp_order _ _ _ G) as I. exists (n, k). split; [exact I|]. cbn [fst snd].
    assert (M' : forall q, has k (p ++ q) -> q = []). { intros q X. apply M. cbn. rewrite G. exact X. }
    destruct (keys_empty k) eqn:EK.
    + destruct k as [[|]]; [|discriminate]. destruct p; [left; reflexivity|contradiction].
    + apply in_map_iff. exists p. split; [reflexivity|]. rewrite Forall_forall in IH. apply (IH _ I); [now apply E in I|].
      split; [|split; [exact H|exact M']]. intros ->. destruct k as [[|[n' k'] t]]; [discriminate|].
      specialize (M' [n']). cbn in M'. rewrite (to_refl scmp n' scmp_order) in M'. specialize (M' Logic.I). discriminate.
Qed.

Lemma words_not_nil s : words s <> [].
Proof. induction s as [|c s IH]; cbn; [discriminate|]. destruct (Ascii.eqb c " "); [discriminate|]. destruct (words s); [contradiction|discriminate]. Qed.
Lemma words_join a b : words (a ++ " " ++ b)%string = words a ++ words b.
Proof.
  induction a as [|c a IH]; cbn [String.append words]; [reflexivity|].
  cbn [String.append] in IH. destruct (Ascii.eqb c " "); rewrite IH; [reflexivity|].
  destruct (words a) eqn:W; [now apply words_not_nil in W|reflexivity].
Qed.
Lemma words_name n : name n -> words n = [n].
Proof.
  enough (G : forall s, word_chars s -> words s = [s]).
  { intros [c s A WC]. apply G. constructor; [now apply alpha_word|exact WC]. }
  induction 1 as [|c s W WC IH]; [reflexivity|]. cbn [words]. destruct (Ascii.eqb_spec c " ") as [-> | _]; [discriminate|]. now rewrite IH.
Qed.
Lemma selection_app a pa b pb : selection a pa -> selection b pb -> selection (a ++ b) (pa ++ pb).
Proof.
  intros A B. induction A as [|n ws ps N S IH|n sub subs ws ps N NE S1 IH1 S2 IH2]; [exact B| |].
  - cbn. now constructor.
  - cbn. rewrite <- !app_assoc. cbn. now constructor.
Qed.
Lemma concat_cons sep a b l : String.concat sep (a :: b :: l) = (a ++ sep ++ String.concat sep (b :: l))%string.
Proof. reflexivity. Qed.
Lemma str_app_nil_l s : ("" ++ s)%string = s. Proof. reflexivity. Qed.

Lemma show_words : forall k, wf k -> keys_empty k = false -> selection (words (show_keys k)) (leaves k) /\ show_keys k <> "".
Proof.
  induction k as [m IH] using keys_ind'. intros W NE. inversion W as [m' S E]; subst.
  destruct m as [|nk m]; [discriminate|]. clear NE S W. cbn [show_keys leaves].
  set (one := fun nk : string * keys => (fst nk ++ (if keys_empty (snd nk) then "" else " { " ++ show_keys (snd nk) ++ " }"))%string).
  set (lone := fun nk : string * keys => if keys_empty (snd nk) then [[fst nk]] else map (cons (fst nk)) (leaves (snd nk))).
  assert (O : forall nk', In nk' (nk :: m) -> selection (words (one nk')) (lone nk') /\ one nk' <> "").
  { intros [n k] I. rewrite Forall_forall in IH. specialize (IH _ I). destruct (E _ _ I) as [N WK]. unfold one, lone. cbn [fst snd] in *.
    assert (NN : forall s, (n ++ s)%string <> "") by (intros s; destruct N; discriminate).
    split; [|apply NN]. destruct (keys_empty k) eqn:EK.
    - rewrite StringFacts.str_app_nil_r, words_name by exact N. repeat constructor. exact N.
    - destruct (IH WK eq_refl) as [SK SN].
      change (n ++ " { " ++ show_keys k ++ " }")%string with (n ++ " " ++ "{" ++ " " ++ (show_keys k ++ " " ++ "}"))%string.
      rewrite words_join, words_name by exact N. rewrite words_join. rewrite words_join.
      change (words "{") with ["{"]. change (words "}") with ["}"]. cbn [app].
      rewrite <- (app_nil_r (map (cons n) (leaves k))). constructor; [exact N|apply words_not_nil|exact SK|constructor]. }
  clear IH E. revert nk O. induction m as [|nk2 m IHm]; intros nk O.
  - cbn [map flat_map String.concat]. rewrite app_nil_r. apply O. now left.
  - cbn [map]. rewrite concat_cons. cbn [flat_map]. fold lone. destruct (O nk (or_introl eq_refl)) as [O1 O2].
    destruct (IHm nk2 (fun x I => O x (or_intror I))) as [S1 S2]. cbn [map flat_map] in S1, S2. fold lone in S1.
    rewrite words_join. split; [now apply selection_app|]. intros K. apply StringFacts.str_app_eq_nil in K. now destruct K.
Qed.

(** * Extraction *)

Definition keys_of (k : keys) (U : list string -> Prop) : Prop :=
  wf k /\ forall p, has k p <-> p = [] \/ exists q, U q /\ prefix p q.
Lemma keys_of_ext k U V : keys_of k U -> (forall q, U q <-> V q) -> keys_of k V.
Proof.
  intros [W H] E. split; [exact W|]. intros p. rewrite H. split; intros [X | (q & X & Y)]; auto; right; exists q; split; auto; now apply E.
Qed.
Lemma keys_of_none : keys_of no_keys (fun _ => False).
Proof.
  split; [exact wf_nothing|]. intros p. rewrite has_nothing. split; [auto|]. intros [X | (q & [] & _)]. exact X.
Qed.
Lemma keys_of_merge a U b V : keys_of a U -> keys_of b V -> keys_of (merge_keys b a) (fun q => U q \/ V q).
Proof.
  intros [WA HA] [WB HB]. destruct (merge_ok b WB a WA) as [W H]. split; [exact W|]. intros p. rewrite H, HA, HB. split.
  - intros [[X | (q & X & Y)] | [X | (q & X & Y)]]; eauto.
  - intros [X | (q & [X | X] & Y)]; eauto.
Qed.
Lemma keys_of_combine l (U : keys -> list string -> Prop) : (forall k, In k l -> keys_of k (U k)) ->
  keys_of (combine_keys l) (fun q => exists k, In k l /\ U k q).
Proof.
  intros F. destruct (combine_ok l) as [W H]. { apply Forall_forall. intros k I. now destruct (F k I). }
  split; [exact W|]. intros p. rewrite H. split.
  - intros [X | (k & I & X)]; [auto|]. apply (F k I) in X. destruct X as [X | (q & X & Y)]; [auto|]. right. exists q. eauto.
  - intros [X | (q & (k & I & X) & Y)]; [auto|]. right. exists k. split; [exact I|]. apply (F k I). eauto.
Qed.

Lemma each_ok {A B} (f : A -> checked B string) l bs : each f l = Ok bs -> Forall2 (fun a b => f a = Ok b) l bs.
Proof.
  revert bs. induction l as [|a l IH]; intros bs H; cbn in H.
  - injection H as <-. constructor.
  - destruct (f a) as [b|] eqn:E; destruct (each f l) as [r|]; try discriminate. injection H as <-. constructor; auto.
Qed.
Lemma each_total {A B} (f : A -> checked B string) l : (forall a, In a l -> exists b, f a = Ok b) -> exists bs, each f l = Ok bs.
Proof.
  induction l as [|a l IH]; intros H; cbn; [eauto|]. destruct (H a (or_introl eq_refl)) as [b ->].
  destruct IH as [bs ->]; [intros x I; apply H; now right|]. eauto.
Qed.
Lemma each_fails {A B} (f : A -> checked B string) l es : each f l = Err es -> exists a e, In a l /\ f a = Err e.
Proof.
  revert es. induction l as [|a l IH]; intros es H; cbn in H; [discriminate|].
  destruct (f a) as [b|e] eqn:E; [|exists a, e; cbn; auto].
  destruct (each f l) as [r|e]; [discriminate|]. destruct (IH _ eq_refl) as (x & y & I & F). exists x, y. cbn. auto.
Qed.
Lemma Forall2_left {A B} (R : A -> B -> Prop) l l' a : Forall2 R l l' -> In a l -> exists b, In b l' /\ R a b.
Proof. induction 1 as [|x y l l' H F IH]; intros []; [subst; exists y; cbn; auto|]. destruct (IH H0) as (b & I & X). exists b. cbn. auto. Qed.
Lemma Forall2_right {A B} (R : A -> B -> Prop) l l' b : Forall2 R l l' -> In b l' -> exists a, In a l /\ R a b.
Proof. induction 1 as [|x y l l' H F IH]; intros []; [subst; exists x; cbn; auto|]. destruct (IH H0) as (a & I & X). exists a. cbn. auto. Qed.

Lemma in_parse s p : In (Expression p) (parse s) <-> exists segs, written segs s /\ In (Expression p) segs.
Proof.
  unfold parse. rewrite filter_In. cbn [keep_segment]. split.
  - intros [I _]. destruct (parse_segment_sound s) as [W | [E _]]; [eauto|]. rewrite E in I. destruct I as [I | []]. discriminate.
  - intros (segs & W & I). rewrite (parse_segment_complete _ _ W). auto.
Qed.
Lemma written_names segs s : written segs s -> forall p, In (Expression p) segs -> Forall name p.
Proof.
  assert (WP : forall p x, written_path p x -> Forall name p) by (induction 1; auto).
  assert (WE : forall p x, written_expr p x -> Forall name p) by (intros p x [p' x' H | p' x' H]; eauto).
  induction 1 as [|t N B|p e segs rest E W IH|t p e segs rest N B E W IH]; intros q I.
  - destruct I.
  - destruct I as [I | []]. discriminate.
  - destruct I as [I | I]; [injection I as <-; eauto|auto].
  - destruct I as [I | [I | I]]; [discriminate|injection I as <-; eauto|auto].
Qed.
Lemma uses_names s p : uses s p -> Forall name p.
Proof. intros (segs & W & I). apply (written_names _ _ W) in I. now inversion I. Qed.

Lemma keys_of_segments : forall m k U, (forall p, In (Expression p) m -> Forall name p) -> keys_of k U ->
  keys_of (fold_left add_segment m k) (fun q => U q \/ In (Expression ("value" :: q)) m).
Proof.
  induction m as [|s m IH]; intros k U N K; cbn [fold_left].
  - eapply keys_of_ext; [exact K|]. intros q. cbn. tauto.
  - assert (N' : forall p, In (Expression p) m -> Forall name p) by (intros p I; apply N; now right).
    assert (K' : keys_of (add_segment k s) (fun q => U q \/ s = Expression ("value" :: q))).
    { destruct s as [t | [|h rest]]; cbn [add_segment].
      - eapply keys_of_ext; [exact K|]. intros q. split; [auto|]. intros [X | X]; [auto|discriminate].
      - eapply keys_of_ext; [exact K|]. intros q. split; [auto|]. intros [X | X]; [auto|discriminate].
      - destruct (String.eqb_spec h "value") as [-> | NE].
        + destruct K as [W H]. assert (F : Forall name rest). { specialize (N _ (or_introl eq_refl)). now inversion N. }
          split; [now apply wf_set|]. intros p. rewrite has_set, H. split.
          * intros [[X | (q & X & Y)] | X]; eauto.
          * intros [X | (q & [X | X] & Y)]; [auto|eauto|]. injection X as <-. auto.
        + eapply keys_of_ext; [exact K|]. intros q. split; [auto|]. intros [X | X]; [auto|]. injection X as X _. contradiction. }
    eapply keys_of_ext; [exact (IH _ _ N' K')|]. intros q. cbn. intuition congruence.
Qed.
Lemma parse_str_ok s k : parse_str s = Ok k -> keys_of k (uses s) /\ ~ uses_args s.
Proof.
  unfold parse_str. destruct (each check_segment (parse s)) as [l|] eqn:E; [|discriminate]. intros H. injection H as <-. split.
  - eapply keys_of_ext; [apply keys_of_segments; [|exact keys_of_none]|].
    + intros p I. apply in_parse in I. destruct I as (segs & W & I). now apply (written_names _ _ W) in I.
    + intros q. cbn beta. rewrite in_parse. unfold uses. tauto.
  - intros (segs & p & W & I). assert (J : In (Expression ("args" :: p)) (parse s)) by (apply in_parse; eauto).
    apply each_ok in E. destruct (Forall2_left _ _ _ _ E J) as (b & _ & X). cbn in X. discriminate.
Qed.
Lemma parse_str_err s es : parse_str s = Err es -> uses_args s.
Proof.
  unfold parse_str. destruct (each check_segment (parse s)) as [l|] eqn:E; [discriminate|]. intros _.
  destruct (each_fails _ _ _ E) as (x & ee & I & F). destruct x as [t | [|h rest]]; try discriminate. cbn in F.
  destruct (String.eqb h "value"); [discriminate|]. destruct (String.eqb_spec h "args") as [-> |]; [|discriminate].
  apply in_parse in I. destruct I as (segs & W & I). exists segs, rest. auto.
Qed.

(** The keys of some texts, or one of them uses arguments. *)
Definition reads (r : checked keys string) (T : string -> Prop) : Prop :=
  match r with
  | Ok k => keys_of k (fun q => exists s, T s /\ uses s q) /\ forall s, T s -> ~ uses_args s
  | Err _ => exists s, T s /\ uses_args s
  end.
Definition reads_all (r : checked (list keys) string) (T : string -> Prop) : Prop :=
  match r with
  | Ok l => keys_of (combine_keys l) (fun q => exists s, T s /\ uses s q) /\ forall s, T s -> ~ uses_args s
  | Err _ => exists s, T s /\ uses_args s
  end.
Lemma reads_ext r T T' : reads r T -> (forall s, T s <-> T' s) -> reads r T'.
Proof.
  intros H E. destruct r as [k|e]; cbn in *.
  - destruct H as [K N]. split; [|intros s X; apply N; now apply E].
    eapply keys_of_ext; [exact K|]. intros q. split; intros (s & X & Y); exists s; split; auto; now apply E.
  - destruct H as (s & X & Y). exists s. split; [now apply E|exact Y].
Qed.
Lemma reads_str s : reads (parse_str s) (eq s).
Proof.
  destruct (parse_str s) as [k|e] eqn:E; cbn.
  - apply parse_str_ok in E. destruct E as [K N]. split; [|intros x <-; exact N].
    eapply keys_of_ext; [exact K|]. intros q. split; [eauto|]. now intros (x & <- & X).
  - apply parse_str_err in E. eauto.
Qed.
Lemma reads_none : reads (Ok no_keys) (fun _ => False).
Proof.
  split; [|intros s []]. eapply keys_of_ext; [exact keys_of_none|]. intros q. split; [intros []|intros (s & [] & _)].
Qed.
Lemma reads_traced r T n : reads r T -> reads (traced r n) T.
Proof. destruct r; auto. Qed.
Lemma reads_all_traced r T n : reads_all r T -> reads_all (traced r n) T.
Proof. destruct r; auto. Qed.
Lemma reads_both a T b T' : reads a T -> reads b T' ->
  reads (rmap (fun ab => merge_keys (snd ab) (fst ab)) (both a b)) (fun s => T s \/ T' s).
Proof.
  intros A B. destruct a as [k|e]; destruct b as [k'|e']; cbn in *.
  - destruct A as [KA NA], B as [KB NB]. split; [|intros s [X | X]; auto].
    eapply keys_of_ext; [exact (keys_of_merge _ _ _ _ KA KB)|]. intros q. cbn beta. split.
    + intros [(s & X & Y) | (s & X & Y)]; eauto.
    + intros (s & [X | X] & Y); eauto.
  - destruct B as (s & X & Y). eauto.
  - destruct A as (s & X & Y). eauto.
  - destruct A as (s & X & Y). eauto.
Qed.
Lemma reads_each {A} (f : A -> checked keys string) (T : A -> string -> Prop) l :
  (forall a, In a l -> reads (f a) (T a)) -> reads_all (each f l) (fun s => exists a, In a l /\ T a s).
Proof.
  intros H. destruct (each f l) as [ks|es] eqn:E; cbn.
  - apply each_ok in E. split.
    + assert (K : keys_of (combine_keys ks) (fun q => exists k, In k ks /\ exists a s, In a l /\ f a = Ok k /\ T a s /\ uses s q)).
      { apply keys_of_combine. intros k I. destruct (Forall2_right _ _ _ _ E I) as (a & J & F).
        pose proof (H a J) as R. rewrite F in R. destruct R as [K _]. destruct K as [W HK]. split; [exact W|]. intros p. rewrite HK. split.
        - intros [X | (q & (s & X & Y) & Z)]; [auto|]. right. exists q. split; [|exact Z]. exists a, s. auto.
        - intros [X | (q & (a' & s & J' & F' & X & Y) & Z)]; [auto|].
          pose proof (H a' J') as R'. rewrite F' in R'. destruct R' as [[_ HK'] _]. rewrite <- HK. apply HK'. right. exists q. eauto. }
      eapply keys_of_ext; [exact K|]. intros q. cbn beta. split.
      * intros (k & I & a & s & J & F & X & Y). exists s. split; [eauto|exact Y].
      * intros (s & (a & J & X) & Y). destruct (Forall2_left _ _ _ _ E J) as (k & I & F). exists k. split; [exact I|]. exists a, s. auto.
    + intros s (a & J & X). destruct (Forall2_left _ _ _ _ E J) as (k & I & F). pose proof (H a J) as R. rewrite F in R. now apply R.
  - destruct (each_fails _ _ _ E) as (a & e & J & F). pose proof (H a J) as R. rewrite F in R. destruct R as (s & X & Y). exists s. eauto.
Qed.
Lemma reads_combined r T : reads_all r T -> reads (rmap combine_keys r) T.
Proof. destruct r; auto. Qed.
Lemma reads_pairs l : reads (parse_key_value_iter l) (fun s => in_pairs s l).
Proof.
  unfold parse_key_value_iter.
  enough (G : forall acc T, keys_of acc (fun q => exists s, T s /\ uses s q) -> (forall s, T s -> ~ uses_args s) ->
     reads (rmap (fun l => fold_left (fun acc kv => merge_keys (snd kv) (merge_keys (fst kv) acc)) l acc)
              (each (fun kv => both (parse_str (fst kv)) (parse_str (snd kv))) l)) (fun s => T s \/ in_pairs s l)).
  { eapply reads_ext; [apply (G no_keys (fun _ => False))|].
    - eapply keys_of_ext; [exact keys_of_none|]. intros q. split; [intros []|intros (s & [] & _)].
    - intros s [].
    - intros s. tauto. }
  induction l as [|[a b] l IH]; intros acc T KA NA; cbn [each].
  - cbn. split; [|intros s [X | (k & v & [] & _)]; auto].
    eapply keys_of_ext; [exact KA|]. intros q. split; intros (s & X & Y); exists s; split; auto.
    destruct X as [X | (k & v & [] & _)]. exact X.
  - cbn [fst snd]. pose proof (reads_str a) as RA. pose proof (reads_str b) as RB.
    assert (IN : forall s, T s \/ in_pairs s ((a, b) :: l) <-> (T s \/ a = s \/ b = s) \/ in_pairs s l).
    { intros s. unfold in_pairs. split.
      - intros [X | (k & v & [I | I] & X)]; [auto| |right; eauto]. injection I as <- <-. destruct X as [-> | ->]; auto.
      - intros [[X | [X | X]] | (k & v & I & X)]; [auto| | |].
        + right. exists a, b. cbn. auto.
        + right. exists a, b. cbn. auto.
        + right. exists k, v. cbn. auto. }
    eapply reads_ext; [|intros s; symmetry; apply IN].
    destruct (parse_str a) as [ka|ea]; destruct (parse_str b) as [kb|eb]; cbn [both].
    + cbn in RA, RB. destruct RA as [KKA NAA], RB as [KKB NBB].
      assert (K2 : keys_of (merge_keys kb (merge_keys ka acc)) (fun q => exists s, (T s \/ a = s \/ b = s) /\ uses s q)).
      { eapply keys_of_ext; [exact (keys_of_merge _ _ _ _ (keys_of_merge _ _ _ _ KA KKA) KKB)|]. intros q. cbn beta. split.
        - intros [[(s & X & Y) | (s & X & Y)] | (s & X & Y)]; exists s; auto.
        - intros (s & [X | [X | X]] & Y); [left; left|left; right|right]; exists s; auto. }
      specialize (IH (merge_keys kb (merge_keys ka acc)) (fun s => T s \/ a = s \/ b = s) K2).
      destruct (each (fun kv => both (parse_str (fst kv)) (parse_str (snd kv))) l) as [ks|es]; cbn in *.
      * apply IH. intros s [X | [X | X]]; auto.
      * apply IH. intros s [X | [X | X]]; auto.
    + cbn in RB. destruct RB as (s & X & Y). destruct (each (fun kv => both (parse_str (fst kv)) (parse_str (snd kv))) l); cbn; exists s; auto.
    + cbn in RA. destruct RA as (s & X & Y). destruct (each (fun kv => both (parse_str (fst kv)) (parse_str (snd kv))) l); cbn; exists s; auto.
    + cbn in RA. destruct RA as (s & X & Y). destruct (each (fun kv => both (parse_str (fst kv)) (parse_str (snd kv))) l); cbn; exists s; auto.
Qed.
Lemma reads_value v : reads (parse_value v) (fun s => text_in s v).
Proof.
  induction v as [|b|n|s|s|l IH|m IH] using value_ind'; cbn [parse_value];
    try (eapply reads_ext; [exact reads_none|]; intros x; split; [intros []|intros X; inversion X]).
  - eapply reads_ext; [apply reads_str|]. intros x. split; [intros <-; constructor|intros X; now inversion X].
  - rewrite Forall_forall in IH. eapply reads_ext; [apply reads_combined, (reads_each parse_value (fun v s => text_in s v)); exact IH|].
    intros x. split.
    + intros (v & I & X). now apply TI_item with v.
    + intros X. inversion X; subst. eauto.
  - rewrite Forall_forall in IH.
    eapply reads_ext; [apply reads_combined, (reads_each _ (fun kv s => fst kv = s \/ text_in s (snd kv)))|].
    + intros kv I. apply reads_both; [apply reads_str|now apply IH].
    + intros x. split.
      * intros ([n v] & I & [X | X]); cbn in X; [subst; now apply TI_name with v|now apply TI_member with n v].
      * intros X. inversion X; subst; [exists (x, v); cbn; auto|exists (n, v); cbn; auto].
Qed.

Lemma each_pairs {A B} (f g : A -> checked B string) step :
  rmap (@concat B) (each (fun kv => each (fun x => x) [f kv; g kv]) step) =
  each (fun x => x) (flat_map (fun kv => [f kv; g kv]) step) \/
  (exists es es', rmap (@concat B) (each (fun kv => each (fun x => x) [f kv; g kv]) step) = Err es /\
     each (fun x => x) (flat_map (fun kv => [f kv; g kv]) step) = Err es').
Proof.
  set (h := fun kv => each (fun x => x) [f kv; g kv]).
  induction step as [|a step IH]; [left; reflexivity|].
  change (each h (a :: step)) with (match h a, each h step with
        | Ok b, Ok bs => Ok (b :: bs)
        | Ok _, Err e => Err e
        | Err e, Ok _ => Err e
        | Err e, Err e' => Err (e ++ e')
        end). cbn [flat_map app each].
  assert (HH : h a = match f a, g a with Ok x, Ok y => Ok [x; y] | Ok _, Err e => Err e | Err e, Ok _ => Err e | Err e, Err e' => Err (e ++ e') end).
  { unfold h. cbn. destruct (f a); destruct (g a); reflexivity. }
  rewrite HH. clear HH.
  destruct (each h step) as [ks|es]; destruct (each (fun x => x) (flat_map (fun kv => [f kv; g kv]) step)) as [ks'|es'];
    destruct (f a) as [k1|e1]; destruct (g a) as [k2|e2]; cbn in *;
    try (right; eexists; eexists; split; reflexivity);
    destruct IH as [IH | (x & y & IH & IH')]; try discriminate; injection IH as <-; left; reflexivity.
Qed.

Section Extract.
  Variable json_text : value -> string.

  Lemma found_ok d : readable d -> exists r, found_keys json_text d = Some r /\ reads_all r (fun s => text_of json_text s d).
  Proof.
    assert (RA : forall r T T', reads_all r T -> (forall s, T s <-> T' s) -> reads_all r T').
    { intros r T T' H E. apply (reads_ext (rmap combine_keys r) T T') in E; [destruct r; exact E|now apply reads_combined]. }
    assert (LST : forall (l : list (checked keys string * (string -> Prop))), (forall x, In x l -> reads (fst x) (snd x)) ->
             reads_all (each (fun x => x) (map fst l)) (fun s => exists x, In x l /\ snd x s)).
    { intros l H. pose proof (reads_each fst snd l H) as G.
      assert (E : each (fun x : checked keys string => x) (map fst l) = each fst l).
      { clear. induction l as [|a l IH]; [reflexivity|]. cbn. now rewrite IH. }
      now rewrite E. }
    destruct d as [url body hs query|url method body hs|hs args|steps|body|]; intros R; cbn [found_keys]; try contradiction;
      (eexists; split; [reflexivity|]); apply reads_all_traced.
    - eapply RA; [apply (LST [(traced (parse_str url) "url", eq url);
         (traced (parse_json_option json_text body) "body", fun s => exists v, body = Some v /\ json_text v = s);
         (traced (parse_key_value_iter hs) "headers", fun s => in_pairs s hs);
         (traced (parse_key_value_iter query) "query", fun s => in_pairs s query)])|].
      + intros x [<- | [<- | [<- | [<- | []]]]]; cbn [fst snd]; apply reads_traced.
        * apply reads_str.
        * unfold parse_json_option. destruct body as [v|].
          -- eapply reads_ext; [apply reads_str|]. intros s. split; [intros <-; eauto|]. intros (v' & E & <-). now injection E as <-.
          -- eapply reads_ext; [exact reads_none|]. intros s. split; [intros []|]. intros (v' & E & _). discriminate.
        * apply reads_pairs.
        * apply reads_pairs.
      + intros s. split.
        * intros (x & [<- | [<- | [<- | [<- | []]]]] & X); cbn in X; constructor; auto.
          destruct X as (v & -> & <-). eauto.
        * intros X. inversion X as [u b h q Y| | | |]; subst. destruct Y as [-> | [(v & -> & ->) | [Y | Y]]].
          -- eexists. split; [now left|]. reflexivity.
          -- eexists. split; [right; now left|]. cbn. eauto.
          -- eexists. split; [right; right; now left|]. exact Y.
          -- eexists. split; [right; right; right; now left|]. exact Y.
    - eapply RA; [apply (LST [(parse_str url, eq url); (parse_str method, eq method);
         (parse_value_option body, fun s => exists v, body = Some v /\ text_in s v); (parse_key_value_iter hs, fun s => in_pairs s hs)])|].
      + intros x [<- | [<- | [<- | [<- | []]]]]; cbn [fst snd].
        * apply reads_str.
        * apply reads_str.
        * unfold parse_value_option. destruct body as [v|].
          -- eapply reads_ext; [apply reads_value|]. intros s. split; [eauto|]. intros (v' & E & X). now injection E as <-.
          -- eapply reads_ext; [exact reads_none|]. intros s. split; [intros []|]. intros (v' & E & _). discriminate.
        * apply reads_pairs.
      + intros s. split.
        * intros (x & [<- | [<- | [<- | [<- | []]]]] & X); cbn in X; constructor; auto.
        * intros X. inversion X as [|u b h q Y| | |]; subst. destruct Y as [-> | [-> | [Y | Y]]].
          -- eexists. split; [now left|]. reflexivity.
          -- eexists. split; [right; now left|]. reflexivity.
          -- eexists. split; [right; right; now left|]. exact Y.
          -- eexists. split; [right; right; right; now left|]. exact Y.
    - eapply RA; [apply (LST [(parse_key_value_iter hs, fun s => in_pairs s hs);
         (match args with Some l => parse_key_value_iter l | None => Ok no_keys end, fun s => exists l, args = Some l /\ in_pairs s l)])|].
      + intros x [<- | [<- | []]]; cbn [fst snd]; [apply reads_pairs|]. destruct args as [l|].
        * eapply reads_ext; [apply reads_pairs|]. intros s. split; [eauto|]. intros (l' & E & X). now injection E as <-.
        * eapply reads_ext; [exact reads_none|]. intros s. split; [intros []|]. intros (l' & E & _). discriminate.
      + intros s. split.
        * intros (x & [<- | [<- | []]] & X); cbn in X; constructor; auto.
        * intros X. inversion X as [| |h a Y| |]; subst. destruct Y as [Y | Y].
          -- eexists. split; [now left|]. exact Y.
          -- eexists. split; [right; now left|]. exact Y.
    - destruct steps as [|step [|]]; cbn in R; try discriminate.
      assert (E : rmap (@concat keys) (each (fun kv => each (fun x => x) [parse_str (fst kv); parse_value (snd kv)]) step) =
                  each (fun x => x) (flat_map (fun kv => [parse_str (fst kv); parse_value (snd kv)]) step) \/
                  (exists es es', rmap (@concat keys) (each (fun kv => each (fun x => x) [parse_str (fst kv); parse_value (snd kv)]) step) = Err es /\
                     each (fun x => x) (flat_map (fun kv => [parse_str (fst kv); parse_value (snd kv)]) step) = Err es')).
      { apply each_pairs. }
      assert (G : reads_all (each (fun x => x) (flat_map (fun kv => [parse_str (fst kv); parse_value (snd kv)]) step))
                    (fun s => text_of json_text s (DCall [step]))).
      { assert (E2 : flat_map (fun kv => [parse_str (fst kv); parse_value (snd kv)]) step =
                     map fst (flat_map (fun kv : string * value => [(parse_str (fst kv), eq (fst kv)); (parse_value (snd kv), fun s => text_in s (snd kv))]) step)).
        { clear. induction step as [|kv step IH]; [reflexivity|]. cbn. now rewrite IH. }
        rewrite E2. eapply RA; [apply LST|].
        - intros x I. apply in_flat_map in I. destruct I as (kv & I & [<- | [<- | []]]); cbn [fst snd]; [apply reads_str|apply reads_value].
        - intros s. split.
          + intros (x & I & X). apply in_flat_map in I. destruct I as ([n v] & I & [<- | [<- | []]]); cbn in X;
              apply (TO_call json_text s [step] step n v); cbn; auto.
          + intros X. inversion X as [| | |st0 st n v I1 I2 Y|]; subst. destruct I1 as [-> | []]. destruct Y as [-> | Y].
            * eexists. split; [apply in_flat_map; exists (n, v); split; [exact I2|now left]|]. reflexivity.
            * eexists. split; [apply in_flat_map; exists (n, v); split; [exact I2|right; now left]|]. exact Y. }
      destruct E as [E | (es & es' & E & E')].
      + now rewrite E.
      + rewrite E. rewrite E' in G. exact G.
    - eapply RA; [apply (LST [(parse_value body, fun s => text_in s body)])|].
      + intros x [<- | []]. apply reads_value.
      + intros s. split.
        * intros (x & [<- | []] & X). now constructor.
        * intros X. inversion X; subst. eexists. split; [now left|]. exact H0.
  Qed.

  Lemma key_exact d key : readable d -> extract_keys json_text d = Ok key ->
    (exists paths, key_paths key paths /\
      forall p, In p paths <-> p <> [] /\ used json_text d p /\ forall q, used json_text d (p ++ q) -> q = []) /\
    forall s, text_of json_text s d -> ~ uses_args s.
  Proof.
    intros R H. destruct (found_ok d R) as (r & F & RA). unfold extract_keys in H. rewrite F in H.
    destruct r as [l|]; [|discriminate]. cbn in H. injection H as <-. destruct RA as [[W HK] N]. split; [|exact N].
    exists (leaves (combine_keys l)). split.
    - destruct (keys_empty (combine_keys l)) eqn:E; cbn.
      + destruct (combine_keys l) as [[|]]; [reflexivity|discriminate].
      + destruct (show_words _ W E). auto.
    - intros p. rewrite leaves_iff by exact W. split.
      + intros (NE & HP & M). split; [exact NE|]. apply HK in HP. destruct HP as [HP | (q & U & r & ->)]; [contradiction|].
        assert (r = []) as ->. { apply M. apply HK. right. exists (p ++ r). split; [exact U|]. exists []. now rewrite app_nil_r. }
        rewrite app_nil_r in U. split; [exact U|]. intros q U'. apply M. apply HK. right. exists (p ++ q). split; [exact U'|]. exists []. now rewrite app_nil_r.
      + intros (NE & U & M). split; [exact NE|]. split.
        * apply HK. right. exists p. split; [exact U|]. exists []. now rewrite app_nil_r.
        * intros q HP. apply HK in HP. destruct HP as [HP | (q' & U' & r & E)].
          -- apply app_eq_nil in HP. now destruct HP.
          -- rewrite <- app_assoc in E. subst q'. apply M in U'. apply app_eq_nil in U'. now destruct U'.
  Qed.
  Lemma key_fails d es : readable d -> extract_keys json_text d = Err es -> exists s, text_of json_text s d /\ uses_args s.
  Proof.
    intros R H. destruct (found_ok d R) as (r & F & RA). unfold extract_keys in H. rewrite F in H.
    destruct r as [l|]; [discriminate|]. exact RA.
  Qed.
End Extract.
