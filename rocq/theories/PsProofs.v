(** Proofs about the printed schema (C97). *)
From Coq Require Import String Ascii NArith Bool List.
From Verif Require Import Base StringFacts MustacheModel OpGenModel OpGenSpec OpGenProofs PsModel PsSpec.
Import ListNotations.
Open Scope string_scope.

Lemma all_app : forall P a b, all P a -> all P b -> all P (a ++ b).
Proof. induction 1; [auto|]. intros. cbn. constructor; auto. Qed.
Lemma trimmed_pad : forall pre x post w, all white pre -> all white post -> trimmed x w -> trimmed (pre ++ x ++ post) w.
Proof.
  intros pre x post w A B (p & q & -> & P & Q & L & R). exists (pre ++ p), (q ++ post). rewrite !str_app_assoc. repeat split; auto using all_app.
Qed.
Lemma trimmed_white : forall s, all white s -> trimmed s "".
Proof. intros s A. exists s, "". rewrite str_app_nil_r. repeat split; [exact A|constructor|discriminate|intros c [|d t]; discriminate]. Qed.
Lemma blank_iff : forall l, String.eqb (trim l) "" = true <-> blank l.
Proof.
  intros l. rewrite String.eqb_eq. split.
  - intros E. destruct (trim_ok l) as (p & q & H & P & Q & _). rewrite E in H. rewrite H. cbn. now apply all_app.
  - intros A. symmetry. apply trimmed_trim, trimmed_white, A.
Qed.
Lemma prefix_split : forall p s, String.prefix p s = true <-> exists r, s = p ++ r.
Proof.
  induction p as [|c p IH]; intros s; [split; [exists s; reflexivity|destruct s; reflexivity]|]. destruct s as [|d s]; cbn [String.prefix].
  - split; [discriminate|intros [r [=]]].
  - destruct (ascii_dec c d) as [-> |N].
    + rewrite IH. split; intros [r H]; exists r; [now rewrite H|]. now injection H.
    + split; [discriminate|]. intros [r [= E _]]. now destruct N.
Qed.
Lemma trim_end_keeps : forall a c s, is_white c = false -> trim_end (a ++ String c s) = a ++ String c (trim_end s).
Proof.
  induction a as [|b a IH]; intros c s W.
  - cbn [append trim_end]. destruct (trim_end s); [now rewrite W|reflexivity].
  - cbn [append trim_end]. rewrite (IH c s W). destruct a; reflexivity.
Qed.
Lemma trim_start : forall pre a c s, all white pre -> is_white c = false -> (forall d t, a ++ String c "" = String d t -> is_white d = false) ->
  trim (pre ++ a ++ String c s) = a ++ String c (trim_end s).
Proof.
  intros pre a c s P W F. unfold trim. rewrite span_app; [now apply trim_end_keeps|exact P|]. intros d t E.
  assert (D : is_white d = false) by (destruct a; injection E as <- _; eapply F; reflexivity).
  intros X. apply white_iff in X. congruence.
Qed.
Lemma builtin_iff : forall l, skipped (trim l) = true <-> builtin l.
Proof.
  intros l. unfold skipped. rewrite orb_true_iff, !prefix_split. split.
  - intros S. destruct (trim_ok l) as (p & q & H & P & _). destruct S as [[r R]|[r R]]; exists p, (r ++ q); (split; [exact P|]); [left|right]; rewrite H at 1; rewrite R, !str_app_assoc; reflexivity.
  - intros (pre & post & P & [-> | ->]).
    + left. exists (trim_end post). change ("directive @include" ++ post) with ("directive @includ" ++ String "e" post). rewrite trim_start; [reflexivity|exact P|reflexivity|]. intros d t [= <- _]. reflexivity.
    + right. exists (trim_end post). change ("directive @skip" ++ post) with ("directive @ski" ++ String "p" post). rewrite trim_start; [reflexivity|exact P|reflexivity|]. intros d t [= <- _]. reflexivity.
Qed.
Lemma replace_tabs_ok : forall s, untabbed s (replace_tabs s).
Proof.
  induction s as [|c s IH]; [constructor|]. cbn [replace_tabs]. destruct (Ascii.eqb_spec c tab) as [-> |N]; [exact (un_tab _ _ IH)|now constructor].
Qed.
Lemma formatted_ok : forall l, shown l (formatted l).
Proof.
  intros [|c l]; [now apply shown_other|]. unfold formatted. destruct (Ascii.eqb_spec c tab) as [-> |N]; [apply shown_indented, (replace_tabs_ok (String tab l))|]. apply shown_other. intros t [= E _]. now apply N.
Qed.
Lemma unlines_app : forall a b, unlines (a ++ b) = unlines a ++ unlines b.
Proof. induction a as [|l a IH]; intros b; [reflexivity|]. cbn [unlines List.app]. now rewrite IH, !str_app_assoc. Qed.
Lemma nl_white : all white nl.
Proof. constructor; [left; vm_compute; split; discriminate|constructor]. Qed.

Lemma cleaned_paragraphs : forall p ls r, paragraphs p ls r -> forall p' prev, Forall2 shown p p' -> (prev = true -> p = []) ->
  exists qs pre post, Forall2 (Forall2 shown) r qs /\ unlines p' ++ cleaned prev ls = pre ++ joined qs ++ post /\ all white pre /\ all white post /\ (p <> [] \/ prev = true -> pre = "").
Proof.
  induction 1 as [|p N|p l ls r B _ IH|l ls r B _ IH|p l ls r N B _ IH|p l ls r NB NS _ IH]; intros p' prev F V.
  - inversion F; subst. exists [], "", "". repeat split; constructor.
  - exists [p'], "", "". cbn [cleaned joined append]. repeat split; try constructor; [exact F|constructor].
  - cbn [cleaned]. apply builtin_iff in B. rewrite B. now apply IH.
  - cbn [cleaned]. inversion F; subst. destruct (skipped (trim l)) eqn:S.
    { apply builtin_iff in S as (a & b & A & E). exfalso. assert (X : String.eqb (trim l) "" = true) by now apply blank_iff.
      assert (S' : skipped (trim l) = true) by (apply builtin_iff; exists a, b; auto). apply String.eqb_eq in X. rewrite X in S'. discriminate S'. }
    assert (X : String.eqb (trim l) "" = true) by now apply blank_iff. rewrite X.
    destruct (IH [] true (Forall2_nil _) (fun _ => eq_refl)) as (qs & pre & post & Q & E & A & A' & P).
    exists qs, (if prev then "" else nl), post. split; [exact Q|]. cbn [unlines append] in *. rewrite E, (P (or_intror eq_refl)).
    split; [reflexivity|]. split; [destruct prev; [constructor|apply nl_white]|]. split; [exact A'|]. intros [W| ->]; [now destruct W|reflexivity].
  - cbn [cleaned]. destruct prev; [now destruct (N (V eq_refl))|].
    assert (X : String.eqb (trim l) "" = true) by now apply blank_iff. destruct (skipped (trim l)) eqn:S.
    { apply String.eqb_eq in X. rewrite X in S. discriminate S. }
    rewrite X. destruct (IH [] true (Forall2_nil _) (fun _ => eq_refl)) as (qs & pre & post & Q & E & A & A' & P).
    cbn [unlines append] in E. rewrite (P (or_intror eq_refl)) in E. cbn [append] in E.
    destruct qs as [|q qs].
    + exists [p'], "", (nl ++ post). cbn [joined append] in *. rewrite E. split; [now constructor|]. split; [reflexivity|]. split; [constructor|]. split; [|auto]. apply (all_app white nl post nl_white A').
    + exists (p' :: q :: qs), "", post. split; [now constructor|]. split; [|split; [constructor|split; [exact A'|auto]]].
      change (joined (p' :: q :: qs)) with (unlines p' ++ nl ++ joined (q :: qs)). rewrite E. cbn [append]. rewrite !str_app_assoc. reflexivity.
  - cbn [cleaned]. destruct (skipped (trim l)) eqn:S; [apply builtin_iff in S; contradiction|].
    destruct (String.eqb (trim l) "") eqn:T; [apply blank_iff in T; contradiction|].
    destruct (IH (p' ++ [formatted l])%list false) as (qs & pre & post & Q & E & A & A' & P).
    { apply Forall2_app; [exact F|]. constructor; [apply formatted_ok|constructor]. } { discriminate. }
    assert (NN : (p ++ [l])%list <> []) by (destruct p; discriminate).
    exists qs, "", post. rewrite (P (or_introl NN)) in E. split; [exact Q|]. split; [|split; [constructor|split; auto]].
    rewrite <- E, unlines_app. cbn [unlines]. rewrite !str_app_assoc. reflexivity.
Qed.
Lemma lines_of : forall s ls, has_lines s ls -> lines s = ls.
Proof.
  assert (Last : forall l, l <> "" -> one_line l -> lines l = [l]).
  { induction l as [|c l IH]; [congruence|]. intros _ O. inversion O as [|? ? C O']; subst. cbn [lines]. destruct (Ascii.eqb_spec c newline) as [-> |_]; [now destruct C|].
    destruct l as [|d l]; [now rewrite andb_false_r|]. inversion O' as [|? ? D _]; subst. destruct (Ascii.eqb_spec d newline) as [-> |_]; [now destruct D|]. rewrite andb_false_r. now rewrite IH. }
  assert (Unix : forall l s, one_line l -> (forall t, l <> t ++ cr) -> lines (l ++ nl ++ s) = l :: lines s).
  { induction l as [|c l IH]; intros s O NC; [reflexivity|]. inversion O as [|? ? C O']; subst. cbn [append lines]. destruct (Ascii.eqb_spec c newline) as [-> |_]; [now destruct C|].
    assert (NC' : forall t, l <> t ++ cr) by (intros t ->; now apply (NC (String c t))).
    change (l ++ String (ascii_of_nat 10) s) with (l ++ nl ++ s) in *. rewrite (IH s O' NC').
    destruct l as [|d l].
    - cbn [append nl]. destruct (Ascii.eqb_spec c return_) as [-> |_]; [now destruct (NC "")|]. reflexivity.
    - inversion O' as [|? ? D _]; subst. cbn [append]. destruct (Ascii.eqb_spec d newline) as [-> |_]; [now destruct D|]. rewrite andb_false_r. reflexivity. }
  assert (Dos : forall l s, one_line l -> lines (l ++ cr ++ nl ++ s) = l :: lines s).
  { induction l as [|c l IH]; intros s O; [reflexivity|]. inversion O as [|? ? C O']; subst. cbn [append lines]. destruct (Ascii.eqb_spec c newline) as [-> |_]; [now destruct C|].
    change (l ++ String (ascii_of_nat 13) (nl ++ s)) with (l ++ cr ++ nl ++ s) in *. rewrite (IH s O').
    destruct l as [|d l]; [cbn [append cr nl]; now rewrite andb_false_r|]. inversion O' as [|? ? D _]; subst. cbn [append]. destruct (Ascii.eqb_spec d newline) as [-> |_]; [now destruct D|]. rewrite andb_false_r. reflexivity. }
  induction 1 as [|l N O|l s ls O NC _ IH|l s ls O _ IH]; [reflexivity|auto|rewrite Unix; congruence|rewrite Dos; congruence].
Qed.
Lemma lines_exist : forall s, exists ls, has_lines s ls.
Proof.
  induction s as [|c t [ls H]]; [exists []; constructor|]. destruct (ascii_dec c (ascii_of_nat 10)) as [-> |C].
  - exists ("" :: ls). refine (unix_line "" t ls _ _ H); [constructor|]. intros [|d u]; discriminate.
  - inversion H as [|l N O|l s ls' O NC H'|l s ls' O H']; subst.
    + exists [String c ""]. apply last_line; [discriminate|]. repeat constructor. exact C.
    + exists [String c t]. apply last_line; [discriminate|]. now constructor.
    + destruct l as [|d l].
      * destruct (ascii_dec c (ascii_of_nat 13)) as [-> |R].
        -- exists ("" :: ls'). exact (dos_line "" s ls' (all_nil _) H').
        -- exists (String c "" :: ls'). refine (unix_line (String c "") s ls' _ _ H'); [repeat constructor; exact C|]. intros [|e u]; [intros [= E]; now apply R|]. intros [= _ E]. now destruct u.
      * exists (String c (String d l) :: ls'). refine (unix_line (String c (String d l)) s ls' _ _ H'); [now constructor|].
        intros [|e u]; [discriminate|]. intros [= _ E]. exact (NC u E).
    + exists (String c l :: ls'). refine (dos_line (String c l) s ls' _ H'). now constructor.
Qed.
Lemma paragraphs_exist : forall ls p, exists r, paragraphs p ls r.
Proof.
  induction ls as [|l ls IH]; intros p; [destruct p; [exists []; constructor|eexists; apply par_last; discriminate]|].
  destruct (skipped (trim l)) eqn:S; [apply builtin_iff in S; destruct (IH p) as [r R]; exists r; now apply par_builtin|].
  destruct (String.eqb (trim l) "") eqn:B.
  - apply blank_iff in B. destruct (IH []) as [r R]. destruct p as [|x p]; [exists r; now apply par_blank|]. exists ((x :: p) :: r). apply par_cut; [discriminate|exact B|exact R].
  - destruct (IH (p ++ [l])%list) as [r R]. exists r. apply par_line; [| |exact R]; intros X; [apply blank_iff in X|apply builtin_iff in X]; congruence.
Qed.
Lemma printed : forall s ls ps, has_lines s ls -> paragraphs [] ls ps -> exists qs, Forall2 (Forall2 shown) ps qs /\ trimmed (joined qs) (print_schema s).
Proof.
  intros s ls ps H P. destruct (cleaned_paragraphs _ _ _ P [] false (Forall2_nil _) (fun e => match Bool.diff_false_true e with end)) as (qs & pre & post & F & E & A & B & _).
  exists qs. split; [exact F|]. unfold print_schema. rewrite (lines_of _ _ H). cbn [unlines append] in E. rewrite E.
  pose proof (trim_ok (joined qs)) as T. rewrite <- (trimmed_trim _ _ (trimmed_pad pre _ post _ A B T)). exact T.
Qed.
Fixpoint rows (ps : list (list string)) : list string := match ps with [] => [] | [p] => p | p :: r => (p ++ "" :: rows r)%list end.
Lemma unlines_lines : forall p s ls, Forall tidy p -> has_lines s ls -> has_lines (unlines p ++ s) (p ++ ls).
Proof.
  induction p as [|l p IH]; intros s ls F H; [exact H|]. inversion F as [|? ? (O & C & _) F']; subst. cbn [unlines List.app]. rewrite !str_app_assoc. apply unix_line; auto.
Qed.
Lemma rows_lines : forall ps, Forall (Forall tidy) ps -> has_lines (joined ps) (rows ps).
Proof.
  induction ps as [|p r IH]; intros F; [constructor|]. inversion F as [|? ? P F']; subst. destruct r as [|q r].
  - cbn [joined rows]. pose proof (unlines_lines p "" [] P no_lines) as H. rewrite str_app_nil_r, app_nil_r in H. exact H.
  - change (joined (p :: q :: r)) with (unlines p ++ nl ++ joined (q :: r)). change (rows (p :: q :: r)) with (p ++ "" :: rows (q :: r))%list.
    apply unlines_lines; [exact P|]. refine (unix_line "" _ _ (all_nil _) _ (IH F')). intros [|d u]; discriminate.
Qed.
Lemma rows_run : forall p a ls r, Forall tidy p -> paragraphs (a ++ p) ls r -> paragraphs a (p ++ ls) r.
Proof.
  induction p as [|l p IH]; intros a ls r F H; [rewrite app_nil_r in H; exact H|]. inversion F as [|? ? (_ & _ & B & S & _) F']; subst.
  cbn [List.app]. apply par_line; [exact B|exact S|]. apply IH; [exact F'|]. now rewrite <- app_assoc.
Qed.
Lemma rows_paragraphs : forall ps, Forall (Forall tidy) ps -> ~ In [] ps -> paragraphs [] (rows ps) ps.
Proof.
  induction ps as [|p r IH]; intros F N; [constructor|]. inversion F as [|? ? P F']; subst.
  assert (NP : p <> []) by (intros ->; apply N; now left). assert (NR : ~ In [] r) by (intros I; apply N; now right). destruct r as [|q r].
  - cbn [rows]. pose proof (rows_run p [] [] [p] P (par_last p NP)) as H. rewrite app_nil_r in H. exact H.
  - change (rows (p :: q :: r)) with (p ++ "" :: rows (q :: r))%list. apply rows_run; [exact P|]. apply par_cut; [exact NP|constructor|auto].
Qed.
Lemma shown_tidy : forall ps qs, Forall (Forall tidy) ps -> Forall2 (Forall2 shown) ps qs -> qs = ps.
Proof.
  intros ps qs F. induction 1 as [|p q ps qs P _ IH]; [reflexivity|]. inversion F as [|? ? T F']; subst. rewrite IH by assumption. f_equal.
  clear - T P. induction P as [|l l' p q S _ IH]; [reflexivity|]. inversion T as [|? ? (_ & _ & _ & _ & N) T']; subst. rewrite IH by assumption. f_equal. inversion S; subst; [now destruct (N s)|reflexivity].
Qed.
