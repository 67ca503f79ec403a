(** Proofs about warnings and the log (C103). *)
From Coq Require Import String Ascii NArith Arith Bool List Lia.
From Verif Require Import Base WrModel WrSpec.
Import ListNotations.
Open Scope string_scope.

Lemma differs_dec f base : {differs f base} + {~ differs f base}.
Proof.
  destruct f as [| |t].
  - right. intros [D|[t [D _]]]; discriminate D.
  - left. left. reflexivity.
  - destruct (string_dec t base) as [E|E].
    + right. intros [D|[u [D N]]]; [discriminate D|]. injection D as <-. apply N. exact E.
    + left. right. exists t. split; [reflexivity|exact E].
Qed.

Section Rc.
  Variable parent : string -> option string.
  Variable join : string -> string -> string.
  Variable rc_graphql rc_schema : string.
  Variable disk : string -> file.

  Lemma outdated_step dir name base t :
    outdated join disk dir ((name, base) :: t)
    = if differs_dec (disk (join dir name)) base then name :: outdated join disk dir t else outdated join disk dir t.
  Proof.
    cbn [outdated]. destruct (differs_dec _ _) as [D|D]; destruct (disk (join dir name)) as [| |c] eqn:E.
    - destruct D as [D|[u [D _]]]; discriminate D.
    - reflexivity.
    - destruct D as [D|[u [D N]]]; [discriminate D|]. injection D as <-.
      destruct (String.eqb_spec c base) as [->|_]; [destruct (N eq_refl)|reflexivity].
    - reflexivity.
    - exfalso. apply D. left. reflexivity.
    - destruct (String.eqb_spec c base) as [_|N]; [reflexivity|]. exfalso. apply D. right. exists c. split; [reflexivity|exact N].
  Qed.

  Lemma outdated_says dir :
    match outdated join disk dir (rc_files rc_graphql rc_schema) with
    | [] => forall t, ~ warns_of join rc_graphql rc_schema disk dir t
    | l => warns_of join rc_graphql rc_schema disk dir (joined_by ", " l)
    end.
  Proof.
    unfold rc_files. rewrite outdated_step, outdated_step. cbn [outdated]. unfold warns_of.
    destruct (differs_dec _ rc_graphql) as [A|A]; destruct (differs_dec _ rc_schema) as [B|B].
    - apply listed_both; assumption.
    - apply listed_first; assumption.
    - apply listed_second; assumption.
    - intros t W. inversion W; subst; contradiction.
  Qed.

  Lemma validate_warned paths :
    warned parent (warns_of join rc_graphql rc_schema disk) paths (map w_files (validate parent join rc_graphql rc_schema disk paths)).
  Proof.
    induction paths as [|p t IH]; [constructor|]. cbn [validate]. destruct (parent p) as [dir|] eqn:P.
    - pose proof (outdated_says dir) as O. destruct (outdated join disk dir _) as [|x l].
      + eapply warned_fine; eassumption.
      + cbn [map w_files]. eapply warned_old; eassumption.
    - apply warned_root; assumption.
  Qed.

  Lemma listed_long A B t : listed ".tailcallrc.graphql" ".tailcallrc.schema.json" A B t -> String.length t <> 1.
  Proof. intros L. inversion L; subst; cbn; discriminate. Qed.

  Lemma validate_are paths w : In w (validate parent join rc_graphql rc_schema disk paths) -> w_verb w = "are".
  Proof.
    induction paths as [|p t IH]; [intros []|]. cbn [validate]. destruct (parent p) as [dir|]; [|exact IH].
    pose proof (outdated_says dir) as O. destruct (outdated join disk dir _) as [|x l]; [exact IH|].
    intros [<-|I]; [|apply IH; exact I]. cbn [w_verb]. unfold pluralize_is.
    apply listed_long in O. apply Nat.eqb_neq in O. rewrite O. reflexivity.
  Qed.

  Lemma warned_in says paths ws : warned parent says paths ws ->
    forall t, In t ws -> exists p dir, In p paths /\ parent p = Some dir /\ says dir t.
  Proof.
    induction 1; intros u I.
    - destruct I.
    - destruct (IHwarned u I) as [q [d [Q R]]]. exists q, d. split; [right; exact Q|exact R].
    - destruct (IHwarned u I) as [q [d [Q R]]]. exists q, d. split; [right; exact Q|exact R].
    - destruct I as [<-|I].
      + exists p, dir. split; [left; reflexivity|]. split; assumption.
      + destruct (IHwarned u I) as [q [d [Q R]]]. exists q, d. split; [right; exact Q|exact R].
  Qed.
End Rc.

(** Levels *)
Lemma small_cased c d : (97 <= N_of_ascii c <= 122)%N -> (small d = c <-> cased c d).
Proof.
  intros R. unfold small, cased. destruct ((65 <=? N_of_ascii d) && (N_of_ascii d <=? 90))%N eqn:B.
  - apply andb_true_iff in B. destruct B as [B1 B2]. apply N.leb_le in B1. apply N.leb_le in B2. split.
    + intros <-. right. exists (N_of_ascii d + 32)%N. split; [lia|]. split; [reflexivity|].
      replace (N_of_ascii d + 32 - 32)%N with (N_of_ascii d) by lia. symmetry. apply ascii_N_embedding.
    + intros [->|[n [Rn [-> ->]]]]; [lia|]. rewrite N_ascii_embedding by lia. f_equal. lia.
  - split.
    + intros ->. left. reflexivity.
    + intros [->|[n [Rn [-> ->]]]]; [reflexivity|]. exfalso.
      rewrite N_ascii_embedding in B by lia. apply andb_false_iff in B. destruct B as [B|B]; apply N.leb_gt in B; lia.
Qed.

Fixpoint all_small (s : string) : bool :=
  match s with "" => true | String c t => ((97 <=? N_of_ascii c) && (N_of_ascii c <=? 122))%N && all_small t end.

Lemma lower_written s : all_small s = true -> forall v, lower_case v = s <-> written_as s v.
Proof.
  induction s as [|c s IH]; intros A v.
  - destruct v as [|d v]; cbn; split; intros H; try constructor; try reflexivity; try discriminate H; inversion H.
  - cbn in A. apply andb_true_iff in A. destruct A as [R A]. apply andb_true_iff in R. destruct R as [R1 R2].
    apply N.leb_le in R1. apply N.leb_le in R2. destruct v as [|d v]; cbn [lower_case].
    + split; intros H; [discriminate H|inversion H].
    + split.
      * intros H. injection H as H1 H2. constructor; [apply small_cased; [lia|exact H1]|apply IH; assumption].
      * intros H. inversion H; subst. f_equal; [apply small_cased; [lia|assumption]|apply IH; assumption].
Qed.

Lemma no_zeros_front s : exists n, s = (zeros n ++ no_zeros s)%string.
Proof.
  induction s as [|c s [n IH]]; [exists 0; reflexivity|]. destruct (ascii_dec c "0") as [->|N].
  - exists (S n). cbn [zeros no_zeros append]. f_equal. exact IH.
  - exists 0. cbn [zeros append]. destruct c as [[] [] [] [] [] [] [] []]; try reflexivity. destruct N. reflexivity.
Qed.

Lemma no_zeros_of n s : no_zeros (zeros n ++ s)%string = no_zeros s.
Proof. induction n as [|n IH]; [reflexivity|exact IH]. Qed.

Lemma unsigned_cases s : s = unsigned s \/ s = ("+" ++ unsigned s)%string.
Proof.
  destruct s as [|c s]; [left; reflexivity|]. destruct (ascii_dec c "+") as [->|N]; [right; reflexivity|left].
  destruct c as [[] [] [] [] [] [] [] []]; try reflexivity. destruct N. reflexivity.
Qed.

Definition figure (d : string) : Prop := In d ["1"; "2"; "3"; "4"; "5"].

Lemma number_ok d v : figure d -> no_zeros (unsigned v) = d <-> numbered d v.
Proof.
  intros F. split.
  - intros E. destruct (no_zeros_front (unsigned v)) as [n Z]. rewrite E in Z. exists n.
    destruct (unsigned_cases v) as [U|U]; rewrite Z in U; [left|right]; exact U.
  - intros [n [-> | ->]].
    + assert (U : unsigned (zeros n ++ d) = (zeros n ++ d)%string).
      { destruct n; [|reflexivity]. repeat (destruct F as [<-|F]; [reflexivity|]). destruct F. }
      rewrite U, no_zeros_of. repeat (destruct F as [<-|F]; [reflexivity|]). destruct F.
    + change (unsigned ("+" ++ zeros n ++ d)) with (zeros n ++ d)%string. rewrite no_zeros_of.
      repeat (destruct F as [<-|F]; [reflexivity|]). destruct F.
Qed.

Lemma number_or_word d w v : figure d -> In w ["error"; "warn"; "info"; "debug"; "trace"] -> lower_case v = w -> no_zeros (unsigned v) <> d.
Proof.
  intros F W L E. apply number_ok in E; [|exact F]. destruct E as [n [-> | ->]].
  - destruct n; cbn in L; repeat (destruct F as [<-|F]; [subst w; cbn in W; repeat (destruct W as [W|W]; [discriminate W|]); destruct W|]); destruct F.
  - cbn in L. subst w. cbn in W. repeat (destruct W as [W|W]; [discriminate W|]). destruct W.
Qed.

Lemma level_names v l : level_of v = Some l <-> names_level v l.
Proof.
  split.
  - unfold level_of. intros H. remember (lower_case v) as k eqn:K. remember (no_zeros (unsigned v)) as z eqn:Z. symmetry in K, Z. cbn [aget] in H.
    repeat match type of H with context [String.eqb ?a ?b] => destruct (String.eqb_spec a b) as [?E|?E] end;
      try discriminate H; injection H as <-; subst;
      constructor;
      first [ left; apply lower_written; [reflexivity|congruence]
            | right; apply number_ok; [cbn; tauto|congruence] ].
  - intros N. unfold level_of.
    assert (Word : forall w, In w ["error"; "warn"; "info"; "debug"; "trace"] -> lower_case v = w ->
      aget (no_zeros (unsigned v)) [("1", Error); ("2", Warn); ("3", Info); ("4", Debug); ("5", Trace)] = None).
    { intros w W L. cbn [aget].
      repeat match goal with |- context [String.eqb ?a ?b] => destruct (String.eqb_spec a b) as [E|_];
        [exfalso; revert E; apply (number_or_word _ w); [cbn; tauto|exact W|exact L]|] end.
      reflexivity. }
    inversion N as [u W|u W|u W|u W|u W]; subst u;
      (destruct W as [W|W];
       [ apply lower_written in W; [erewrite Word; [rewrite W; reflexivity| |exact W]; cbn; tauto|reflexivity]
       | apply number_ok in W; [rewrite W; reflexivity|cbn; tauto] ]).
Qed.

Lemma serious_rank a b : as_serious a b <-> rank a <= rank b.
Proof.
  split.
  - induction 1; cbn; lia.
  - destruct a, b; cbn; intros L; try lia;
      eauto 10 using serious_same, serious_error, serious_warn, serious_info, serious_debug, serious_trans.
Qed.

Lemma prefix_app p : forall s, String.prefix p s = true <-> exists r, s = (p ++ r)%string.
Proof.
  induction p as [|c p IH]; intros s; cbn [String.prefix].
  - split; [exists s; reflexivity|destruct s; reflexivity].
  - destruct s as [|d s].
    + split; [discriminate|intros [r R]; discriminate R].
    + simpl. destruct (ascii_dec c d) as [->|N].
      * rewrite IH. split; intros [r R]; exists r; [rewrite R; reflexivity|injection R as R; exact R].
      * split; [discriminate|]. intros [r R]. injection R as R _. destruct N. symmetry. exact R.
Qed.
