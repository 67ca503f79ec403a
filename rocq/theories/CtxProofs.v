(** Proofs for C52. *)
From Coq Require Import String Ascii ZArith NArith Bool List.
From Verif Require Import Base JsonModel JsonSpec JsonProofs CtxModel CtxSpec.
Import ListNotations.
Open Scope string_scope.
Open Scope list_scope.

Lemma get_path_value_eq p : forall v, get_path_value v p = get_path p v.
Proof.
  induction p as [|n p IH]; intros v; cbn; [reflexivity|].
  destruct v; try reflexivity.
  - destruct (parse_usize n) as [i|]; [|reflexivity]. destruct (nth_N l i); [apply IH|reflexivity].
  - destruct (aget n m); [apply IH|reflexivity].
Qed.
Lemma get_path_value_spec v p w : get_path_value v p = Some w <-> reaches v p w.
Proof. rewrite get_path_value_eq. apply get_path_spec. Qed.

Lemma path_value_spec c p w :
  option_map cow_value (path_value c p) = Some w <-> exists v, parent c v /\ reaches v p w.
Proof.
  unfold path_value. destruct (c_over_value c) as [o|] eqn:O.
  - split.
    + intros H. exists o. split; [now constructor|]. apply get_path_value_spec.
      destruct (get_path_value o p); cbn in *; congruence.
    + intros (v & P & R). destruct P; try congruence. rewrite O in H. injection H as ->.
      apply get_path_value_spec in R. now rewrite R.
  - destruct (c_value c) as [o|] eqn:V.
    + split.
      * intros H. exists o. split; [now apply parent_own|]. apply get_path_value_spec.
        destruct (get_path_value o p); cbn in *; congruence.
      * intros (v & P & R). destruct P; try congruence. rewrite V in H0. injection H0 as ->.
        apply get_path_value_spec in R. now rewrite R.
    + split; [discriminate|]. intros (v & P & R). destruct P; congruence.
Qed.

Lemma path_arg_spec c p w :
  option_map cow_value (path_arg c p) = Some w <-> exists v, arguments c v /\ reaches v p w.
Proof.
  unfold path_arg. destruct (c_over_args c) as [o|] eqn:O.
  - split.
    + intros H. exists o. split; [now constructor|]. apply get_path_value_spec.
      destruct (get_path_value o p); cbn in *; congruence.
    + intros (v & P & R). destruct P; try congruence. rewrite O in H. injection H as ->.
      apply get_path_value_spec in R. now rewrite R.
  - destruct (c_args c) as [m|] eqn:V.
    + assert (E : option_map cow_value match p with
             | [] => option_map (fun m => Owned (VObj m)) (Some m)
             | n :: rest => match aget n m with None => None | Some arg => option_map Borrowed (get_path_value arg rest) end
             end = get_path_value (VObj m) p).
      { destruct p as [|n rest]; cbn; [reflexivity|]. destruct (aget n m); [|reflexivity].
        destruct (get_path_value v rest); reflexivity. }
      rewrite E, get_path_value_spec. split.
      * intros R. exists (VObj m). split; [now apply arguments_own|exact R].
      * intros (v & P & R). destruct P; congruence.
    + split; [destruct p; discriminate|]. intros (v & P & R). destruct P; congruence.
Qed.

(** What [to_raw_value] finds. *)
Definition raw_value (o : option value_string) : option value :=
  match o with Some (RawValue v) => Some (cow_value v) | _ => None end.
Definition raw_string (o : option value_string) : option string :=
  match o with Some (RawString s) => Some s | _ => None end.

Ltac name_test n k := destruct (String.eqb_spec n k) as [->|?].

Lemma raw_value_map o : raw_value (option_map RawValue o) = option_map cow_value o.
Proof. destruct o; reflexivity. Qed.
Lemma raw_value_string o : raw_value (option_map RawString o) = None.
Proof. destruct o; reflexivity. Qed.
Lemma raw_string_map o : raw_string (option_map RawValue o) = None.
Proof. destruct o; reflexivity. Qed.
Lemma raw_string_string o : raw_string (option_map RawString o) = o.
Proof. destruct o; reflexivity. Qed.

Lemma to_raw_value_denotes rx c p w : raw_value (to_raw_value rx c p) = Some w <-> denotes c p w.
Proof.
  assert (B : denotes c p w <-> match p with
            | h :: t => (h = "value" /\ option_map cow_value (path_value c t) = Some w) \/
                        (h = "args" /\ option_map cow_value (path_arg c t) = Some w)
            | [] => False
            end).
  { split.
    - intros D. destruct D as [t v w P R|t v w P R].
      + left. split; [reflexivity|]. apply path_value_spec. eauto.
      + right. split; [reflexivity|]. apply path_arg_spec. eauto.
    - destruct p as [|h t]; [intros []|]. intros [[-> H]|[-> H]].
      + apply path_value_spec in H as (v & P & R). eapply denotes_value; eauto.
      + apply path_arg_spec in H as (v & P & R). eapply denotes_args; eauto. }
  rewrite B. clear B. destruct p as [|h [|t0 t]]; cbn [to_raw_value].
  - split; [discriminate|intros []].
  - name_test h "value"; [rewrite raw_value_map; intuition congruence|].
    name_test h "args"; [rewrite raw_value_map; intuition congruence|].
    destruct (String.eqb h "vars"); cbn; split; intros H; try discriminate; intuition.
  - name_test h "value"; [rewrite raw_value_map; intuition congruence|].
    name_test h "args"; [rewrite raw_value_map; intuition congruence|].
    name_test h "headers"; [rewrite raw_value_string; split; intros H; [discriminate|intuition]|].
    name_test h "vars"; [rewrite raw_value_string; split; intros H; [discriminate|intuition]|].
    name_test h "env"; [rewrite raw_value_string; split; intros H; [discriminate|intuition]|].
    split; intros H; [discriminate|intuition].
Qed.

Lemma to_raw_value_text rx c p s : raw_string (to_raw_value rx c p) = Some s <-> text_of rx p s.
Proof.
  destruct p as [|h [|t0 t]]; cbn [to_raw_value].
  - split; [discriminate|]. intros H. inversion H.
  - name_test h "value"; [rewrite raw_string_map; split; intros H; [discriminate|inversion H]|].
    name_test h "args"; [rewrite raw_string_map; split; intros H; [discriminate|inversion H]|].
    name_test h "vars".
    + cbn. split; intros H; [injection H as <-; constructor|inversion H; reflexivity].
    + split; intros H; [discriminate|]. inversion H; subst; congruence.
  - name_test h "value"; [rewrite raw_string_map; split; intros H; [discriminate|inversion H]|].
    name_test h "args"; [rewrite raw_string_map; split; intros H; [discriminate|inversion H]|].
    name_test h "headers"; [rewrite raw_string_string; split; intros H; [now constructor|now inversion H]|].
    name_test h "vars"; [rewrite raw_string_string; split; intros H; [now constructor|now inversion H]|].
    name_test h "env"; [rewrite raw_string_string; split; intros H; [now constructor|now inversion H]|].
    split; intros H; [discriminate|]. inversion H; subst; congruence.
Qed.

Lemma raw_split (o : option value_string) :
  (exists v, o = Some (RawValue v)) \/ (exists s, o = Some (RawString s)) \/ o = None.
Proof. destruct o as [[v|s]|]; eauto. Qed.

Lemma convert_spelled rx v s : convert_value rx v = Some s -> spelled rx (cow_value v) s.
Proof.
  destruct v as [v|v]; destruct v; cbn; intros H; try discriminate; injection H as <-; try constructor;
    destruct b; constructor.
Qed.
Lemma spelled_convert rx v s : spelled rx (cow_value v) s ->
  (forall n, v = Owned (VEnum n) -> False) -> convert_value rx v = Some s.
Proof.
  destruct v as [v|v]; cbn; intros H E; destruct H; try reflexivity. exfalso. eauto.
Qed.

Lemma path_string_sound rx c p s : path_string rx c p = Some s -> stands_for rx c p s.
Proof.
  unfold path_string. intros H.
  destruct (to_raw_value rx c p) as [[v|t]|] eqn:E; [|injection H as ->|discriminate].
  - apply (stands_value rx c p (cow_value v)); [|now apply convert_spelled].
    apply (to_raw_value_denotes rx). now rewrite E.
  - apply stands_text. apply (to_raw_value_text rx c). now rewrite E.
Qed.

Lemma owned_enum rx c p n : to_raw_value rx c p = Some (RawValue (Owned (VEnum n))) ->
  c_over_value c <> None \/ c_over_args c <> None.
Proof.
  assert (V : forall q, path_value c q = Some (Owned (VEnum n)) -> c_over_value c <> None).
  { intros q. unfold path_value. destruct (c_over_value c); [discriminate|].
    destruct (c_value c) as [v|]; [|discriminate]. destruct (get_path_value v q); discriminate. }
  assert (A : forall q, path_arg c q = Some (Owned (VEnum n)) -> c_over_args c <> None).
  { intros q. unfold path_arg. destruct (c_over_args c); [discriminate|].
    destruct q as [|k q]; [destruct (c_args c); discriminate|].
    destruct (c_args c) as [m|]; [|discriminate]. destruct (aget k m) as [v|]; [|discriminate].
    destruct (get_path_value v q); discriminate. }
  assert (R : forall o, option_map RawValue o = Some (RawValue (Owned (VEnum n))) -> o = Some (Owned (VEnum n)))
    by (intros [o|] H; cbn in H; congruence).
  assert (Q : forall o, option_map RawString o = Some (RawValue (Owned (VEnum n))) -> False)
    by (intros [o|] H; cbn in H; congruence).
  destruct p as [|h [|t0 t]]; cbn [to_raw_value]; [discriminate| |];
    repeat match goal with |- context [if ?b then _ else _] => destruct b end;
    intros H; try discriminate; try (apply R in H; eauto); exfalso; eauto.
Qed.

Lemma path_string_complete rx c p s : stands_for rx c p s ->
  (forall n, denotes c p (VEnum n) -> c_over_value c = None /\ c_over_args c = None) ->
  path_string rx c p = Some s.
Proof.
  intros S0 N. unfold path_string. destruct S0 as [s H|v s D P].
  - apply (to_raw_value_text rx c) in H. destruct (to_raw_value rx c p) as [[v|t]|]; cbn in H; congruence.
  - pose proof D as D'. apply (to_raw_value_denotes rx) in D.
    destruct (to_raw_value rx c p) as [[w|t]|] eqn:E; cbn in D; try discriminate. injection D as <-.
    apply spelled_convert; [exact P|]. intros n ->. cbn in D'. destruct (N n D') as [N1 N2].
    apply owned_enum in E. tauto.
Qed.

Lemma path_graphql_spec rx c p s : 2 <= length p -> path_graphql rx c p = Some s <-> graphql_for rx c p s.
Proof.
  intros L. destruct p as [|h [|t0 t]]; cbn in L; [exfalso; inversion L|exfalso; inversion L as [|? X]; inversion X|].
  unfold path_graphql. set (p := h :: t0 :: t) in *.
  destruct (to_raw_value rx c p) as [[v|x]|] eqn:E.
  - split.
    + intros [= <-]. apply graphql_value. apply (to_raw_value_denotes rx). now rewrite E.
    + intros H. destruct H as [s H|w H].
      * apply (to_raw_value_text rx c) in H. rewrite E in H. discriminate.
      * apply (to_raw_value_denotes rx) in H. rewrite E in H. cbn in H. congruence.
  - split.
    + intros [= <-]. change (String """" (x ++ """")) with ("""" ++ x ++ """")%string. apply graphql_text. apply (to_raw_value_text rx c). now rewrite E.
    + intros H. destruct H as [s H|w H].
      * apply (to_raw_value_text rx c) in H. rewrite E in H. cbn in H. injection H as ->. reflexivity.
      * apply (to_raw_value_denotes rx) in H. rewrite E in H. discriminate.
  - split; [discriminate|]. intros H. destruct H as [s H|w H].
    + apply (to_raw_value_text rx c) in H. rewrite E in H. discriminate.
    + apply (to_raw_value_denotes rx) in H. rewrite E in H. discriminate.
Qed.
