(** Proofs for C83. *)
From Coq Require Import String Ascii ZArith NArith Bool Arith Lia List.
From Verif Require Import Base BaseFacts StringFacts Ordered OrderedFacts JsonModel TypeModel ConfigModel IrModel ComposeModel ComposeProofs ScalarModel FieldModel FieldSpec Field2Proofs EntityProofs FdSpec Fd2Proofs SvModel SvSpec.
From Verif Require ShrinkModel ShrinkSpec ShrinkProofs ShrinkProps BuilderModel.
Import ListNotations.
Open Scope string_scope.
Open Scope list_scope.

(** ** The map of types *)
Section Types.
  Lemma in_keys {A} k (v : A) m : In (k, v) m -> In k (akeys m).
  Proof. intros I. apply in_map_iff. now exists (k, v). Qed.
  Lemma nodup_aset {A} k (v : A) m : NoDup (akeys m) -> NoDup (akeys (aset k v m)).
  Proof.
    intros N. destruct (in_dec string_dec k (akeys m)) as [I|I].
    - now rewrite akeys_aset_in.
    - rewrite akeys_aset_notin; [|exact I]. clear -N I. induction (akeys m) as [|x l IH]; cbn; [repeat constructor; auto|].
      inversion N as [|? ? Nx Nl]; subst. constructor; [|apply IH; [exact Nl|intros J; apply I; now right]].
      intros J. apply in_app_iff in J. destruct J as [J|[J|[]]]; [now apply Nx|subst; apply I; now left].
  Qed.
  Lemma nodup_aget {A} k (v : A) m : NoDup (akeys m) -> In (k, v) m -> aget k m = Some v.
  Proof.
    induction m as [|[k' v'] m IH]; [intros _ []|]. cbn. intros N I. inversion N as [|? ? Nx Nl]; subst. destruct I as [E|I].
    - injection E as -> ->. now rewrite String.eqb_refl.
    - destruct (String.eqb_spec k k') as [->|_]; [exfalso; apply Nx; eapply in_keys; exact I|auto].
  Qed.

  Definition put (l : list shown) (b : builder) : builder := fold_left (fun b s => register s b) l b.
  Lemma put_nodup l : forall b, NoDup (akeys (b_types b)) -> NoDup (akeys (b_types (put l b))).
  Proof. unfold put. induction l as [|s l IH]; intros b N; [exact N|]. cbn [fold_left]. apply IH. cbn [register b_types]. now apply nodup_aset. Qed.
  Lemma put_other l : forall b n, ~ In n (map shown_name l) -> aget n (b_types (put l b)) = aget n (b_types b).
  Proof.
    unfold put. induction l as [|s l IH]; intros b n H; [reflexivity|]. cbn [fold_left]. rewrite IH; [|intros I; apply H; now right].
    cbn [register b_types]. apply aget_aset_other. intros ->. apply H. now left.
  Qed.
  Lemma put_in l : forall b s, NoDup (map shown_name l) -> In s l -> aget (shown_name s) (b_types (put l b)) = Some s.
  Proof.
    induction l as [|s' l IH]; intros b s N I; [destruct I|]. inversion N as [|? ? Nx Nl]; subst. unfold put. cbn [fold_left]. destruct I as [->|I].
    - fold (put l (register s b)). rewrite put_other; [|exact Nx]. apply aget_aset_same.
    - now apply IH.
  Qed.
  Lemma put_from l : forall b n s, aget n (b_types (put l b)) = Some s -> (In s l /\ shown_name s = n) \/ aget n (b_types b) = Some s.
  Proof.
    unfold put. induction l as [|s' l IH]; intros b n s H; [now right|]. cbn [fold_left] in H. apply IH in H. destruct H as [[I E]|H]; [left; split; [now right|exact E]|].
    cbn [register b_types] in H. rewrite aget_aset in H. destruct (String.eqb_spec n (shown_name s')) as [->|_]; [|now right]. injection H as <-. left. split; [now left|reflexivity].
  Qed.
  Lemma put_keeps l : forall b n, In n (akeys (b_types b)) -> In n (akeys (b_types (put l b))).
  Proof.
    unfold put. induction l as [|s l IH]; intros b n I; [exact I|]. cbn [fold_left]. apply IH. cbn [register b_types].
    destruct (in_dec string_dec (shown_name s) (akeys (b_types b))) as [J|J]; [now rewrite akeys_aset_in|]. rewrite akeys_aset_notin; [|exact J]. apply in_or_app. now left.
  Qed.

  Lemma find_scalar_built_in n s : find_scalar n = Some s -> built_in n s.
  Proof. intros H. apply aget_In in H. exact H. Qed.
  Lemma built_in_find n s : built_in n s -> find_scalar n = Some s.
  Proof. intros H. unfold built_in in H. cbn in H. repeat (destruct H as [E|H]; [injection E as <- <-; reflexivity|]). destruct H. Qed.
  Definition injected (ts : list typ) : list shown :=
    flat_map (fun t => match find_scalar (type_name t) with Some rule => [SScalar (type_name t) None rule] | None => [] end) ts.
  Lemma inject_put ts : forall b, fold_left (fun b t => inject_scalar t b) ts b = put (injected ts) b.
  Proof.
    induction ts as [|t ts IH]; intros b; [reflexivity|]. cbn [fold_left injected flat_map]. rewrite IH. unfold put, inject_scalar. destruct (find_scalar (type_name t)); reflexivity.
  Qed.
  Lemma injected_in ts s : In s (injected ts) <-> exists t rule, In t ts /\ find_scalar (type_name t) = Some rule /\ s = SScalar (type_name t) None rule.
  Proof.
    unfold injected. rewrite in_flat_map. split.
    - intros (t & I & H). destruct (find_scalar (type_name t)) as [rule|] eqn:E; [|destruct H]. destruct H as [<-|[]]. now exists t, rule.
    - intros (t & rule & I & E & ->). exists t. split; [exact I|]. rewrite E. now left.
  Qed.
  Lemma put_roots l : forall b, b_query (put l b) = b_query b /\ b_mutation (put l b) = b_mutation b.
  Proof. unfold put. induction l as [|s l IH]; intros b; [now split|]. cbn [fold_left]. now rewrite (proj1 (IH _)), (proj2 (IH _)). Qed.
End Types.

Section Shown.
  Context {IO : Type}.
  Local Notation definition := (definition IO).
  Lemma shown_title (d : definition) : shown_name (to_type d) = title d.
  Proof. now destruct d. Qed.
  Lemma schema_put q mu (defs : list definition) :
    schema_of q mu defs = put (map to_type defs) (put (injected (flat_map field_types defs)) {| b_query := q; b_mutation := mu; b_types := [] |}).
  Proof.
    unfold schema_of, inject_custom_scalars. rewrite inject_put. generalize (put (injected (flat_map field_types defs)) {| b_query := q; b_mutation := mu; b_types := [] |}).
    unfold put. induction defs as [|d defs IH]; intros b; [reflexivity|]. cbn [map fold_left]. apply IH.
  Qed.
  Lemma schema_nodup q mu (defs : list definition) : NoDup (map fst (b_types (schema_of q mu defs))).
  Proof. rewrite schema_put. apply put_nodup, put_nodup. constructor. Qed.
  Lemma schema_in q mu (defs : list definition) d : NoDup (map title defs) -> In d defs -> aget (title d) (b_types (schema_of q mu defs)) = Some (to_type d).
  Proof.
    intros N I. rewrite schema_put, <- shown_title. apply put_in; [|now apply in_map].
    rewrite map_map. erewrite map_ext; [exact N|]. intros; apply shown_title.
  Qed.
  Lemma schema_from q mu (defs : list definition) n s : aget n (b_types (schema_of q mu defs)) = Some s ->
    (exists d, In d defs /\ title d = n /\ s = to_type d) \/
    (exists t rule, In t (flat_map field_types defs) /\ type_name t = n /\ find_scalar n = Some rule /\ s = SScalar n None rule).
  Proof.
    rewrite schema_put. intros H. apply put_from in H. destruct H as [[I E]|H].
    - left. apply in_map_iff in I. destruct I as (d & <- & I). exists d. rewrite shown_title in E. auto.
    - right. apply put_from in H. destruct H as [[I E]|H]; [|discriminate]. apply injected_in in I. destruct I as (t & rule & I & F & ->). cbn in E. subst n. now exists t, rule.
  Qed.
  Lemma schema_scalar q mu (defs : list definition) t rule : In t (flat_map field_types defs) -> find_scalar (type_name t) = Some rule ->
    In (type_name t) (map fst (b_types (schema_of q mu defs))).
  Proof.
    intros I F. rewrite schema_put. apply put_keeps.
    destruct (in_dec string_dec (type_name t) (akeys (b_types (put (injected (flat_map field_types defs)) {| b_query := q; b_mutation := mu; b_types := [] |})))) as [J|J]; [exact J|].
    apply aget_None in J. exfalso. revert J. assert (K : In (SScalar (type_name t) None rule) (injected (flat_map field_types defs))) by (apply injected_in; now exists t, rule).
    revert K. generalize {| b_query := q; b_mutation := mu; b_types := [] |}. unfold put. induction (injected (flat_map field_types defs)) as [|s l IH]; intros b K; [destruct K|]. cbn [fold_left].
    destruct K as [->|K]; [|now apply IH]. intros J. apply aget_None in J. apply J. apply put_keeps. cbn [register b_types shown_name]. eapply aget_Some_key. apply aget_aset_same.
  Qed.
  Lemma schema_roots q mu (defs : list definition) : b_query (schema_of q mu defs) = q /\ b_mutation (schema_of q mu defs) = mu.
  Proof. rewrite schema_put. rewrite (proj1 (put_roots _ _)), (proj2 (put_roots _ _)), (proj1 (put_roots _ _)), (proj2 (put_roots _ _)). now split. Qed.
  Lemma field_type_shown (d : definition) t : In t (field_types d) <-> field_type_in (to_type d) t.
  Proof.
    destruct d as [n doc fs is|n doc fs is|n doc fs|n doc r|n doc vs|n doc ts]; cbn; try tauto; rewrite in_map_iff; split.
    - intros (f & <- & I). exists (to_shown_field f). split; [now apply in_map|reflexivity].
    - intros (s & I & <-). apply in_map_iff in I. destruct I as (f & <- & I). now exists f.
    - intros (f & <- & I). exists (to_shown_interface_field f). split; [now apply in_map|reflexivity].
    - intros (s & I & <-). apply in_map_iff in I. destruct I as (f & <- & I). now exists f.
    - intros (f & <- & I). eexists. split; [apply in_map_iff; exists f; split; [reflexivity|exact I]|reflexivity].
    - intros (s & I & <-). apply in_map_iff in I. destruct I as (f & <- & I). now exists f.
  Qed.
End Shown.

(** ** Fields *)
Section Made.
  Context {IO : Type}.
  Variable compile : string -> field -> resolver -> valid (option (ir IO)).
  Variable valid_templates : gtype -> fdef IO -> valid unit.
  Variable m : cmodule.
  Variable added : gtype -> list add_field.
  Local Notation c := (m_config m).
  Local Notation define := (to_field_definition compile valid_templates m).

  Lemma defined_seen object t f n d : define object t f n = Ok d -> seen_as n f (d_name d) /\ d_args d = f_args f /\ d_type d = f_type f.
  Proof.
    unfold to_field_definition. set (i := Build_input _ _ _ _). intros A. apply and_ok in A. destruct A as (d8 & A & J). apply and_ok in A. destruct A as (d7 & A & I). apply and_ok in A. destruct A as (d6 & A & H). apply and_ok in A. destruct A as (d5 & A & G). apply and_ok in A. destruct A as (d4 & A & E). apply and_ok in A. destruct A as (d3 & A & D). apply and_ok in A. destruct A as (d2 & A & C). apply and_ok in A. destruct A as (d1 & A & B).
    assert (S1 : d_name d1 = n /\ d_args d1 = f_args f /\ d_type d1 = f_type f) by (injection A as <-; now repeat split).
    assert (S2 : same_field d1 d2).
    { unfold update_resolver, and_then in B. destruct (all_checked _ _); [|discriminate]. cbn in B. destruct (valid_templates _ _); [|discriminate]. cbn in B. injection B as <-. now repeat split. }
    assert (S3 : d_args d3 = d_args d2 /\ d_type d3 = d_type d2 /\ seen_as (d_name d2) f (d_name d3)).
    { apply trace_ok in C. unfold update_modify in C. cbn in C. unfold seen_as. destruct (f_modify f) as [[[new|] om]|] eqn:M; try (injection C as <-; repeat split; right; split; [|reflexivity]; intros new (mo & X & Y); rewrite M in X; injection X as <-; discriminate).
      - destruct (existsb _ _); [discriminate|]. injection C as <-. split; [reflexivity|]. split; [reflexivity|]. left. eexists. split; [exact M|reflexivity].
      - injection C as <-. repeat split. right. split; [|reflexivity]. intros new (mo & X & Y). rewrite M in X. discriminate. }
    assert (S4 : same_field d3 d4) by (unfold fix_dangling_resolvers in D; injection D as <-; destruct (_ && _); now repeat split).
    assert (S5 : same_field d4 d5).
    { unfold update_cache_resolvers in E. injection E as <-. match goal with |- context [match ?x with Some _ => _ | None => d4 end] => destruct x end; now repeat split. }
    assert (S6 : same_field d5 d6).
    { apply trace_ok in G. unfold update_protected in G. destruct (is_protected_field m i); [|injection G as <-; now repeat split]. destruct (smem _ _); [discriminate|]. destruct (m_providers m); [discriminate|]. destruct (all_checked _ _); [|discriminate]. cbn [rmap rbind] in G. injection G as <-.
      match goal with |- context [match ?x with Some _ => _ | None => d5 end] => destruct x end; now repeat split. }
    assert (S7 : same_field d6 d7) by (unfold update_enum_alias in H; injection H as <-; destruct (find_enum _ _); now repeat split).
    assert (S8 : same_field d7 d8).
    { unfold update_union_resolver in I. destruct (find_union _ _); [now apply discriminated_same in I|]. injection I as <-. now repeat split. }
    assert (S9 : same_field d8 d).
    { unfold update_interface_resolver in J. destruct (aget _ _); [now apply discriminated_same in J|]. injection J as <-. now repeat split. }
    clear -S1 S2 S3 S4 S5 S6 S7 S8 S9. unfold same_field in *.
    repeat match goal with X : _ /\ _ |- _ => destruct X end. split; [|split; congruence].
    replace (d_name d) with (d_name d3) by congruence. replace n with (d_name d2) by congruence. assumption.
  Qed.

  Lemma added_seen object t a d : to_added_field compile valid_templates m object t a = Ok d ->
    exists f, starts_at t a f /\ seen_as (af_name a) f (d_name d) /\ d_args d = f_args f /\
      match af_path a with head :: _ => match get_field head t with Some f => f | None => empty_field end | [] => empty_field end = f.
  Proof.
    unfold to_added_field. destruct (af_path a) as [|head tail] eqn:P; [discriminate|]. destruct (get_field head t) as [f|] eqn:G; [|discriminate].
    intros H. apply traced_ok in H. unfold and_then in H. destruct (define object t f (af_name a)) as [d0|] eqn:D; [|discriminate]. cbn in H.
    apply defined_seen in D. destruct D as (S & A & _). exists f. unfold update_resolver_from_path in H. destruct (process_path _ _ _ _ _); [|discriminate]. cbn [rmap rbind] in H. injection H as <-.
    split.
    - unfold get_field in G. apply (oget_in scmp scmp_order) in G. apply in_split in G. destruct G as (l1 & l2 & G). now exists head, tail, l1, l2.
    - cbn. auto.
  Qed.

  Lemma fields_made object t ds : to_fields compile valid_templates m object t (added t) = Ok ds -> exists own adds,
    ds = own ++ adds /\ Forall2 (fun nf d => define object t (snd nf) (fst nf) = Ok d) (filter (fun nf => negb (is_omitted (snd nf))) (t_fields t)) own /\
    Forall2 (fun a d => to_added_field compile valid_templates m object t a = Ok d) (added t) adds.
  Proof.
    unfold to_fields. destruct (all_checked _ (filter _ _)) as [fs|] eqn:A; [|destruct (all_checked _ (added t)); discriminate].
    destruct (all_checked _ (added t)) as [adds|] eqn:B; [|discriminate]. intros E. injection E as <-. apply all_checked_ok in A. apply all_checked_ok in B.
    exists fs, adds. split; [reflexivity|]. split; [|exact B]. eapply two_impl; [|exact A]. intros [k f] d H. cbn in *.
    assert (Y : also (validate_field_type_exist m f) (define object t f k) = Ok d) by (destruct (traced_name t f); [now apply traced_ok in H|exact H]).
    destruct (validate_field_type_exist m f); cbn in Y; [exact Y|]. destruct (define object t f k); discriminate.
  Qed.

  Lemma omitted f : is_omitted f = true <-> left_out f.
  Proof.
    unfold is_omitted, left_out. rewrite Bool.orb_true_iff. split; (intros [H|H]; [now left|right]).
    - destruct (f_modify f) as [mo|]; [|discriminate]. destruct (mod_omit mo) as [b|] eqn:E; [|discriminate]. subst b. now exists mo.
    - destruct H as (mo & -> & ->). reflexivity.
  Qed.
  Lemma stays l : staying l (filter (fun nf => negb (is_omitted (snd nf))) l).
  Proof.
    induction l as [|[k f] l IH]; [constructor|]. cbn [filter snd]. destruct (is_omitted f) eqn:O; cbn [negb].
    - apply stay_out; [now apply omitted|exact IH].
    - apply stay_in; [|exact IH]. intros L. apply omitted in L. congruence.
  Qed.

  Definition with_source (df : fdef IO * field) : field_def IO := {| df_field := fst df; df_doc := f_doc (snd df); df_default := f_default (snd df) |}.
  Lemma combined {A} (src : A -> field) (R : A -> fdef IO -> Prop) l ds : Forall2 R l ds ->
    Forall2 (fun x fd => R x (df_field fd) /\ df_doc fd = f_doc (src x) /\ df_default fd = f_default (src x)) l (map with_source (combine ds (map src l))).
  Proof. induction 1; cbn; constructor; auto. Qed.
  Lemma combine_app {A B} (a b : list A) (a' b' : list B) : length a = length a' -> combine (a ++ b) (a' ++ b') = combine a a' ++ combine b b'.
  Proof. revert a'. induction a as [|x a IH]; intros [|y a'] L; try discriminate; [reflexivity|]. cbn. f_equal. apply IH. now injection L. Qed.
  Lemma two_length {A B} (R : A -> B -> Prop) l l' : Forall2 R l l' -> length l = length l'.
  Proof. induction 1; cbn; auto. Qed.

  Lemma field_defs_made n t fds : to_field_defs compile valid_templates m added n t = Ok fds -> exists own adds,
    fds = own ++ adds /\
    Forall2 (fun nf fd => seen_as (fst nf) (snd nf) (d_name (df_field fd)) /\ d_args (df_field fd) = f_args (snd nf) /\ d_type (df_field fd) = f_type (snd nf) /\
                          df_doc fd = f_doc (snd nf) /\ df_default fd = f_default (snd nf))
            (filter (fun nf => negb (is_omitted (snd nf))) (t_fields t)) own /\
    Forall2 (fun a fd => exists f, starts_at t a f /\ seen_as (af_name a) f (d_name (df_field fd)) /\ d_args (df_field fd) = f_args f /\ df_doc fd = f_doc f) (added t) adds.
  Proof.
    unfold to_field_defs. destruct (to_fields _ _ _ _ _ _) as [ds|] eqn:E; [|discriminate]. cbn [rmap rbind]. intros H. injection H as <-.
    apply fields_made in E. destruct E as (own & adds & -> & A & B). unfold sources. rewrite combine_app; [|rewrite map_length; symmetry; eapply two_length; exact A]. rewrite map_app.
    eexists _, _. split; [reflexivity|]. split.
    - apply (combined snd) in A. eapply two_impl; [|exact A]. cbn beta. intros nf fd (D & F & G). apply defined_seen in D. tauto.
    - apply (combined (fun a => match af_path a with head :: _ => match get_field head t with Some f => f | None => empty_field end | [] => empty_field end)) in B.
      eapply two_impl; [|exact B]. cbn beta. intros a fd (D & F & _). apply added_seen in D. destruct D as (f & S & N & G & W). exists f. rewrite W in F. auto.
  Qed.

  Lemma arguments_written l : Forall2 argument_as_written l (map to_shown_argument l).
  Proof. induction l; constructor; auto. now repeat split. Qed.
  Lemma two_map {A B C} (R : A -> C -> Prop) (g : B -> C) l l' : Forall2 (fun a b => R a (g b)) l l' -> Forall2 R l (map g l').
  Proof. induction 1; cbn; constructor; auto. Qed.

  Lemma definition_written n t d : In (n, t) (c_types c) -> to_definition compile valid_templates m added (n, t) = Ok d ->
    title d = n /\ as_written m added n (to_type d).
  Proof.
    intros I. unfold to_definition. cbn [fst snd]. destruct (gtype_scalar t) eqn:S.
    - intros H. apply traced_ok in H. unfold to_scalar_type_definition in H. destruct (BuilderModel.is_predefined n) eqn:P; [discriminate|]. injection H as <-. split; [reflexivity|].
      cbn [to_type]. unfold gtype_scalar in S. destruct (t_fields t) eqn:F; [|discriminate].
      assert (N : find_scalar n = None).
      { unfold BuilderModel.is_predefined in P. apply Bool.orb_false_iff in P. destruct P as [_ P]. destruct (find_scalar n) as [r|] eqn:E; [|reflexivity].
        exfalso. apply find_scalar_built_in in E. assert (X : smem n BuilderModel.custom_scalars = true); [|congruence]. apply smem_In. unfold built_in in E. cbn in E.
        repeat (destruct E as [E|E]; [injection E as <- <-; cbn; tauto|]). destruct E. }
      rewrite N. econstructor; eauto.
    - unfold to_object_type_definition. destruct (to_field_defs _ _ _ _ _ _) as [fds|] eqn:E; [|discriminate]. cbn [rmap rbind traced and_then]. intros H.
      assert (F : t_fields t <> []) by (unfold gtype_scalar in S; destruct (t_fields t); [discriminate|discriminate]).
      apply field_defs_made in E. destruct E as (own & adds & -> & A & B). pose proof (stays (t_fields t)) as St.
      destruct (smem n (m_inputs m)) eqn:Si.
      + injection H as <-. split; [reflexivity|]. cbn [to_type to_input_object_type_definition]. rewrite map_map, map_app. econstructor; eauto.
        * now apply smem_In.
        * apply two_map. eapply two_impl; [|exact A]. cbn beta. intros nf fd (X & Y & Z & V & W). unfold input_as_written. cbn. auto.
        * rewrite map_length. symmetry. eapply two_length. exact B.
      + assert (Ni : ~ is_input m n) by (intros J; apply smem_In in J; congruence).
        destruct (aget n (m_interfaces m)) as [ts|] eqn:Ai; injection H as <-; (split; [reflexivity|]); cbn [to_type]; rewrite map_app.
        * eapply aw_interface; eauto.
          -- exists ts. now apply aget_In.
          -- apply two_map. eapply two_impl; [|exact A]. cbn beta. intros nf fd (X & Y & Z & V & W). unfold bare_field_as_written. cbn. auto.
          -- rewrite map_length. symmetry. eapply two_length. exact B.
        * eapply aw_object; eauto.
          -- intros [ts J]. apply aget_None in Ai. apply Ai. apply in_map_iff. now exists (n, ts).
          -- apply two_map. eapply two_impl; [|exact A]. cbn beta. intros nf fd (X & Y & Z & V & W). unfold field_as_written. cbn. rewrite Y. auto using arguments_written.
          -- apply two_map. eapply two_impl; [|exact B]. cbn beta. intros a fd (f & X & Y & Z & V). exists f. cbn. rewrite Z. auto using arguments_written.
  Qed.

  Lemma definitions_made defs : to_definitions compile valid_templates m added = Ok defs ->
    map title defs = map fst (c_types c) ++ map fst (c_unions c) ++ map fst (c_enums c) /\ forall d, In d defs -> as_written m added (title d) (to_type d).
  Proof.
    unfold to_definitions. destruct (all_checked _ (c_types c)) as [types|] eqn:A; [|destruct (all_checked _ (c_enums c)); discriminate].
    destruct (all_checked _ (c_enums c)) as [enums|] eqn:B; [|discriminate]. intros H. injection H as <-. apply all_checked_ok in A. apply all_checked_ok in B.
    assert (TA : Forall2 (fun nt d => title d = fst nt /\ as_written m added (fst nt) (to_type d)) (c_types c) types).
    { assert (G : forall l, (forall x, In x l -> In x (c_types c)) -> forall ds, Forall2 (fun nt d => to_definition compile valid_templates m added nt = Ok d) l ds -> Forall2 (fun nt d => title d = fst nt /\ as_written m added (fst nt) (to_type d)) l ds).
      { induction l as [|[n t] l IH]; intros Sub ds X; inversion X; subst; constructor; [|apply IH; [intros x Ix; apply Sub; now right|assumption]]. cbn [fst].
        eapply definition_written; [apply Sub; now left|eassumption]. }
      apply G; auto. }
    assert (TB : Forall2 (fun ne d => e_variants (snd ne) <> [] /\ d = to_enum_type_definition ne) (c_enums c) enums).
    { eapply two_impl; [|exact B]. cbn beta. intros ne d X. destruct (e_variants (snd ne)) as [|v vs] eqn:V; [discriminate|]. injection X as <-. split; [congruence|reflexivity]. }
    clear A B. split.
    - rewrite !map_app, <- app_assoc. f_equal; [|f_equal].
      + clear -TA. induction TA as [|nt d l l' [E _] X IH]; [reflexivity|]. cbn. now rewrite E, IH.
      + rewrite map_map. now apply map_ext.
      + clear -TB. induction TB as [|ne d l l' [_ E] X IH]; [reflexivity|]. cbn. rewrite E, IH. reflexivity.
    - intros d I. apply in_app_iff in I. destruct I as [I|I]; [apply in_app_iff in I; destruct I as [I|I]|].
      + destruct (Forall2_right _ _ _ _ TA I) as (nt & J & E & W). now rewrite E.
      + apply in_map_iff in I. destruct I as ([n u] & <- & I). cbn. now constructor.
      + destruct (Forall2_right _ _ _ _ TB I) as ([n e] & J & V & ->). cbn. now constructor.
  Qed.

  Lemma plain_title (d : definition IO) : ShrinkModel.bdef_name (plain d) = title d.
  Proof. now destruct d. Qed.
  Lemma compressed_part fuel q mu (defs ds : list (definition IO)) : compressed fuel q mu defs = Some ds -> exists keep, ds = filter keep defs /\
    (forall d, In d defs -> keep d = true <-> exists b', ShrinkModel.compress fuel (plain_blueprint q mu defs) = Some b' /\ In (title d) (map ShrinkModel.bdef_name (ShrinkModel.bp_defs b'))).
  Proof.
    unfold compressed. destruct (ShrinkModel.compress _ _) as [b|]; [|discriminate]. intros H. injection H as <-.
    eexists. split; [reflexivity|]. intros d I. split.
    - intros K. exists b. split; [reflexivity|]. now apply smem_In.
    - intros (b' & E & J). injection E as <-. now apply smem_In.
  Qed.

  Lemma nodup_filter {A B} (g : A -> B) (p : A -> bool) l : NoDup (map g l) -> NoDup (map g (filter p l)).
  Proof.
    induction l as [|a l IH]; [auto|]. cbn. intros N. inversion N as [|? ? Nx Nl]; subst. destruct (p a); [|auto]. cbn. constructor; [|auto].
    intros I. apply Nx. apply in_map_iff in I. destruct I as (x & E & I). apply filter_In in I. apply in_map_iff. exists x. tauto.
  Qed.

  Lemma served fuel b : serve compile valid_templates m added fuel = Some (Ok b) -> exists q defs ds,
    r_query (c_schema c) = Some q /\ to_definitions compile valid_templates m added = Ok defs /\
    compressed fuel q (r_mutation (c_schema c)) defs = Some ds /\ b = schema_of q (r_mutation (c_schema c)) ds.
  Proof.
    unfold serve. destruct (to_schema c) as [[[q mu]|e]|] eqn:S; [| |discriminate].
    - destruct (to_definitions _ _ _ _) as [defs|]; [|discriminate]. destruct (compressed fuel q mu defs) as [ds|] eqn:C; [|discriminate]. cbn. intros H. injection H as <-.
      unfold to_schema in S. destruct (validate_query c) as [vq|]; [|discriminate]. destruct (validate_mutation c) as [vm|]; [|discriminate]. injection S as S.
      destruct (r_query (c_schema c)) as [q'|].
      + exists q, defs, ds. destruct (also vq vm); cbn in S; [|discriminate]. injection S as <- <-. auto.
      + destruct (also vq vm); discriminate.
    - destruct (to_definitions _ _ _ _); discriminate.
  Qed.
End Made.

(** ** Nothing that is named is missing *)
Section Closed.
  Context {IO : Type}.
  Notation definition := (definition IO).
  Lemma distinct_plain q mu (defs : list definition) : NoDup (map title defs) -> ShrinkSpec.distinct (plain_blueprint q mu defs).
  Proof.
    intros N x y z Ix Iy Tx Ty. apply ShrinkProofs.titled_name in Tx. apply ShrinkProofs.titled_name in Ty. cbn in Ix, Iy. apply in_map_iff in Ix. apply in_map_iff in Iy.
    destruct Ix as (x' & <- & Ix). destruct Iy as (y' & <- & Iy). rewrite plain_title in Tx, Ty. f_equal. clear -N Ix Iy Tx Ty. subst z.
    induction defs as [|a l IH]; [destruct Ix|]. cbn in N. inversion N as [|? ? Na Nl]; subst. destruct Ix as [->|Ix], Iy as [->|Iy]; auto.
    + exfalso. apply Na. rewrite <- Ty. now apply in_map.
    + exfalso. apply Na. rewrite Ty. now apply in_map.
  Qed.
  (** What is kept is what the walk comes to, but for reserved names. *)
  Lemma kept_walk fuel q mu (defs ds : list definition) : compressed fuel q mu defs = Some ds -> exists r,
    (forall n, In n r <-> ShrinkProofs.walked (ShrinkModel.build_dependency_graph (map plain defs)) (ShrinkModel.root_types (plain_blueprint q mu defs)) n) /\
    (forall d, In d defs -> In (title d) r -> In d ds) /\ (forall d, In d ds -> In d defs /\ (~ reserved (title d) -> In (title d) r)).
  Proof.
    intros C. pose proof C as C'. unfold compressed in C'. destruct (ShrinkModel.compress fuel _) as [b'|] eqn:E; [|discriminate]. injection C' as <-.
    destruct (ShrinkProofs.compress_kept _ _ _ E) as (r & R & ->). exists r. split; [exact R|]. cbn [ShrinkModel.bp_defs plain_blueprint].
    assert (K : forall d, In d defs -> In (title d) (map ShrinkModel.bdef_name (filter (fun d => smem (ShrinkModel.bdef_name d) (ShrinkModel.always_kept ++ r)) (map plain defs))) <-> In (title d) (ShrinkModel.always_kept ++ r)).
    { intros d I. split.
      - intros J. apply in_map_iff in J. destruct J as (x & <- & J). apply filter_In in J. destruct J as [_ J]. now apply smem_In.
      - intros J. apply in_map_iff. exists (plain d). split; [apply plain_title|]. apply filter_In. split; [now apply in_map|]. rewrite plain_title. now apply smem_In. }
    split.
    - intros d I J. apply filter_In. split; [exact I|]. apply smem_In. apply K; [exact I|]. apply in_or_app. now right.
    - intros d I. apply filter_In in I. destruct I as [I S]. split; [exact I|]. intros NR. apply smem_In in S. apply K in S; [|exact I]. apply in_app_or in S. destruct S as [S|S]; [|exact S].
      cbn in S. repeat (destruct S as [S|S]; [first [apply R, ShrinkProofs.w_root; rewrite <- S; unfold ShrinkModel.root_types; cbn; now auto 10 | exfalso; apply NR; rewrite <- S; eexists; reflexivity]|]). destruct S.
  Qed.
  Lemma walk_names (q : string) (mu : option string) (defs : list definition) d k : NoDup (map title defs) -> In d defs -> names_type (to_type d) k ->
    exists deps, aget (title d) (ShrinkModel.build_dependency_graph (map plain defs)) = Some deps /\ In k deps.
  Proof.
    intros N I M. rewrite ShrinkProofs.graph_get.
    pose proof (ShrinkProofs.last_def_distinct (plain_blueprint q mu defs) (plain d) (title d) (distinct_plain q mu defs N) (in_map plain _ _ I) (proj2 (ShrinkProofs.titled_name _ _) (plain_title d))) as L.
    cbn [ShrinkModel.bp_defs plain_blueprint] in L. rewrite L. eexists. split; [reflexivity|].
    destruct d as [n doc fs is|n doc fs is|n doc fs|n doc ru|n doc vs|n doc ts]; cbn in M |- *; try contradiction.
    - rewrite !in_app_iff, in_map_iff, in_flat_map. destruct M as [(f & F & M)|M]; [|auto]. apply in_map_iff in F. destruct F as (x & <- & F). destruct M as [<-|(a & A & <-)].
      + left. exists (plain_field x). split; [reflexivity|now apply in_map].
      + right. left. exists (plain_field x). split; [now apply in_map|]. cbn in A. apply in_map_iff in A. destruct A as (y & <- & A). cbn. apply in_map_iff. exists (fst y, arg_type (snd y)).
        split; [reflexivity|]. apply in_map_iff. now exists y.
    - rewrite in_app_iff, in_map_iff. left. destruct M as (f & F & <-). apply in_map_iff in F. destruct F as (x & <- & F). exists (plain_field x). split; [reflexivity|now apply in_map].
    - destruct M as (f & F & <-). apply in_map_iff in F. destruct F as (x & <- & F). apply in_map_iff. exists (in_name x, in_type x). split; [reflexivity|]. apply in_map_iff. now exists x.
    - exact M.
  Qed.
  Lemma walk_implements (q : string) (mu : option string) (defs : list definition) i doc fs is o doc' fs' is' : NoDup (map title defs) -> In (Interface i doc fs is) defs -> In (Object o doc' fs' is') defs -> In i is' ->
    exists deps, aget i (ShrinkModel.build_dependency_graph (map plain defs)) = Some deps /\ In o deps.
  Proof.
    intros N I J M. rewrite ShrinkProofs.graph_get.
    pose proof (ShrinkProofs.last_def_distinct (plain_blueprint q mu defs) (plain (Interface i doc fs is)) i (distinct_plain q mu defs N) (in_map plain _ _ I) (proj2 (ShrinkProofs.titled_name _ _) eq_refl)) as L.
    cbn [ShrinkModel.bp_defs plain_blueprint] in L. rewrite L. eexists. split; [reflexivity|]. cbn. apply in_or_app. right.
    apply ShrinkProofs.implementers_in. exists (map plain_field fs'), is'. split; [|exact M]. exact (in_map plain _ _ J).
  Qed.
  Lemma once_type (types : list (string * gtype)) (rest : list string) n t t' : NoDup (map fst types ++ rest) -> In (n, t') types -> In (n, t) types -> t' = t.
  Proof.
    intros N I J. assert (N' : NoDup (map fst types)) by (clear -N; induction types as [|x l IH]; [constructor|]; cbn in *; inversion_clear N as [|? ? Nx Nl]; constructor; [intros I; apply Nx, in_or_app; now left|auto]).
    pose proof (nodup_aget n t types N' J) as A. pose proof (nodup_aget n t' types N' I) as B. congruence.
  Qed.
  Lemma once_apart (types : list (string * gtype)) (rest : list string) n t : NoDup (map fst types ++ rest) -> In (n, t) types -> In n rest -> False.
  Proof.
    induction types as [|x l IH]; [intros _ []|]. cbn. intros N I J. inversion_clear N as [|? ? Nx Nl]. destruct I as [->|I]; [apply Nx, in_or_app; now right|eauto].
  Qed.
  Lemma told_title q mu (ds : list definition) d : NoDup (map title ds) -> In d ds -> In (title d) (map fst (b_types (schema_of q mu ds))).
  Proof. intros N I. pose proof (schema_in q mu ds d N I) as A. apply aget_In in A. eapply in_keys. exact A. Qed.
End Closed.
