(** Proofs for C82: from a configuration to the answers. *)
From Coq Require Import String Ascii ZArith NArith Bool Arith Lia List.
From Verif Require Import Base BaseFacts StringFacts Ordered OrderedFacts JsonModel TypeModel ConfigModel IrModel IrSpec IrProofs CtxModel AuthModel DiscModel ComposeModel ComposeProofs FieldModel FieldSpec Field2Proofs DocSpec EntityModel EntitySpec EntityProofs Entity2Proofs FdModel FdSpec FdProofs.
Import ListNotations.
Open Scope string_scope.
Open Scope list_scope.

Lemma two_impl {A B} (P Q : A -> B -> Prop) l l' : (forall a b, P a b -> Q a b) -> Forall2 P l l' -> Forall2 Q l l'.
Proof. intros H. induction 1; constructor; auto. Qed.

Section Shape.
  Context {IO : Type}.
  Variable compile : string -> field -> resolver -> valid (option (ir IO)).
  Variable valid_templates : gtype -> fdef IO -> valid unit.
  Variable m : cmodule.

  Lemma discriminated_same types i (d d' : fdef IO) : discriminated types i d = Ok d' -> same_field d d'.
  Proof. unfold discriminated. destruct (DiscModel.new_discriminator _ _); [|discriminate]. intros H. injection H as <-. now repeat split. Qed.
  Lemma defined_same object t f n d : to_field_definition compile valid_templates m object t f n = Ok d ->
    d_args d = f_args f /\ d_type d = f_type f /\ ((forall new, ~ renamed f new) -> d_name d = n).
  Proof.
    unfold to_field_definition. set (i := Build_input _ _ _ _). intros A. apply and_ok in A. destruct A as (d8 & A & J). apply and_ok in A. destruct A as (d7 & A & I). apply and_ok in A. destruct A as (d6 & A & H). apply and_ok in A. destruct A as (d5 & A & G). apply and_ok in A. destruct A as (d4 & A & E). apply and_ok in A. destruct A as (d3 & A & D). apply and_ok in A. destruct A as (d2 & A & C). apply and_ok in A. destruct A as (d1 & A & B).
    assert (S1 : d_name d1 = n /\ d_args d1 = f_args f /\ d_type d1 = f_type f) by (injection A as <-; now repeat split).
    assert (S2 : same_field d1 d2).
    { unfold update_resolver, and_then in B. destruct (all_checked _ _); [|discriminate]. cbn in B. destruct (valid_templates _ _); [|discriminate]. cbn in B. injection B as <-. now repeat split. }
    assert (S3 : d_args d3 = d_args d2 /\ d_type d3 = d_type d2 /\ ((forall new, ~ renamed f new) -> d_name d3 = d_name d2)).
    { apply trace_ok in C. unfold update_modify in C. cbn in C. destruct (f_modify f) as [[[new|] om]|] eqn:M; try (injection C as <-; now repeat split).
      destruct (existsb _ _); [discriminate|]. injection C as <-. split; [reflexivity|]. split; [reflexivity|]. intros N. exfalso. apply (N new). eexists. split; [exact M|reflexivity]. }
    assert (S4 : same_field d3 d4) by (unfold fix_dangling_resolvers in D; injection D as <-; destruct (_ && _); now repeat split).
    assert (S5 : same_field d4 d5).
    { unfold update_cache_resolvers in E. injection E as <-. match goal with |- context [match ?x with Some _ => _ | None => d4 end] => destruct x end; now repeat split. }
    assert (S6 : same_field d5 d6).
    { apply trace_ok in G. unfold update_protected in G. destruct (is_protected_field m i); [|injection G as <-; now repeat split]. destruct (smem _ _); [discriminate|]. destruct (m_providers m); [discriminate|]. destruct (all_checked _ _); [|discriminate]. cbn [rmap rbind] in G. injection G as <-.
      match goal with |- context [match ?x with Some _ => _ | None => d5 end] => destruct x end; now repeat split. }
    assert (S7 : same_field d6 d7) by (unfold update_enum_alias in H; injection H as <-; destruct (find_enum _ _); now repeat split).
    assert (S8 : same_field d7 d8).
    { unfold update_union_resolver in I. destruct (find_union _ _); [now apply discriminated_same in I|]. injection I as <-. now repeat split. }
    assert (S9 : same_field d8 d).
    { unfold update_interface_resolver in J. destruct (aget _ _); [now apply discriminated_same in J|]. injection J as <-. now repeat split. }
    clear -S1 S2 S3 S4 S5 S6 S7 S8 S9. unfold same_field in *.
    repeat match goal with X : _ /\ _ |- _ => destruct X end. split; [congruence|]. split; [congruence|]. intros N.
    match goal with X : _ -> d_name d3 = d_name d2 |- _ => specialize (X N) end. congruence.
  Qed.

  Lemma fields_defined object t added fields : to_fields compile valid_templates m object t added = Ok fields ->
    (forall k f, In (k, f) (t_fields t) -> is_omitted f = false -> exists d, In d fields /\ to_field_definition compile valid_templates m object t f k = Ok d) /\
    (added = [] -> forall d, In d fields -> exists k f, In (k, f) (t_fields t) /\ to_field_definition compile valid_templates m object t f k = Ok d).
  Proof.
    unfold to_fields. destruct (all_checked _ (filter _ _)) as [fs|] eqn:A; [|destruct (all_checked _ added); discriminate].
    destruct (all_checked _ added) as [adds|] eqn:B; [|discriminate]. intros E. injection E as <-. apply all_checked_ok in A.
    assert (X : Forall2 (fun nf d => to_field_definition compile valid_templates m object t (snd nf) (fst nf) = Ok d) (filter (fun nf => negb (is_omitted (snd nf))) (t_fields t)) fs).
    { eapply two_impl; [|exact A]. intros [k f] d H. cbn in *. assert (Y : also (validate_field_type_exist m f) (to_field_definition compile valid_templates m object t f k) = Ok d) by (destruct (traced_name t f); [now apply traced_ok in H|exact H]).
      destruct (validate_field_type_exist m f); cbn in Y; [exact Y|]. destruct (to_field_definition compile valid_templates m object t f k); discriminate. }
    clear A. split.
    - intros k f I O. assert (J : In (k, f) (filter (fun nf => negb (is_omitted (snd nf))) (t_fields t))) by (apply filter_In; split; [exact I|cbn; now rewrite O]).
      destruct (Forall2_left _ _ _ _ X J) as (d & Id & H). exists d. split; [apply in_or_app; now left|exact H].
    - intros -> d I. cbn in B. injection B as <-. rewrite app_nil_r in I. destruct (Forall2_right _ _ _ _ X I) as ([k f] & J & H). apply filter_In in J. exists k, f. split; [apply J|exact H].
  Qed.
End Shape.

Section Out.
  Context {IO : Type}.
  Variable compile : string -> field -> resolver -> valid (option (ir IO)).
  Variable valid_templates : gtype -> fdef IO -> valid unit.
  Variable print : list (bdef IO) -> string.

  Lemma table_of c entries tbl : lists_entities c entries -> written_down c ->
    Forall2 (fun kr ke => fst ke = fst kr /\ entry_ir compile (fst kr) (snd kr) = Ok (snd ke)) entries tbl ->
    forall n e, aget n tbl = Some e <-> entity compile c n e.
  Proof.
    intros L W H.
    assert (T : forall n e, In (n, e) tbl -> entity compile c n e).
    { intros n e I. destruct (Forall2_right _ _ _ _ H I) as ([k r] & J & A & B). cbn in A, B. subst k. apply L in J. destruct J as (t & Ft & R). exists t, r. split; [exact Ft|]. split; [exact R|]. apply entry_plain in B; [exact B|]. apply (proj1 (W n t Ft)). rewrite R. now left. }
    intros n e. split; [intros A; apply T; now apply aget_In|]. intros E. pose proof E as (t & r & Ft & R & C).
    assert (J : In (n, r) entries) by (apply L; eauto). destruct (Forall2_left _ _ _ _ H J) as ([k e'] & I & A & B). cbn in A. subst k.
    assert (U : forall e1, In (n, e1) tbl -> e1 = e) by (intros e1 I1; destruct (T n e1 I1) as (t1 & r1 & F1 & R1 & C1); congruence).
    destruct (aget n tbl) as [e1|] eqn:G; [f_equal; apply U; now apply aget_In|]. exfalso. apply aget_None in G. apply G. apply in_map_iff. exists (n, e'). now split.
  Qed.

  Lemma on c : federated c -> (match s_federation (c_server c) with Some b => b | None => false end) = true.
  Proof. unfold federated. now intros ->. Qed.

  (** A definition of the query type and what it becomes. *)
  Lemma def_object c q s (D D' : bdef IO) : fst (federation_def compile c q s D) = Ok D' ->
    def_name D <> q /\ D' = D \/
    exists fields fields' rest t, D = DObject q fields rest /\ D' = DObject q fields' rest /\ find_type c q = Some t /\
      fst (each_left (federation_field compile (t_fields t)) s fields) = Ok fields'.
  Proof.
    unfold federation_def. destruct (String.eqb_spec (def_name D) q) as [N|N]; [|cbn; intros E; injection E as <-; now left].
    destruct D as [n fields rest|n rest]; [|discriminate]. cbn in N. subst n. destruct (find_type c q) as [t|]; [|discriminate]. intros H. right. exists fields.
    destruct (each_left _ s fields) as [r s'] eqn:X. cbn in *. destruct r as [fields'|]; [|discriminate]. injection H as <-. exists fields', rest, t. rewrite X. now repeat split.
  Qed.

  Lemma nothing_else c q defs defs' : update_federation compile print c q defs = Ok defs' ->
    Forall2 (fun D D' => D' = D \/ exists fields fields' rest t, D = DObject q fields rest /\ D' = DObject q fields' rest /\ find_type c q = Some t /\
      Forall2 (fun d d' => same_field d d' /\ exists f, oget scmp (d_name d) (t_fields t) = Some f /\ ((forall r, In r (f_resolvers f) -> has_directive r = true) -> d' = d)) fields fields') defs defs'.
  Proof.
    unfold update_federation. rewrite traced_ok. destruct (match s_federation _ with Some b => b | None => false end).
    - intros H. apply left_two in H. eapply two_impl; [|exact H]. intros D D' [s E]. apply def_object in E. destruct E as [[_ ->]|(fs & fs' & rest & t & -> & -> & Ft & E)]; [now left|]. right. exists fs, fs', rest, t. split; [reflexivity|]. split; [reflexivity|]. split; [exact Ft|].
      apply left_two in E. eapply two_impl; [|exact E]. intros d d' [s' X]. now apply field_same in X.
    - intros E. injection E as <-. induction defs; constructor; auto.
  Qed.

  Section Pipeline.
    Variable json_text : value -> string.
    Variable details_of : resolver -> details.
    Variable key_directive : string -> string.
    Variables (c c' : config) (q : string) (m : cmodule) (tq : gtype) (added : list add_field) (fields : list (fdef IO)) (rest : string) (defs defs' : list (bdef IO)).
    Hypothesis SO : osorted scmp (c_types c).
    Hypothesis KN : known details_of c.
    Hypothesis WD : written_down c.
    Hypothesis FE : federated c.
    Hypothesis OQ : own_query c q.
    Hypothesis NR : ~ reserved q.
    Hypothesis SU : subgraph json_text details_of key_directive c = Ok c'.
    Hypothesis FT : find_type c' q = Some tq.
    Hypothesis TF : to_fields compile valid_templates m q tq added = Ok fields.
    Hypothesis ID : In (DObject q fields rest) defs.

    Lemma still_on : (match s_federation (c_server c') with Some b => b | None => false end) = true.
    Proof. destruct (rest_out json_text details_of key_directive c c' KN SU) as (_ & E & _). rewrite E. now apply on. Qed.

    Lemma own_fields k f : k <> "_service" -> k <> "_entities" -> oget scmp k (t_fields tq) = Some f -> untouched f.
    Proof.
      intros N1 N2 G. destruct (entities_out json_text details_of key_directive c c' q SO KN FE OQ NR SU) as (es & _ & t & t' & tq' & A & _ & B & _ & C & _). assert (tq' = tq) by congruence. subst tq'.
      rewrite C in G by assumption. destruct A as [A|[_ ->]]; [|discriminate]. intros r I. exact (proj2 (WD q t A) k f r G I).
    Qed.
    Lemma entity_field : exists entries, lists_entities c entries /\
      (entries = [] -> forall f, oget scmp "_entities" (t_fields tq) = Some f -> untouched f) /\
      (entries <> [] -> exists f, oget scmp "_entities" (t_fields tq) = Some f /\ f_resolvers f = [REntity entries] /\ f_type f = TList (TNamed "_Entity" false) true /\
         (exists a, f_args f = [("representations", a)] /\ arg_type a = TList (TNamed "_Any" true) true) /\ unadorned f).
    Proof.
      destruct (entities_out json_text details_of key_directive c c' q SO KN FE OQ NR SU) as (es & L & t & t' & tq' & A & _ & B & _ & _ & _ & C & D). assert (tq' = tq) by congruence. subst tq'. exists es. split; [exact L|]. split.
      - intros E f G. destruct (C E) as [C' _]. rewrite C' in G. destruct A as [A|[_ ->]]; [|discriminate]. intros r I. exact (proj2 (WD q t A) "_entities" f r G I).
      - intros E. destruct (D E) as ((f & G & R & T & (a & Fa & Ta & _) & U) & _). exists f. split; [exact G|]. split; [exact R|]. split; [exact T|]. split; [|exact U]. exists a. now split.
    Qed.
    Lemma service_in : exists f, oget scmp "_service" (t_fields tq) = Some f /\ f_resolvers f = [RService] /\ f_type f = TNamed "_Service" true /\ f_args f = [] /\ unadorned f.
    Proof.
      destruct (entities_out json_text details_of key_directive c c' q SO KN FE OQ NR SU) as (es & L & t & t' & tq' & _ & _ & B & _ & _ & S & _). assert (tq' = tq) by congruence. subst tq'. exact S.
    Qed.
    Lemma unadorned_plain f : unadorned f -> is_omitted f = false /\ forall new, ~ renamed f new.
    Proof. intros (A & B & _). unfold is_omitted. rewrite A, B. split; [reflexivity|]. intros new (mo & E & _). congruence. Qed.
    Lemma defined k f : oget scmp k (t_fields tq) = Some f -> unadorned f -> exists d, In d fields /\ d_name d = k /\ d_args d = f_args f /\ d_type d = f_type f.
    Proof.
      intros G U. destruct (unadorned_plain f U) as [O R]. apply (oget_in scmp scmp_order) in G. destruct (proj1 (fields_defined compile valid_templates m q tq added fields TF) k f G O) as (d & I & E).
      apply defined_same in E. destruct E as (A & T & N). exists d. auto.
    Qed.

    Hypothesis UF : update_federation compile print c' q defs = Ok defs'.

    Lemma entities_in_place : (exists n, is_entity c n) ->
      exists fields' tbl, In (DObject q fields' rest) defs' /\ (forall n e, aget n tbl = Some e <-> entity compile c n e) /\
        (exists d a, In d fields' /\ d_name d = "_entities" /\ d_type d = TList (TNamed "_Entity" false) true /\ d_args d = [("representations", a)] /\ arg_type a = TList (TNamed "_Any" true) true) /\
        forall d, In d fields' -> d_name d = "_entities" -> d_resolver d = Some (IEntity tbl).
    Proof.
      intros (n & t & r & Ft & R). destruct entity_field as (es & L & _ & D). assert (Ne : es <> []) by (intros ->; apply (proj2 (L n r)); eauto).
      destruct (D Ne) as (f & G & Rf & T & (a & Fa & Ta) & U).
      pose proof UF as H. unfold update_federation in H. rewrite traced_ok, still_on in H. apply left_two in H. destruct (Forall2_left _ _ _ _ H ID) as (D' & I' & s & E).
      apply def_object in E. destruct E as [[N _]|(fs & fields' & rs & tq' & E1 & -> & Ft' & E)]; [now elim N|]. injection E1 as <- <-. assert (tq' = tq) by congruence. subst tq'.
      apply left_two in E. destruct (defined "_entities" f G U) as (d0 & I0 & N0 & A0 & T0). destruct (Forall2_left _ _ _ _ E I0) as (d1 & I1 & s1 & X1).
      pose proof X1 as X1'. rewrite <- N0 in G. apply (field_entities compile _ _ _ _ f es G Rf) in X1'. destruct X1' as (e & Ce & ->). apply entity_table in Ce. destruct Ce as (tbl & -> & Tb).
      exists fields', tbl. split; [exact I'|]. split; [eapply table_of; eauto|]. split.
      - exists (with_resolver (Some (IEntity tbl)) d0), a. cbn. rewrite A0, T0. auto.
      - intros d I N. destruct (Forall2_right _ _ _ _ E I) as (d2 & I2 & s2 & X2). pose proof (field_same _ _ _ _ _ X2) as ((Nm & _) & _). assert (G2 : oget scmp (d_name d2) (t_fields tq) = Some f) by (rewrite <- Nm, N, <- N0; exact G).
        apply (field_entities compile _ _ _ _ f es G2 Rf) in X2. destruct X2 as (e2 & C2 & ->). cbn. f_equal. assert (Y : compile_entity_resolver compile es = Ok (IEntity tbl)) by (apply entity_table; eauto). congruence.
    Qed.

    Lemma service_in_place : NoDup (map def_name defs) -> NoDup (map (fun d => d_name d) fields) ->
      exists fields' d, In (DObject q fields' rest) defs' /\ In d fields' /\ d_name d = "_service" /\ d_type d = TNamed "_Service" true /\ d_args d = [] /\
        d_resolver d = Some (IService (print defs ++ federation_link)).
    Proof.
      intros N1 N2. destruct service_in as (f & G & R & T & A & U). pose proof UF as H. unfold update_federation in H. rewrite traced_ok, still_on in H.
      destruct (in_split _ _ ID) as (l1 & l2 & El). set (txt := print defs) in *. rewrite El in H. apply left_at in H.
      - destruct H as (D' & I' & E). apply def_object in E. destruct E as [[N _]|(fs & fields' & rs & tq' & E1 & -> & Ft' & E)]; [now elim N|]. injection E1 as <- <-. assert (tq' = tq) by congruence. subst tq'.
        destruct (defined "_service" f G U) as (d0 & I0 & N0 & A0 & T0). destruct (in_split _ _ I0) as (f1 & f2 & Ef). rewrite Ef in E. apply left_at in E.
        + destruct E as (d1 & I1 & X1). rewrite <- N0 in G. apply (field_service compile _ _ _ _ f G R) in X1. exists fields', d1. split; [exact I'|]. split; [exact I1|]. subst d1. cbn. rewrite A0, T0. auto.
        + intros x s I. apply field_left. intros g Gg. assert (Nx : d_name x <> "_service").
          { intros Nx. rewrite Ef, map_app in N2. cbn in N2. apply NoDup_remove_2 in N2. apply N2. apply in_or_app. left. apply in_map_iff. exists x. split; [congruence|exact I]. }
          destruct (string_dec (d_name x) "_entities") as [Ne|Ne]; [|left; eapply own_fields; eauto]. rewrite Ne in Gg. destruct entity_field as (es & _ & C & D). destruct es as [|e es]; [left; now apply C|]. right. destruct D as (g' & G' & R' & _); [discriminate|]. exists (e :: es). congruence.
      - intros x s I. unfold federation_def. destruct (String.eqb_spec (def_name x) q) as [Nx|Nx]; [|reflexivity]. exfalso. rewrite El, map_app in N1. cbn in N1. apply NoDup_remove_2 in N1. apply N1. apply in_or_app. left. apply in_map_iff. exists x. now split.
    Qed.

    Lemma others_stay : Forall2 (fun D D' => D' = D \/ exists fields fields' rest, D = DObject q fields rest /\ D' = DObject q fields' rest /\
      Forall2 (fun d d' => same_field d d' /\ (d_name d <> "_service" -> d_name d <> "_entities" -> d' = d)) fields fields') defs defs'.
    Proof.
      apply nothing_else in UF. eapply two_impl; [|exact UF]. intros D D' [->|(fs & fs' & rs & t & -> & -> & Ft & H)]; [now left|]. right. exists fs, fs', rs. split; [reflexivity|]. split; [reflexivity|]. assert (t = tq) by congruence. subst t.
      eapply two_impl; [|exact H]. intros d d' (S & f & G & K). split; [exact S|]. intros A B. apply K. eapply own_fields; eauto.
    Qed.
  End Pipeline.

  Lemma accepted json_text details_of key_directive c c' q m tq fields rest defs :
    osorted scmp (c_types c) -> known details_of c -> written_down c -> federated c -> own_query c q -> ~ reserved q ->
    subgraph json_text details_of key_directive c = Ok c' -> find_type c' q = Some tq -> osorted scmp (t_fields tq) ->
    to_fields compile valid_templates m q tq [] = Ok fields -> (forall k f new, In (k, f) (t_fields tq) -> ~ renamed f new) ->
    In (DObject q fields rest) defs -> NoDup (map def_name defs) ->
    ((exists defs', update_federation compile print c' q defs = Ok defs') <-> forall n, is_entity c n -> exists e, entity compile c n e).
  Proof.
    intros SO KN WD FE OQ NR SU FT ST TF RN ID ND. split.
    - intros [defs' UF] n E. destruct (entities_in_place json_text details_of key_directive c c' q m tq [] fields rest defs defs' SO KN WD FE OQ NR SU FT TF ID UF (ex_intro _ n E)) as (fields' & tbl & _ & T & (d & a & Id & Nd & _) & R).
      specialize (R d Id Nd). destruct E as (t & r & Ft & Rt).
      pose proof UF as H. unfold update_federation in H. rewrite traced_ok, (still_on json_text details_of key_directive c c' KN FE SU) in H. apply left_two in H. destruct (Forall2_left _ _ _ _ H ID) as (D' & I' & s & E).
      apply def_object in E. destruct E as [[N _]|(fs & fields2 & rs & tq' & E1 & -> & Ft' & E)]; [now elim N|]. injection E1 as <- <-. assert (tq' = tq) by congruence. subst tq'. apply left_two in E.
      destruct (entity_field json_text details_of key_directive c c' q tq SO KN WD FE OQ NR SU FT) as (es & L & _ & D). assert (I : In (n, r) es) by (apply L; eauto). assert (Ne : es <> []) by (intros ->; destruct I).
      destruct (D Ne) as (f & G & Rf & _ & _ & U). destruct (defined q m tq [] fields TF "_entities" f G U) as (d0 & I0 & N0 & _). destruct (Forall2_left _ _ _ _ E I0) as (d1 & I1 & s1 & X1). rewrite <- N0 in G. apply (field_entities compile _ _ _ _ f es G Rf) in X1. destruct X1 as (e & Ce & _).
      apply entity_table in Ce. destruct Ce as (tb & -> & Tb). destruct (Forall2_left _ _ _ _ Tb I) as ([k e] & Ik & A & B). cbn in A, B. exists e, t, r. split; [exact Ft|]. split; [exact Rt|]. apply entry_plain in B; [exact B|]. apply (proj1 (WD n t Ft)). rewrite Rt. now left.
    - intros H. unfold update_federation. setoid_rewrite traced_ok. rewrite (still_on json_text details_of key_directive c c' KN FE SU). apply left_some. intros D s I. unfold federation_def. destruct (String.eqb_spec (def_name D) q) as [N|N]; [|cbn; eauto].
      assert (D = DObject q fields rest).
      { clear -ND ID I N. induction defs as [|x l IH]; [destruct I|]. cbn in ND. inversion ND as [|? ? Nx NDl]; subst. destruct I as [->|I], ID as [E|ID]; auto; exfalso; apply Nx; apply in_map_iff; [exists (DObject (def_name D) fields rest)|exists D]; split; auto. now subst x. }
      subst D. rewrite FT. destruct (left_some (federation_field compile (t_fields tq)) fields s) as [bs E].
      + intros d s' Id. destruct (proj2 (fields_defined compile valid_templates m q tq [] fields TF) eq_refl d Id) as (k & f & If & Df). apply defined_same in Df. destruct Df as (_ & _ & Nd). assert (Nk : d_name d = k) by (apply Nd; intros new; eapply RN; eauto).
        assert (G : oget scmp (d_name d) (t_fields tq) = Some f) by (rewrite Nk; now apply (in_oget scmp scmp_order)). unfold federation_field. rewrite G.
        destruct (string_dec k "_service") as [Es|Es].
        * destruct (service_in json_text details_of key_directive c c' q tq SO KN FE OQ NR SU FT) as (f' & G' & R' & _). assert (f' = f) by congruence. subst f'. rewrite R'. cbn. eauto.
        * destruct (string_dec k "_entities") as [Ee|Ee]; [|assert (U : untouched f) by (eapply (own_fields json_text details_of key_directive c c' q tq); eauto; congruence); apply not_federation in U; rewrite U; cbn; eauto].
          destruct (entity_field json_text details_of key_directive c c' q tq SO KN WD FE OQ NR SU FT) as (es & L & C & Dd). destruct es as [|e0 es]; [assert (U : untouched f) by (apply C; [reflexivity|congruence]); apply not_federation in U; rewrite U; cbn; eauto|].
          destruct Dd as (f' & G' & R' & _); [discriminate|]. assert (f' = f) by congruence. subst f'. rewrite R'. cbn [find is_federation fst].
          assert (X : exists e, compile_entity_resolver compile (e0 :: es) = Ok e).
          { assert (Y : forall l, incl l (e0 :: es) -> exists tb, Forall2 (fun kr ke => fst ke = fst kr /\ entry_ir compile (fst kr) (snd kr) = Ok (snd ke)) l tb).
            { induction l as [|[n r] l IH]; intros In1; [exists []; constructor|]. destruct IH as [tb Tb]; [intros z Iz; apply In1; now right|]. assert (J : In (n, r) (e0 :: es)) by (apply In1; now left). apply L in J. destruct J as (t & Ft & R). destruct (H n) as (e & t' & r' & Ft'' & R'' & Ce); [exists t, r; auto|].
              exists ((n, e) :: tb). constructor; [|exact Tb]. split; [reflexivity|]. cbn. assert (r' = r) by congruence. subst r'. apply entry_plain; [|exact Ce]. apply (proj1 (WD n t Ft)). rewrite R. now left. }
            destruct (Y (e0 :: es) (incl_refl _)) as [tb Tb]. exists (IEntity tb). apply entity_table. eauto. }
          destruct X as [e E]. rewrite E. cbn. eauto.
      + destruct (each_left _ s fields) as [r s']. cbn in *. subst r. cbn. eauto.
  Qed.
End Out.
