(** The check of [@grpc] fields: what is generated from proto files is accepted. *)
From Coq Require Import String Ascii ZArith NArith Bool Arith List Lia.
From Verif Require Import Base BaseFacts StringFacts Ordered OrderedFacts JsonModel SchemaModel SchemaSpec SchemaProofs TypeModel ConfigModel BuilderModel UrlModel PgModel PgSpec PgProofs GsModel GsSpec GsProofs Gs2Proofs.
From Verif Require Pg2Proofs Pg3Proofs Pg4Proofs.
Import ListNotations.
Open Scope string_scope.
Open Scope list_scope.

(** Two underscores in a row. *)
Fixpoint gap (s : string) : bool := match s with String a t => (Ascii.eqb a "_" && match t with String b _ => Ascii.eqb b "_" | "" => false end) || gap t | "" => false end.
Lemma gap_mid a b : gap (a ++ "__" ++ b) = true.
Proof. induction a as [|c a IH]; [reflexivity|]. change (gap (String c (a ++ "__" ++ b)) = true). cbn [gap]. rewrite IH. apply orb_true_r. Qed.
Lemma predefined_gap s : is_predefined s = true -> gap s = false.
Proof.
  unfold is_predefined. rewrite orb_true_iff. intros [H|H]; apply smem_In in H; cbn in H; repeat (destruct H as [<-|H]; [reflexivity|]); destruct H.
Qed.
Lemma length_app_str a b : String.length (a ++ b) = String.length a + String.length b.
Proof. induction a as [|c a IH]; cbn; [reflexivity|now rewrite IH]. Qed.
Lemma is_a_optional s s' : is_optional s = false -> is_a s (SOpt s') = is_a s s'.
Proof. destruct s; (reflexivity || discriminate). Qed.

Section Generated.
  Variable camel : string -> string.
  Variable grpc_text : string -> option string -> string -> string.
  Variable json : pfield -> string.
  Variable query url : string.
  Variable files : list pfile.
  Variable x : context.
  Variable c : config.
  Hypothesis WF : well_formed files.
  Hypothesis AP : names_apart query files.
  Hypothesis TA : tame camel query files.
  Hypothesis HM : forall p m, message_at files p m -> is_map_entry m = false -> holds_message camel files x p m.
  Hypothesis HE : forall p e, enum_at files p e -> holds_enum x p e.
  Hypothesis NE : nothing_else query files x.
  Hypothesis CT : c_types c = x_types x.
  Hypothesis CE : c_enums c = x_enums x.
  Notation message_schema := (message_schema camel files).
  Notation field_schema := (field_schema files).

  Lemma multi_oneofs p m : message_at files p m -> is_map_entry m = false -> multi m -> message_oneofs m <> 0.
  Proof.
    intros M N (i & L) E. destruct (filter (of_oneof (Some i)) (message_fields m)) as [|f l] eqn:F; [cbn in L; lia|]. assert (I : In f (filter (of_oneof (Some i)) (message_fields m))) by (rewrite F; now left).
    apply filter_In in I. destruct I as [I O]. unfold of_oneof in O. destruct (pf_oneof f) as [j|] eqn:Pf; [|discriminate]. pose proof (proj2 (wf_fields _ WF p m f M N I) j Pf). lia.
  Qed.
  Lemma type_uses n : find_type c n <> None -> n = query \/ exists p m, message_at files p m /\ is_map_entry m = false /\ uses_name p m n /\ (~ multi m /\ n = title p \/ multi m /\ n <> title p /\ exists t, n = (title p ++ "__" ++ t)%string).
  Proof.
    unfold find_type. rewrite CT. intros H. destruct (ne_types _ _ _ NE n H) as [->|(p & m & M & N & [[Mu ->]|[Mu K]])]; [now left|right..]; exists p, m; (split; [exact M|]); (split; [exact N|]).
    - split; [now left|]. left. auto.
    - pose proof (multi_oneofs p m M N Mu) as O. assert (Y : forall t, (title p ++ "__" ++ t)%string <> title p).
      { intros t E. apply (f_equal String.length) in E. rewrite length_app_str in E. cbn in E. lia. }
      destruct K as [->|(s & V & ->)].
      + split; [right; split; [exact O|now left]|]. right. split; [exact Mu|]. split; [apply Y|now exists "Interface"].
      + split; [right; split; [exact O|right; eauto]|]. right. split; [exact Mu|]. destruct (variant_start _ _ V O) as (t & ->). change ("__Var" ++ t)%string with ("__" ++ "Var" ++ t)%string. split; [apply Y|eauto].
  Qed.
  Lemma scalar_alone n : is_predefined n = true -> find_type c n = None /\ ConfigModel.find_enum c n = None.
  Proof.
    intros P. split.
    - destruct (find_type c n) eqn:F; [exfalso|reflexivity]. destruct (type_uses n) as [->|(p & m & M & N & _ & [[_ ->]|(_ & _ & t & ->)])]; [congruence|rewrite (ta_query _ _ _ TA) in P; discriminate|rewrite (ta_messages _ _ _ TA p m M) in P; discriminate|].
      apply predefined_gap in P. rewrite gap_mid in P. discriminate.
    - unfold ConfigModel.find_enum. rewrite CE. destruct (oget scmp n (x_enums x)) eqn:F; [exfalso|reflexivity]. destruct (ne_enums _ _ _ NE n) as (q & e & E & ->); [congruence|]. rewrite (ta_enums _ _ _ TA q e E) in P. discriminate.
  Qed.
  Lemma enum_found q e : enum_at files q e -> find_type c (title q) = None /\ exists ge, ConfigModel.find_enum c (title q) = Some ge /\ SEnum (string_set (map fst (e_variants ge))) = enum_schema e.
  Proof.
    intros E. split.
    - destruct (find_type c (title q)) eqn:F; [exfalso|reflexivity]. destruct (type_uses (title q)) as [Q|(p & m & M & N & U & _)]; [congruence|now apply (na_query_enum _ _ AP q e E)|]. exact (na_kinds _ _ AP p m q e M N E U).
    - destruct (HE q e E) as (ge & G & V). exists ge. unfold ConfigModel.find_enum. rewrite CE. split; [exact G|]. unfold enum_schema. f_equal. apply string_set_eq. intros v. rewrite in_map_iff. split.
      + intros (w & <- & I). now apply V.
      + intros I. exists (v, None). split; [reflexivity|]. now apply V.
  Qed.
  Lemma message_found p m : message_at files p m -> is_map_entry m = false -> (~ multi m /\ exists t base gs, find_type c (title p) = Some t /\ parts camel files p m base gs /\ made_of (base ++ concat gs) t) \/
    (multi m /\ find_type c (title p) = None /\ ConfigModel.find_enum c (title p) = None).
  Proof.
    intros M N. destruct (HM p m M N) as (base & gs & P & A & B). pose proof (Pg2Proofs.parts_multi camel files WF p m base gs M N P) as Mu.
    assert (D : {Forall (fun g : list (string * field) => length g <= 1) gs} + {~ Forall (fun g : list (string * field) => length g <= 1) gs}) by (apply Forall_dec; intros g; apply le_dec). destruct D as [F|F].
    - left. split; [now apply Mu|]. destruct (A F) as (t & G & Mo & _). exists t, base, gs. unfold find_type. rewrite CT. auto.
    - right. assert (Y : multi m). { destruct (Pg2Proofs.dec_multi m) as [|Z]; [assumption|]. exfalso. apply F. now apply Mu. } split; [exact Y|]. split.
      + destruct (find_type c (title p)) eqn:G; [exfalso|reflexivity]. destruct (type_uses (title p)) as [Q|(p' & m' & M' & N' & U & [[Z E]|(Z & E & _)])]; [congruence|apply (na_query _ _ AP p m M N); rewrite <- Q; now left| |].
        * assert (p' = p) by (apply (na_messages _ _ AP p' m' p m (title p) M' M N' N U); now left). subst p'. rewrite (wf_unique _ WF p m' m M' M) in Z. contradiction.
        * assert (p' = p) by (apply (na_messages _ _ AP p' m' p m (title p) M' M N' N U); now left). subst p'. now apply E.
      + unfold ConfigModel.find_enum. rewrite CE. destruct (oget scmp (title p) (x_enums x)) eqn:G; [exfalso|reflexivity]. destruct (ne_enums _ _ _ NE (title p)) as (q & e & E & T); [congruence|]. apply (na_kinds _ _ AP p m q e M N E). left. now rewrite T.
  Qed.
  Lemma part_field p m base gs y : parts camel files p m base gs -> In y (base ++ concat gs) -> exists f, In f (message_fields m) /\ entry camel files p m f y.
  Proof.
    intros (B & _ & G) I. assert (X : forall l l', Forall2 (entry camel files p m) l l' -> In y l' -> exists f, In f l /\ entry camel files p m f y).
    { induction 1 as [|a b l l' E F IH]; intros J; [destruct J|]. destruct J as [<-|J]; [exists a; split; [now left|exact E]|]. destruct (IH J) as (f & ? & ?). exists f. split; [now right|assumption]. }
    apply in_app_iff in I. destruct I as [I|I].
    - destruct (X _ _ B I) as (f & J & E). exists f. split; [|exact E]. now apply filter_In in J.
    - apply in_concat in I. destruct I as (g & J & I). apply In_nth_error in J. destruct J as (i & J). destruct (X _ _ (G i g J) I) as (f & K & E). exists f. split; [|exact E]. now apply filter_In in K.
  Qed.
  Lemma labelled_schema rec l nm s s' : is_optional s = false -> typ_schema c rec (TNamed nm true) = Some s' -> is_a s s' = true ->
    exists t, typ_schema c rec (labelled l nm) = Some t /\ is_a (match l with LOptional => SOpt s | LRequired => s | LRepeated => SOpt (SArr s) end) t = true.
  Proof.
    intros O E A. cbn in E. destruct (match find_type c nm with Some ty => rec ty | None => _ end) as [s0|] eqn:K; [|discriminate]. cbn in E. injection E as ->. destruct l; cbn [labelled typ_schema]; rewrite K; cbn [option_map]; eexists; (split; [reflexivity|]); cbn [is_a]; [exact A|exact A|].
    change (is_a s (SOpt s') = true). now rewrite is_a_optional.
  Qed.
  Lemma inserted_keys (l : list (string * schema)) k : In k (map fst l) -> In k (map fst (fold_left (fun fs ks => oins scmp (fst ks) (snd ks) fs) l [])).
  Proof.
    assert (Y : forall (l : list (string * schema)) a, In k (map fst a) \/ In k (map fst l) -> In k (map fst (fold_left (fun fs ks => oins scmp (fst ks) (snd ks) fs) l a))); [|intros H; apply Y; now right].
    clear l. induction l as [|[k' s'] l IH]; intros a H; cbn; [now destruct H|]. apply IH. destruct H as [H|[<-|H]]; [left; apply oins_keys; now left|left; apply oins_keys; now right|now right].
  Qed.
  Lemma message_not_optional n m s : message_schema n m = Some s -> is_optional s = false.
  Proof. destruct n; [discriminate|]. destruct m as [nm b es ns o fs]. cbn. destruct b; [intros E; now injection E as <-|]. destruct (traverse _ fs) as [l|]; [|discriminate]. cbn. intros E. injection E as <-. unfold object_schema. now destruct (fold_left _ l []). Qed.

  Lemma scalar_accepted rec p : exists s', typ_schema c rec (TNamed (scalar_for p) true) = Some s' /\ is_a (scalar_schema p) s' = true.
  Proof.
    assert (P : is_predefined (scalar_for p) = true) by now destruct p. destruct (scalar_alone _ P) as [A B]. cbn. rewrite A, B. cbn. eexists. split; [reflexivity|]. destruct p; reflexivity.
  Qed.

  Lemma accepted n : forall p m s, message_at files p m -> is_map_entry m = false -> message_fields m <> [] -> message_schema n m = Some s ->
    exists s', typ_schema c (object_type_schema c n) (TNamed (title p) true) = Some s' /\ is_a s s' = true.
  Proof.
    induction n as [|n IH]; intros p m s M N Nf E; [discriminate|]. cbn [typ_schema]. destruct (message_found p m M N) as [(Mu & t & base & gs & -> & P & Mo)|(Mu & -> & ->)].
    2:{ cbn. eexists. split; [reflexivity|]. assert (X : from_scalar_type (title p) = SAny); [|rewrite X; now destruct s].
        pose proof (ta_messages _ _ _ TA p m M) as T. unfold from_scalar_type. repeat match goal with |- context [String.eqb ?a ?b] => destruct (String.eqb_spec a b) as [Z|_]; [rewrite Z in T; discriminate|] end. reflexivity. }
    destruct m as [name entry0 enums nested oneofs fields]. cbn in N. subst entry0. set (m := Message name false enums nested oneofs fields) in *. cbn [GsModel.message_schema m] in E.
    destruct (traverse _ fields) as [l|] eqn:T; [|discriminate]. cbn in E. injection E as <-. destruct (traverse_in _ _ _ T) as [T1 T2].
    assert (Fs : forall f, In f fields -> exists s, field_schema (message_schema n) f = Some s /\ In (camel (pf_name f), s) l).
    { intros f I. destruct (T1 f I) as ([k s] & E & J). destruct (field_schema (message_schema n) f) as [s'|] eqn:Ef; [|discriminate]. cbn in E. injection E as <- <-. eauto. }
    assert (Fb : forall k s, In (k, s) l -> exists f, In f fields /\ k = camel (pf_name f) /\ field_schema (message_schema n) f = Some s).
    { intros k s I. destruct (T2 _ I) as (f & J & F). exists f. split; [exact J|]. destruct (field_schema (message_schema n) f) as [s'|]; [|discriminate]. cbn in F. injection F as <- <-. auto. }
    assert (Ft : forall f ty sf, In f fields -> field_typ files p m f ty -> field_schema (message_schema n) f = Some sf -> exists s', typ_schema c (object_type_schema c n) ty = Some s' /\ is_a sf s' = true).
    { intros f ty sf I Ty Ef. unfold GsModel.field_schema in Ef. unfold field_typ in Ty. destruct (pf_type_name f) as [r|] eqn:Tn.
      - destruct Ty as [(m' & J & Em & R & ->)|(q & R & K & ->)].
        + unfold refers in R. rewrite R, (find_message files WF _ m' (nested_at files p m m' M eq_refl J)) in Ef. destruct m' as [n1 b1 e1 ns1 o1 f1]. cbn in Em. subst b1. destruct n as [|n]; [discriminate|]. cbn in Ef. injection Ef as <-.
          destruct (scalar_alone "JSON" eq_refl) as [A B]. cbn [typ_schema]. rewrite A, B. cbn. eexists. split; [reflexivity|]. now destruct (pf_label f).
        + unfold refers in R. subst r. destruct K as [(e & Ea)|(m' & Ma & Nm)].
          * rewrite (find_enum files WF q e Ea) in Ef. cbn in Ef. injection Ef as <-. destruct (enum_found q e Ea) as (A & ge & B & Eq).
            apply (labelled_schema _ (pf_label f) (title q) (enum_schema e) (enum_schema e)); [reflexivity|cbn; rewrite A, B; cbn; now rewrite Eq|]. unfold enum_schema. cbn. now apply list_eqb_eq.
          * rewrite (find_message files WF q m' Ma) in Ef. destruct m' as [n1 b1 e1 ns1 o1 f1] eqn:Em'. cbn in Nm. subst b1. destruct (message_schema n (Message n1 false e1 ns1 o1 f1)) as [s1|] eqn:E1; [|discriminate]. cbn in Ef. injection Ef as <-.
            destruct (IH q _ s1 Ma eq_refl (ta_fields _ _ _ TA p m f q _ M eq_refl I Tn Ma eq_refl) E1) as (s1' & A & B). apply (labelled_schema _ (pf_label f) (title q) s1 s1'); auto. now apply (message_not_optional n _ s1 E1).
      - subst ty. cbn in Ef. injection Ef as <-. destruct (scalar_accepted (object_type_schema c n) (pf_type f)) as (s' & A & B). apply (labelled_schema _ (pf_label f) _ _ s'); auto. now destruct (pf_type f). }
    assert (Fe : forall k fd, In (k, fd) (t_fields t) -> f_resolvers fd = [] /\ exists s' sf, typ_schema c (object_type_schema c n) (f_type fd) = Some s' /\ In (k, sf) l /\ is_a sf s' = true).
    { intros k fd I. destruct Mo as [Mo _]. apply Mo in I. destruct (part_field p m base gs _ P I) as (f & J & Ek & Ty & _ & Rs). cbn [fst snd] in *. split; [exact Rs|]. destruct (Fs f J) as (sf & Ef & K). destruct (Ft f (f_type fd) sf J Ty Ef) as (s' & A & B). exists s', sf. subst k. auto. }
    assert (Tr : exists l', traverse (fun kf : string * field => option_map (fun s => (fst kf, s)) (typ_schema c (object_type_schema c n) (f_type (snd kf)))) (filter (fun kf => match f_resolvers (snd kf) with [] => true | _ => false end) (t_fields t)) = Some l').
    { assert (X : forall fs, (forall k fd, In (k, fd) fs -> exists s', typ_schema c (object_type_schema c n) (f_type fd) = Some s') -> exists l', traverse (fun kf : string * field => option_map (fun s => (fst kf, s)) (typ_schema c (object_type_schema c n) (f_type (snd kf)))) fs = Some l').
      { clear. induction fs as [|[k fd] fs IH]; intros H; cbn; [eauto|]. destruct (H k fd (or_introl eq_refl)) as (s' & ->). cbn. destruct IH as (l' & ->); [intros k' fd' I; apply (H k' fd'); now right|]. eauto. }
      apply X. intros k fd I. apply filter_In in I. destruct I as [I _]. destruct (Fe k fd I) as (_ & s' & sf & A & _). eauto. }
    destruct Tr as (l' & Tr). cbn [object_type_schema]. rewrite Tr. cbn. eexists. split; [reflexivity|]. unfold object_schema. destruct (fold_left _ l []) as [|ks0 fs0] eqn:Fo.
    - exfalso. destruct fields as [|f fields]; [now apply Nf|]. destruct (Fs f (or_introl eq_refl)) as (sf & _ & K). pose proof (inserted_keys l (camel (pf_name f)) (in_map fst _ _ K)) as X. now rewrite Fo in X.
    - rewrite <- Fo. apply is_a_obj. intros k e I. destruct (traverse_in _ _ _ Tr) as [_ T3]. destruct (T3 _ I) as ([k' fd] & J & Ee). apply filter_In in J. destruct J as [J _]. cbn [fst snd] in Ee. destruct (Fe k' fd J) as (_ & s' & sf & A & K & B). rewrite A in Ee. cbn in Ee. injection Ee as <- <-.
      destruct (aget k' (fold_left (fun fs (ks : string * schema) => oins scmp (fst ks) (snd ks) fs) l [])) as [a|] eqn:Ag.
      + exists a. split; [reflexivity|]. apply aget_In, inserted_in in Ag. destruct (Fb _ _ Ag) as (f1 & I1 & E1 & F1), (Fb _ _ K) as (f2 & I2 & E2 & F2). assert (f1 = f2) by (apply (ta_camel _ _ _ TA p m f1 f2 M eq_refl I1 I2); congruence). subst f2. rewrite F1 in F2. injection F2 as ->. exact B.
      + exfalso. apply aget_None in Ag. apply Ag. apply inserted_keys. change k' with (fst (k', sf)). now apply in_map.
  Qed.
End Generated.

(** ** Enough recursion *)
Lemma nests_schema camel files : well_formed files -> forall fuel k p m, message_at files p m -> nests files k m -> k + 2 <= fuel -> exists s, message_schema camel files fuel m = Some s.
Proof.
  intros WF. induction fuel as [|fuel IH]; intros k p m M Ne L; [lia|]. destruct m as [name entry0 enums nested oneofs fields]. cbn [message_schema]. destruct entry0; [eauto|]. set (m := Message name false enums nested oneofs fields) in *.
  inversion Ne as [k' m' H]; subst. cbn [message_fields m] in H.
  assert (X : forall f, In f fields -> exists s, field_schema files (message_schema camel files fuel) f = Some s).
  { intros f I. unfold field_schema. destruct (pf_type_name f) as [r|] eqn:T; [|cbn; eauto]. destruct (proj1 (wf_fields _ WF p m f M eq_refl I) r T) as (q & R & K). unfold refers in R. subst r. destruct K as [(e & E)|[(m' & M' & N')|(m' & J & N' & ->)]].
    - rewrite (GsProofs.find_enum files WF q e E). cbn. eauto.
    - rewrite (find_message files WF q m' M'). destruct (H f q m' I T M' N') as (j & Lj & Nj). destruct (IH j q m' M' Nj) as (s & E); [lia|]. destruct m' as [n1 b1 e1 ns1 o1 f1]. rewrite E. cbn. eauto.
    - rewrite (find_message files WF _ m' (nested_at files p m m' M eq_refl J)). destruct m' as [n1 b1 e1 ns1 o1 f1]. cbn in N'. subst b1. destruct fuel as [|fuel]; [lia|]. cbn. eauto. }
  clear - X. assert (Y : exists l, traverse (fun f => option_map (fun s => (camel (pf_name f), s)) (field_schema files (message_schema camel files fuel) f)) fields = Some l); [|destruct Y as (l & ->); cbn; eauto].
  induction fields as [|f fields IH]; cbn; [eauto|]. destruct (X f (or_introl eq_refl)) as (s & ->). cbn. destruct IH as (l & ->); [intros f' I; apply X; now right|]. eauto.
Qed.

Lemma operation_found files q s n d : well_formed files -> services_apart files -> q <> [] -> method_at files (q ++ [s; n]) d -> to_operation files (String.concat "." q) s n = Ok d.
Proof.
  intros WF SA Nq M. unfold to_operation, find_service. pose proof (wf_methods _ WF _ _ M) as W. pose proof M as M0. destruct M as (f & q' & sv & If & P & J & K & E).
  assert (E1 : q' = q /\ ps_name sv = s /\ pd_name d = n).
  { change [s; n] with ([s] ++ [n]) in E. change [ps_name sv; pd_name d] with ([ps_name sv] ++ [pd_name d]) in E. rewrite !app_assoc in E. apply app_inj_tail in E. destruct E as [E ->]. apply app_inj_tail in E. destruct E as [-> ->]. auto. }
  destruct E1 as (-> & <- & <-). set (l := flat_map _ files).
  assert (Nm : service_name f sv = (String.concat "." q ++ "." ++ ps_name sv)%string).
  { unfold service_name. destruct P as [Pg Pw]. rewrite Pg. destruct q as [|a r]; [contradiction|]. destruct (String.eqb_spec (String.concat "." (a :: r)) "") as [Z|]; [|reflexivity]. exfalso. inversion Pw as [|? ? [Wa _] _]; subst. destruct r; cbn in Z; [congruence|]. destruct a; discriminate. }
  assert (In1 : In (service_name f sv, sv) l) by (apply in_flat_map; exists f; split; [exact If|]; apply in_map_iff; exists sv; auto). rewrite <- Nm.
  destruct (find (fun y => String.eqb (fst y) (service_name f sv)) l) as [[full s']|] eqn:F.
  2:{ exfalso. pose proof (find_none _ _ F _ In1) as X. cbn [fst] in X. rewrite String.eqb_refl in X. discriminate. }
  apply find_some in F. destruct F as [I2 X]. cbn [fst] in X. apply String.eqb_eq in X. subst full. apply in_flat_map in I2. destruct I2 as (f' & If' & I2). apply in_map_iff in I2. destruct I2 as (s2 & Es & I2). injection Es as Es ->.
  assert (s' = sv) by (apply (SA f' f); auto). subst s'. cbn. destruct (find (fun d0 => String.eqb (pd_name d0) (pd_name d)) (ps_methods sv)) as [d'|] eqn:F.
  - apply find_some in F. destruct F as [I3 X]. apply String.eqb_eq in X. f_equal. apply (wf_unique_methods _ WF (q ++ [ps_name sv; pd_name d])); [|exact M0]. exists f, q, sv. rewrite X. auto.
  - exfalso. pose proof (find_none _ _ F _ K) as X. cbn in X. rewrite String.eqb_refl in X. discriminate.
Qed.

(** ** Methods that are generated *)
Lemma generated_accepted camel grpc_text json query url files x c q s n d t f fuel k k' qi mi qo mo :
  well_formed files -> names_apart query files -> tame camel query files -> from_proto camel grpc_text query url files = Ok x -> c_types c = x_types x -> c_enums c = x_enums x ->
  q <> [] -> method_at files (q ++ [s; n]) d -> oget scmp query (c_types c) = Some t -> oget scmp (method_title (q ++ [s; n])) (t_fields t) = Some f ->
  refers (pd_input d) qi -> message_at files qi mi -> nests files k mi -> refers (pd_output d) qo -> message_at files qo mo -> nests files k' mo -> k + 2 <= fuel -> k' + 2 <= fuel ->
  exists u, compile_grpc camel json files c fuel true {| g_url := url; g_method := String.concat "." (q ++ [s; n]); g_batch_key := [] |} (f_type f) = Some (Ok (u, d, false)).
Proof.
  intros WF AP TA E CT CE Nq M Gt Gf Ri Mi Ni Ro Mo No L L'. destruct (Pg3Proofs.generated camel grpc_text query url files WF) as (x' & E' & _ & H). assert (x' = x) by congruence. subst x'. destruct (H AP) as (HM & HD & HE & NE). clear H. specialize (HE (ta_comments _ _ _ TA)).
  unfold compile_grpc. cbn [g_method g_url g_batch_key]. rewrite (Pg4Proofs.method_parts q s n Nq (wf_methods _ WF _ _ M)). destruct files as [|f0 fs] eqn:Ef; [destruct M as (? & ? & ? & [] & _)|]. rewrite <- Ef in *. clear Ef f0 fs.
  rewrite (operation_found files q s n d WF (ta_services _ _ _ TA) Nq M). eexists. unfold validate_schema, message_of. unfold refers in Ri, Ro. rewrite Ri, Ro, (find_message files WF qi mi Mi), (find_message files WF qo mo Mo).
  destruct (nests_schema camel files WF fuel k qi mi Mi Ni L) as (si & ->). destruct (nests_schema camel files WF fuel k' qo mo Mo No L') as (so & Eo). rewrite Eo.
  destruct (HD _ d M) as (_ & t' & f' & body & Gt' & Gf' & _ & _ & Ty). rewrite CT in Gt. rewrite Gt in Gt'. injection Gt' as <-. rewrite Gf in Gf'. injection Gf' as <-.
  assert (X : exists s', to_json_schema c fuel (f_type f) = Some s' /\ is_a so s' = true).
  { unfold to_json_schema. destruct (String.eqb_spec (pd_output d) empty_message) as [Em|Em].
    - rewrite Ty. destruct (scalar_alone camel query files x c WF TA NE CT CE "Empty" eq_refl) as [A B]. cbn [typ_schema]. rewrite A, B. cbn. eexists. split; [reflexivity|].
      destruct (ta_empty _ _ _ TA qo mo Mo) as [Fe Ne]; [unfold refers; congruence|]. destruct mo as [nm b es ns o fs]. cbn in Fe, Ne. subst fs b. destruct fuel; [discriminate|]. cbn in Eo. injection Eo as <-. reflexivity.
    - destruct Ty as (q' & R' & W' & ->). destruct (message_words files WF qo mo Mo) as [Wo Nn].
      assert (Nq' : q' <> []) by (intros ->; unfold refers in R'; rewrite Ro in R'; destruct qo as [|a [|b l]]; [contradiction|inversion Wo as [|? ? [Wa _] _]; subst; cbn in R'; injection R' as R'; now apply Wa|]; cbn in R'; injection R' as R'; destruct a; discriminate).
      assert (q' = qo) by (apply dotted_inj; auto; unfold refers in R'; rewrite Ro in R'; now injection R'). subst q'.
      assert (Ne : is_map_entry mo = false).
      { destruct (proj2 (wf_calls _ WF _ d M)) as [C|(q2 & m2 & R2 & M2 & N2)]; [contradiction|]. destruct (message_words files WF q2 m2 M2) as [W2 Nn2]. assert (q2 = qo) by (apply dotted_inj; auto; unfold refers in R2; rewrite Ro in R2; now injection R2). subst q2. now rewrite (wf_unique _ WF qo mo m2 Mo M2). }
      destruct (accepted camel query files x c WF AP TA HM HE NE CT CE fuel qo mo so Mo Ne (ta_outputs _ _ _ TA _ d qo mo M Em Ro Mo) Eo) as (s' & A & B).
      apply (labelled_schema c (object_type_schema c fuel) LOptional (title qo) so s' (message_not_optional camel files fuel mo so Eo) A) in B. destruct B as (s2 & A2 & B2). exists s2. split; [exact A2|].
      pose proof (message_not_optional camel files fuel mo so Eo) as Op. destruct s2 as [| |s2'| | | | | |]; cbn [labelled typ_schema] in A2; try (match type of A2 with option_map _ ?k = _ => destruct k; discriminate end). rewrite is_a_optional by exact Op. exact B2. }
  destruct X as (s' & -> & ->). cbn. reflexivity.
Qed.
