(** Proofs: what comes back of a configuration written as a document. *)
From Coq Require Import String Ascii ZArith NArith Arith Bool Lia List.
From Verif Require Import Base BaseFacts Ordered OrderedFacts JsonModel TypeModel TypeProofs BuilderModel ConfigModel MergeSpec RenameSpec FedModel AmbModel AmbSpec AmbProofs DocModel DocSpec DocProofs.
Import ListNotations.
Open Scope string_scope.
Open Scope list_scope.

Lemma viter_map {A B C} (f : B -> valid C) (g : A -> B) (h : A -> C) l :
  (forall a, In a l -> f (g a) = Ok (h a)) -> viter f (map g l) = Ok (map h l).
Proof.
  induction l as [|a l IH]; intros H; cbn; [reflexivity|]. rewrite (H a (or_introl eq_refl)), IH; [reflexivity|].
  intros b I. apply H. now right.
Qed.
Lemma viter_app {A B} (f : A -> valid B) l1 l2 b1 b2 : viter f l1 = Ok b1 -> viter f l2 = Ok b2 -> viter f (l1 ++ l2) = Ok (b1 ++ b2).
Proof.
  revert b1. induction l1 as [|a l1 IH]; intros b1 E1 E2; cbn in *; [injection E1 as <-; exact E2|].
  destruct (f a) as [b|e]; destruct (viter f l1) as [bs|e']; cbn in E1; try discriminate. injection E1 as <-.
  rewrite (IH _ eq_refl E2). reflexivity.
Qed.
Lemma viter_const {A B} (f : A -> valid B) b l : Forall (fun a => f a = Ok b) l -> viter f l = Ok (map (fun _ => b) l).
Proof. induction 1 as [|a l E _ IH]; cbn; [reflexivity|]. rewrite E, IH. reflexivity. Qed.
Lemma flat_none {A B} (l : list A) : flat_map (@opt_list B) (map (fun _ => None) l) = [].
Proof. induction l; cbn; auto. Qed.

Section Round.
  Context {Args : Type}.
  Variable K : codecs Args.
  Hypothesis L : lawful_codecs K.

  Definition named_in (ns : list string) (ds : list (dir Args)) : Prop := Forall (fun d => In (d_name d) ns) ds.
  Definition resolver_names : list string := ["http"; "grpc"; "graphQL"; "call"; "js"; "expr"].

  Lemma skip {A} rt (k : codec Args A) ns l1 l2 : named_in ns l1 -> smem (directive_name rt) ns = false ->
    from_directives rt k (l1 ++ l2) = from_directives rt k l2.
  Proof.
    intros N M. induction N as [|d l I _ IH]; cbn; [reflexivity|]. destruct (String.eqb (d_name d) (directive_name rt)) eqn:E; [|exact IH].
    apply String.eqb_eq in E. rewrite <- E in M. apply smem_false in M. contradiction.
  Qed.
  Lemma skip_all {A} rt (k : codec Args A) ns l1 : named_in ns l1 -> smem (directive_name rt) ns = false -> from_directives rt k l1 = Ok None.
  Proof. intros N M. rewrite <- (app_nil_r l1). rewrite (skip rt k ns l1 [] N M). reflexivity. Qed.
  Lemma take {A} rt (k : codec Args A) o l2 : lawful k ->
    (o = None -> from_directives rt k l2 = Ok None) ->
    from_directives rt k (opt_list (option_map (to_directive rt k) o) ++ l2) = Ok o.
  Proof.
    intros La N. destruct o as [a|]; cbn; [|auto]. rewrite String.eqb_refl, La. reflexivity.
  Qed.

  Definition written (rs : list resolver) : list (dir Args) := flat_map (fun r => opt_list (resolver_directive K r)) rs.
  Lemma written_named rs : named_in resolver_names (written rs).
  Proof.
    unfold written, named_in. rewrite Forall_forall. intros d I. apply in_flat_map in I as (r & _ & I).
    destruct r; cbn in I; try (destruct I as [<- | []]; vm_compute; tauto); destruct I.
  Qed.
  Lemma resolvers_app l1 l2 a b : resolvers_of K l1 = Ok a -> resolvers_of K l2 = Ok b -> resolvers_of K (l1 ++ l2) = Ok (a ++ b).
  Proof.
    unfold resolvers_of. destruct (viter (resolver_of K) l1) as [x|] eqn:E1; [|discriminate]. destruct (viter (resolver_of K) l2) as [y|] eqn:E2; [|discriminate].
    cbn. intros A B. injection A as <-. injection B as <-. rewrite (viter_app _ _ _ _ _ E1 E2). cbn. now rewrite flat_map_app.
  Qed.
  Lemma resolvers_other ns l : named_in ns l -> forallb (fun n => negb (smem n resolver_names)) ns = true -> resolvers_of K l = Ok [].
  Proof.
    intros N M. unfold resolvers_of. rewrite (viter_const _ None).
    - cbn. now rewrite flat_none.
    - refine (Forall_impl _ _ N). intros d I. rewrite forallb_forall in M. specialize (M _ I). apply negb_true_iff in M.
      unfold resolver_of. cbn in M.
      repeat match goal with |- context [String.eqb ?x (d_name d)] => let v := eval vm_compute in x in change x with v; rewrite (String.eqb_sym v) end.
      repeat match type of M with (if ?b then _ else _) = false => destruct b; [discriminate|] end. reflexivity.
  Qed.
  Lemma resolver_of_written r d : resolver_directive K r = Some d -> resolver_of K d = Ok (Some r).
  Proof.
    destruct r; cbn; intros E; try discriminate; injection E as <-; unfold resolver_of; cbn.
    - now rewrite (l_http K L).
    - now rewrite (l_grpc K L).
    - now rewrite (l_graphql K L).
    - now rewrite (l_call K L).
    - now rewrite (l_js K L).
    - now rewrite (l_expr K L).
  Qed.
  Lemma resolvers_written rs : resolvers_of K (written rs) = Ok (filter has_directive rs).
  Proof.
    induction rs as [|r rs IH]; [reflexivity|]. change (written (r :: rs)) with (opt_list (resolver_directive K r) ++ written rs).
    change (filter has_directive (r :: rs)) with ((if has_directive r then [r] else []) ++ filter has_directive rs) || idtac.
    assert (E : filter has_directive (r :: rs) = (if has_directive r then [r] else []) ++ filter has_directive rs) by (cbn; destruct (has_directive r); reflexivity).
    rewrite E. apply resolvers_app; [|exact IH]. destruct (resolver_directive K r) as [d|] eqn:D.
    - unfold resolvers_of. cbn. rewrite (resolver_of_written r d D). cbn. destruct r; cbn in *; congruence || reflexivity.
    - destruct r; cbn in *; congruence || reflexivity.
  Qed.

  Lemma into_named ds : Forall (kept_directive K) ds -> named_in FEDERATION_DIRECTIVES (into_directives K ds).
  Proof. intros H. unfold named_in, into_directives. apply Forall_map. exact H. Qed.

  Lemma fed_app l1 l2 a b : to_federation_directives K l1 = Ok a -> to_federation_directives K l2 = Ok b -> to_federation_directives K (l1 ++ l2) = Ok (a ++ b).
  Proof.
    unfold to_federation_directives. set (f := fun d => _).
    destruct (viter f l1) as [x|] eqn:E1; [|discriminate]. destruct (viter f l2) as [y|] eqn:E2; [|discriminate].
    cbn. intros A B. injection A as <-. injection B as <-. rewrite (viter_app _ _ _ _ _ E1 E2). cbn. now rewrite flat_map_app.
  Qed.
  Lemma fed_other ns l : named_in ns l -> forallb (fun n => negb (smem n FEDERATION_DIRECTIVES)) ns = true -> to_federation_directives K l = Ok [].
  Proof.
    intros N M. unfold to_federation_directives. rewrite (viter_const _ None).
    - cbn. now rewrite flat_none.
    - refine (Forall_impl _ _ N). intros d I. rewrite forallb_forall in M. specialize (M _ I). apply negb_true_iff in M. now rewrite M.
  Qed.
  Lemma fed_into ds : Forall (kept_directive K) ds -> to_federation_directives K (into_directives K ds) = Ok ds.
  Proof.
    intros H. unfold to_federation_directives, into_directives. rewrite (viter_map _ _ Some).
    - cbn. f_equal. clear. induction ds as [|d ds IH]; cbn; [reflexivity|]. now rewrite IH.
    - intros d I. cbn [d_name d_args]. rewrite Forall_forall in H. specialize (H d I). unfold kept_directive in H. rewrite (proj2 (smem_In _ _) H).
      now rewrite (l_other K L).
  Qed.

  Lemma opt_named {A} rt (k : codec Args A) o n : n = directive_name rt -> named_in [n] (opt_list (option_map (to_directive rt k) o)).
  Proof. intros ->. destruct o; cbn; repeat constructor. Qed.
  Lemma named_app ns1 ns2 l1 l2 : named_in ns1 l1 -> named_in ns2 l2 -> named_in (ns1 ++ ns2) (l1 ++ l2).
  Proof.
    intros A B. apply Forall_app. split; [refine (Forall_impl _ _ A)|refine (Forall_impl _ _ B)]; intros d I; apply in_or_app; auto.
  Qed.

  Lemma common_field f args default ty : Forall (kept_directive K) (f_directives f) -> of_parser ty = f_type f ->
    to_common_field K ty (f_doc f) (field_directives K f) args default =
    Ok {| f_type := f_type f; f_args := args; f_doc := f_doc f; f_modify := f_modify f; f_omit := f_omit f; f_cache := f_cache f;
          f_default := default; f_protected := f_protected f; f_discriminate := None;
          f_resolvers := filter has_directive (f_resolvers f); f_directives := f_directives f |}.
  Proof.
    intros Kd Ty. unfold to_common_field.
    set (R := written (f_resolvers f)).
    set (M := opt_list (option_map (to_directive "Modify" (k_modify K)) (f_modify f))).
    set (oo := if f_omit f then Some tt else None).
    set (O := opt_list (option_map (to_directive "Omit" (k_omit K)) oo)).
    set (C := opt_list (option_map (to_directive "Cache" (k_cache K)) (f_cache f))).
    set (P := opt_list (option_map (to_directive "Protected" (k_protected K)) (f_protected f))).
    set (D := into_directives K (f_directives f)).
    assert (E : field_directives K f = R ++ M ++ O ++ C ++ P ++ D).
    { unfold field_directives, R, M, O, C, P, D, oo. destruct (f_omit f); reflexivity. }
    assert (NR : named_in resolver_names R) by apply written_named.
    assert (NM : named_in ["modify"] M) by (apply opt_named; reflexivity).
    assert (NO : named_in ["omit"] O) by (apply opt_named; reflexivity).
    assert (NC : named_in ["cache"] C) by (apply opt_named; reflexivity).
    assert (NP : named_in ["protected"] P) by (apply opt_named; reflexivity).
    assert (ND : named_in FEDERATION_DIRECTIVES D) by now apply into_named.
    assert (NPD := named_app _ _ _ _ NP ND). assert (NCP := named_app _ _ _ _ NC NPD). assert (NOC := named_app _ _ _ _ NO NCP). assert (NMO := named_app _ _ _ _ NM NOC).
    assert (NRM := named_app _ _ _ _ NR NMO).
    assert (E1 : resolvers_of K (R ++ M ++ O ++ C ++ P ++ D) = Ok (filter has_directive (f_resolvers f))).
    { rewrite <- (app_nil_r (filter _ _)). apply resolvers_app; [apply resolvers_written|]. now apply (resolvers_other _ _ NMO). }
    assert (E2 : from_directives "Cache" (k_cache K) (R ++ M ++ O ++ C ++ P ++ D) = Ok (f_cache f)).
    { rewrite (skip _ _ _ _ _ NR), (skip _ _ _ _ _ NM), (skip _ _ _ _ _ NO) by reflexivity. apply take; [apply L|]. intros _. now apply (skip_all _ _ _ _ NPD). }
    assert (E3 : from_directives "Omit" (k_omit K) (R ++ M ++ O ++ C ++ P ++ D) = Ok oo).
    { rewrite (skip _ _ _ _ _ NR), (skip _ _ _ _ _ NM) by reflexivity. apply take; [apply L|]. intros _. now apply (skip_all _ _ _ _ NCP). }
    assert (E4 : from_directives "Modify" (k_modify K) (R ++ M ++ O ++ C ++ P ++ D) = Ok (f_modify f)).
    { rewrite (skip _ _ _ _ _ NR) by reflexivity. apply take; [apply L|]. intros _. now apply (skip_all _ _ _ _ NOC). }
    assert (E5 : from_directives "Protected" (k_protected K) (R ++ M ++ O ++ C ++ P ++ D) = Ok (f_protected f)).
    { rewrite (skip _ _ _ _ _ NR), (skip _ _ _ _ _ NM), (skip _ _ _ _ _ NO), (skip _ _ _ _ _ NC) by reflexivity. apply take; [apply L|]. intros _. now apply (skip_all _ _ _ _ ND). }
    assert (E6 : from_directives "Discriminate" (k_discriminate K) (R ++ M ++ O ++ C ++ P ++ D) = Ok None) by now apply (skip_all _ _ _ _ NRM).
    assert (E7 : to_federation_directives K (R ++ M ++ O ++ C ++ P ++ D) = Ok (f_directives f)).
    { assert (NX := named_app _ _ _ _ NR (named_app _ _ _ _ NM (named_app _ _ _ _ NO (named_app _ _ _ _ NC NP)))).
      replace (R ++ M ++ O ++ C ++ P ++ D) with ((R ++ M ++ O ++ C ++ P) ++ D) by now rewrite !app_assoc.
      change (f_directives f) with ([] ++ f_directives f). apply fed_app; [now apply (fed_other _ _ NX)|now apply fed_into]. }
    rewrite E, E1, E2, E3, E4, E5, E6, E7. cbn. rewrite Ty. unfold oo. destruct (f_omit f); reflexivity.
  Qed.

  (** Maps collected again. *)
  Lemma oins_last {V} (k : string) (v : V) m : (forall k' v', In (k', v') m -> scmp k' k = Lt) -> oins scmp k v m = m ++ [(k, v)].
  Proof.
    induction m as [|[k' v'] m IH]; intros H; cbn; [reflexivity|]. rewrite (to_anti _ scmp_order k' k), (H k' v' (or_introl eq_refl)). cbn.
    f_equal. apply IH. intros a b I. apply (H a b). now right.
  Qed.
  Lemma omap_of_sorted {V} (m : list (string * V)) : osorted scmp m -> omap_of scmp m = m.
  Proof.
    intros So. apply (osorted_ext scmp scmp_order); [apply (osorted_omap_of scmp scmp_order)|exact So|]. intros k.
    unfold omap_of. assert (G : forall (l acc : list (string * V)), osorted scmp l -> oget scmp k (fold_left (fun acc kv => oins scmp (fst kv) (snd kv) acc) l acc) =
      match oget scmp k l with Some v => Some v | None => oget scmp k acc end).
    { induction l as [|[k' v'] l IH]; intros acc S0; cbn [fold_left]; [reflexivity|]. inversion S0 as [|? ? ? Lt' S1]; subst. rewrite IH by auto. cbn [fst snd oget].
      destruct (scmp k k') eqn:E.
      - apply (to_eq _ scmp_order) in E. subst k'. destruct (oget scmp k l) eqn:G; [|apply (oget_oins_same scmp scmp_order)].
        apply (oget_in scmp scmp_order) in G. specialize (Lt' _ _ G). rewrite (to_refl _ _ scmp_order) in Lt'. discriminate.
      - destruct (oget scmp k l); [reflexivity|]. apply (oget_oins_other scmp scmp_order). intros ->. rewrite (to_refl _ _ scmp_order) in E. discriminate.
      - destruct (oget scmp k l); [reflexivity|]. apply (oget_oins_other scmp scmp_order). intros ->. rewrite (to_refl _ _ scmp_order) in E. discriminate. }
    rewrite (G m [] So). cbn. now destruct (oget scmp k m).
  Qed.
  Lemma set_of_sorted {A} (cmp : A -> A -> comparison) (T : total_order cmp) s : ssorted cmp s -> set_of cmp s = s.
  Proof.
    intros So. apply (ssorted_ext cmp T); [apply (ssorted_sextend cmp T); constructor|exact So|].
    intros k. unfold set_of. rewrite (sextend_in cmp T). cbn. tauto.
  Qed.
  Lemma aset_last {V} k (v : V) m : ~ In k (map fst m) -> aset k v m = m ++ [(k, v)].
  Proof.
    induction m as [|[k' v'] m IH]; intros N; cbn; [reflexivity|]. destruct (String.eqb k k') eqn:E.
    - apply String.eqb_eq in E. subst. exfalso. apply N. now left.
    - f_equal. apply IH. intros I. apply N. now right.
  Qed.
  Lemma args_back l : NoDup (map fst l) -> to_args K (map argument l) = map (fun na => (fst na, arg_back (snd na))) l.
  Proof.
    intros ND. unfold to_args.
    assert (G : forall l acc, NoDup (map fst acc ++ map fst l) ->
      fold_left (fun acc iv => aset (iv_name iv) (to_arg K iv) acc) (map argument l) acc = acc ++ map (fun na => (fst na, arg_back (snd na))) l).
    { clear l ND. induction l as [|[n a] l IH]; intros acc ND; cbn [map fold_left]; [now rewrite app_nil_r|].
      rewrite IH.
      - rewrite aset_last.
        + rewrite <- app_assoc. cbn. unfold to_arg, argument. cbn. rewrite of_to_parser. reflexivity.
        + cbn in ND. apply NoDup_remove_2 in ND. intros I. apply ND. apply in_or_app. auto.
      - cbn. rewrite aset_last.
        + rewrite map_app. cbn. rewrite <- app_assoc. exact ND.
        + cbn in ND. apply NoDup_remove_2 in ND. intros I. apply ND. apply in_or_app. auto. }
    rewrite (G l []); [reflexivity|exact ND].
  Qed.

  Lemma osorted_map {V W} (g : V -> W) (m : list (string * V)) : osorted scmp m -> osorted scmp (map (fun nv => (fst nv, g (snd nv))) m).
  Proof.
    induction 1 as [|k v t Lt' S IH]; cbn; constructor; [|exact IH]. intros k' v' I. apply in_map_iff in I as ([a b] & E & I). injection E as <- <-. cbn. eauto.
  Qed.

  Lemma fields_inner {T} (name : T -> string) (tr : T -> valid field) (wr : string * field -> T) (g : field -> field) (fs : list (string * field)) :
    osorted scmp fs -> (forall nf, In nf fs -> name (wr nf) = fst nf /\ tr (wr nf) = Ok (g (snd nf))) ->
    to_fields_inner name tr (map wr fs) = Ok (map (fun nf => (fst nf, g (snd nf))) fs).
  Proof.
    intros So H. unfold to_fields_inner. rewrite (viter_map _ _ (fun nf => (fst nf, g (snd nf)))).
    - cbn. f_equal. apply omap_of_sorted. now apply osorted_map.
    - intros nf I. destruct (H nf I) as [-> ->]. reflexivity.
  Qed.

  Lemma fields_object fs : osorted scmp fs -> Forall (fun nf => stored_field K (snd nf)) fs ->
    to_fields_inner fd_name (to_field K) (map (object_field K) fs) = Ok (map (fun nf => (fst nf, field_back AsObject (snd nf))) fs).
  Proof.
    intros So St. apply fields_inner; [exact So|]. intros [n f] I. split; [reflexivity|]. rewrite Forall_forall in St. destruct (St _ I) as [ND Kd]. cbn in ND, Kd.
    unfold to_field, object_field. cbn [fd_type fd_doc fd_dirs fd_args snd fst]. rewrite (common_field f) by (auto using of_to_parser).
    rewrite args_back by exact ND. reflexivity.
  Qed.
  Lemma fields_interface fs : osorted scmp fs -> Forall (fun nf => stored_field K (snd nf)) fs ->
    to_fields_inner fd_name (to_field K) (map (interface_field K) fs) = Ok (map (fun nf => (fst nf, field_back AsInterface (snd nf))) fs).
  Proof.
    intros So St. apply fields_inner; [exact So|]. intros [n f] I. split; [reflexivity|]. rewrite Forall_forall in St. destruct (St _ I) as [ND Kd]. cbn in ND, Kd.
    unfold to_field, interface_field. cbn [fd_type fd_doc fd_dirs fd_args snd fst]. rewrite (common_field f) by (auto using of_to_parser). reflexivity.
  Qed.
  Lemma fields_input fs : osorted scmp fs -> Forall (fun nf => stored_field K (snd nf)) fs ->
    to_fields_inner iv_name (to_input_field K) (map (input_field K) fs) = Ok (map (fun nf => (fst nf, field_back AsInput (snd nf))) fs).
  Proof.
    intros So St. apply fields_inner; [exact So|]. intros [n f] I. split; [reflexivity|]. rewrite Forall_forall in St. destruct (St _ I) as [ND Kd]. cbn in ND, Kd.
    unfold to_input_field, input_field. cbn [iv_type iv_doc iv_dirs iv_default snd fst]. rewrite (common_field f) by (auto using of_to_parser). reflexivity.
  Qed.

  Lemma object_type_back t fields (g : field -> field) :
    ssorted scmp (t_implements t) -> Forall (kept_directive K) (t_directives t) ->
    to_fields_inner fd_name (to_field K) fields = Ok (map (fun nf => (fst nf, g (snd nf))) (t_fields t)) ->
    to_object_type K (t_implements t) fields (t_doc t) (type_directives K t) =
    Ok {| t_fields := map (fun nf => (fst nf, g (snd nf))) (t_fields t); t_added := t_added t; t_doc := t_doc t;
          t_implements := t_implements t; t_cache := t_cache t; t_protected := t_protected t;
          t_resolvers := filter has_directive (t_resolvers t); t_directives := t_directives t |}.
  Proof.
    intros Si Kd Fi. unfold to_object_type.
    set (A := map (to_directive "AddField" (k_add_field K)) (t_added t)).
    set (C := opt_list (option_map (to_directive "Cache" (k_cache K)) (t_cache t))).
    set (P := opt_list (option_map (to_directive "Protected" (k_protected K)) (t_protected t))).
    set (R := written (t_resolvers t)).
    set (D := into_directives K (t_directives t)).
    change (type_directives K t) with (A ++ C ++ P ++ R ++ D).
    assert (NA : named_in ["addField"] A). { unfold A, named_in. apply Forall_map, Forall_forall. intros x _. left. reflexivity. }
    assert (NC : named_in ["cache"] C) by (apply opt_named; reflexivity).
    assert (NP : named_in ["protected"] P) by (apply opt_named; reflexivity).
    assert (NR : named_in resolver_names R) by apply written_named.
    assert (ND : named_in FEDERATION_DIRECTIVES D) by now apply into_named.
    assert (NRD := named_app _ _ _ _ NR ND). assert (NPR := named_app _ _ _ _ NP NRD). assert (NCP := named_app _ _ _ _ NC NPR).
    assert (NACP := named_app _ _ _ _ NA (named_app _ _ _ _ NC NP)).
    assert (E1 : resolvers_of K (A ++ C ++ P ++ R ++ D) = Ok (filter has_directive (t_resolvers t))).
    { replace (A ++ C ++ P ++ R ++ D) with ((A ++ C ++ P) ++ R ++ D) by now rewrite !app_assoc.
      rewrite <- (app_nil_l (filter _ _)), <- (app_nil_r (filter has_directive _)).
      apply resolvers_app; [now apply (resolvers_other _ _ NACP)|]. apply resolvers_app; [apply resolvers_written|]. now apply (resolvers_other _ _ ND). }
    assert (E2 : from_directives "Cache" (k_cache K) (A ++ C ++ P ++ R ++ D) = Ok (t_cache t)).
    { rewrite (skip _ _ _ _ _ NA) by reflexivity. apply take; [apply L|]. intros _. now apply (skip_all _ _ _ _ NPR). }
    assert (E3 : from_directives "Protected" (k_protected K) (A ++ C ++ P ++ R ++ D) = Ok (t_protected t)).
    { rewrite (skip _ _ _ _ _ NA), (skip _ _ _ _ _ NC) by reflexivity. apply take; [apply L|]. intros _. now apply (skip_all _ _ _ _ NRD). }
    assert (E4 : to_add_fields K (A ++ C ++ P ++ R ++ D) = Ok (t_added t)).
    { unfold to_add_fields. rewrite filter_app. set (p := fun d : dir Args => String.eqb (d_name d) (directive_name "AddField")).
      assert (F1 : filter p A = A). { unfold A. clear. induction (t_added t) as [|a l IH]; cbn; [reflexivity|]. now rewrite IH. }
      assert (F2 : filter p (C ++ P ++ R ++ D) = []).
      { assert (Z : forall l, (forall d, In d l -> p d = false) -> filter p l = []).
        { induction l as [|d l IH]; intros H; cbn; [reflexivity|]. rewrite (H d (or_introl eq_refl)). apply IH. intros x I. apply H. now right. }
        apply Z. intros d I. unfold named_in in NCP. rewrite Forall_forall in NCP. specialize (NCP d I). unfold p.
        destruct (String.eqb (d_name d) (directive_name "AddField")) eqn:Q; [|reflexivity]. apply String.eqb_eq in Q. rewrite Q in NCP.
        exfalso. apply (proj1 (smem_false _ _)) with (2 := NCP). reflexivity. }
      rewrite F1, F2, app_nil_r. unfold A. rewrite (viter_map _ _ (fun a => a)); [now rewrite map_id|]. intros a _. cbn. apply L. }
    assert (E5 : to_federation_directives K (A ++ C ++ P ++ R ++ D) = Ok (t_directives t)).
    { assert (NX := named_app _ _ _ _ NA (named_app _ _ _ _ NC (named_app _ _ _ _ NP NR))).
      replace (A ++ C ++ P ++ R ++ D) with ((A ++ C ++ P ++ R) ++ D) by now rewrite !app_assoc.
      change (t_directives t) with ([] ++ t_directives t). apply fed_app; [now apply (fed_other _ _ NX)|now apply fed_into]. }
    rewrite E1, E2, E3, E4, E5, Fi. cbn. now rewrite (set_of_sorted scmp scmp_order).
  Qed.

  Lemma input_object_back t :
    wf_gtype t -> Forall (kept_directive K) (t_directives t) -> Forall (fun nf => stored_field K (snd nf)) (t_fields t) ->
    to_input_object K (map (input_field K) (t_fields t)) (t_doc t) (type_directives K t) = Ok (type_back AsInput t).
  Proof.
    intros [So Si] Kd St. unfold to_input_object. rewrite fields_input by auto.
    assert (E : from_directives "Protected" (k_protected K) (type_directives K t) = Ok (t_protected t)).
    { unfold type_directives. fold (written (t_resolvers t)).
      set (A := map (to_directive "AddField" (k_add_field K)) (t_added t)).
      set (C := opt_list (option_map (to_directive "Cache" (k_cache K)) (t_cache t))).
      assert (NA : named_in ["addField"] A). { unfold A, named_in. apply Forall_map, Forall_forall. intros x _. left. reflexivity. }
      assert (NC : named_in ["cache"] C) by (apply opt_named; reflexivity).
      assert (NRD := named_app _ _ _ _ (written_named (t_resolvers t)) (into_named _ Kd)).
      rewrite (skip _ _ _ _ _ NA), (skip _ _ _ _ _ NC) by reflexivity. apply take; [apply L|]. intros _. now apply (skip_all _ _ _ _ NRD). }
    rewrite E. reflexivity.
  Qed.

  (** ** Types *)
  Variable c : config.
  Hypothesis T : tidy c.
  Hypothesis St : stored K c.
  Variables (fuel : nat) (m : list (string * list string)) (inputs : list string).
  Hypothesis Em : interfaces_types_map fuel c = Some m.
  Hypothesis Ei : input_types fuel c = Some inputs.

  Lemma interface_key n : smem n (map fst m) = true <-> Implemented c n.
  Proof.
    destruct (interfaces_map_ok fuel c m Em) as (_ & A & _). rewrite <- A, smem_In. split.
    - intros I N. apply (oget_none scmp scmp_order) in N. contradiction.
    - intros N. destruct (in_dec string_dec n (map fst m)) as [I|I]; [exact I|]. apply (oget_none scmp scmp_order) in I. contradiction.
  Qed.

  Lemma type_comes_back n t : In (n, t) (c_types c) ->
    exists u, usage c n t u /\ to_type K (type_definition K (map fst m) inputs (n, t)) = Ok (Some (type_back u t)).
  Proof.
    intros I. destruct (sto_types K c St) as [So H]. destruct (H n t I) as ((Sf & Si) & Kd & Sto).
    assert (F : find_type c n = Some t) by (apply (in_oget scmp scmp_order); auto).
    unfold to_type, type_definition, kind_of. cbn [td_kind td_doc td_dirs fst snd].
    destruct (smem n (map fst m)) eqn:E1.
    - exists AsInterface. split; [apply U_interface; now apply interface_key|].
      rewrite (object_type_back t _ (field_back AsInterface)); auto. apply fields_interface; auto.
    - assert (NI : ~ Implemented c n) by (intros Q; apply interface_key in Q; congruence).
      destruct (input_types_ok c T _ _ Ei) as [I1 I2].
      destruct (smem n inputs) eqn:E2.
      + exists AsInput. split.
        * apply U_input; [exact NI|]. apply smem_In in E2. now apply I1.
        * rewrite input_object_back by (auto; split; auto). reflexivity.
      + destruct (t_fields t) as [|nf fs] eqn:Ef.
        * exists AsScalar. split; [now apply U_scalar|reflexivity].
        * exists AsObject. split.
          -- apply U_object; [exact NI| |congruence]. intros U. apply smem_false in E2. apply E2. apply I2; [|exact U]. left. exists t. split; [exact F|congruence].
          -- rewrite <- Ef in *. rewrite (object_type_back t _ (field_back AsObject)); auto. apply fields_object; auto.
  Qed.

  Lemma viter_skip {A B} (f : A -> valid (option B)) l : Forall (fun a => f a = Ok None) l -> exists x, viter f l = Ok x /\ flat_map opt_list x = [].
  Proof. intros H. rewrite (viter_const _ _ _ H). eexists. split; [reflexivity|apply flat_none]. Qed.
  Lemma collected_three {X} (f : type_def Args -> valid (option X)) l1 l2 l3 r1 r2 r3 :
    viter (fun td => rmap (option_map (fun a => (td_name td, a))) (f td)) l1 = Ok r1 ->
    viter (fun td => rmap (option_map (fun a => (td_name td, a))) (f td)) l2 = Ok r2 ->
    viter (fun td => rmap (option_map (fun a => (td_name td, a))) (f td)) l3 = Ok r3 ->
    collected f (l1 ++ l2 ++ l3) = Ok (omap_of scmp (flat_map opt_list r1 ++ flat_map opt_list r2 ++ flat_map opt_list r3)).
  Proof.
    intros A B C. unfold collected. rewrite (viter_app _ _ _ _ _ A (viter_app _ _ _ _ _ B C)). cbn. now rewrite !flat_map_app.
  Qed.

  Definition tds_types := map (type_definition K (map fst m) inputs) (c_types c).
  Definition tds_unions := map (@union_definition Args) (c_unions c).
  Definition tds_enums := map (enum_definition K) (c_enums c).
  Lemma definitions : type_definitions
    (DSchema (schema_of K c) :: map (fun nt => DType (type_definition K (map fst m) inputs nt)) (c_types c) ++
      map (fun nu => DType (union_definition nu)) (c_unions c) ++ map (fun ne => DType (enum_definition K ne)) (c_enums c)) =
    tds_types ++ tds_unions ++ tds_enums.
  Proof.
    cbn. rewrite !flat_map_app. unfold tds_types, tds_unions, tds_enums.
    assert (G : forall {A} (g : A -> type_def Args) l, flat_map (fun d => match d with DType t => [t] | _ => [] end) (map (fun x => DType (g x)) l) = map g l).
    { intros A g l. induction l as [|a l IH]; cbn; [reflexivity|]. now rewrite IH. }
    now rewrite !G.
  Qed.
  Lemma skipped {X Y} (f : type_def Args -> valid (option X)) (g : Y -> type_def Args) l :
    (forall y, In y l -> f (g y) = Ok None) ->
    exists r, viter (fun td => rmap (option_map (fun a => (td_name td, a))) (f td)) (map g l) = Ok r /\ flat_map opt_list r = [].
  Proof.
    intros H. apply viter_skip. apply Forall_map, Forall_forall. intros y I. now rewrite (H y I).
  Qed.
  Lemma taken {X Y} (f : type_def Args -> valid (option X)) (g : string * Y -> type_def Args) (h : string * Y -> X) l :
    (forall y, In y l -> td_name (g y) = fst y /\ f (g y) = Ok (Some (h y))) ->
    exists r, viter (fun td => rmap (option_map (fun a => (td_name td, a))) (f td)) (map g l) = Ok r /\ flat_map opt_list r = map (fun y => (fst y, h y)) l.
  Proof.
    intros H. rewrite (viter_map _ _ (fun y => Some (fst y, h y))).
    - eexists. split; [reflexivity|]. clear. induction l as [|a l IH]; cbn; [reflexivity|]. now rewrite IH.
    - intros y I. destruct (H y I) as [-> ->]. reflexivity.
  Qed.

  Lemma types_back : exists ts, to_types K (tds_types ++ tds_unions ++ tds_enums) = Ok ts /\
    Forall2 (fun nt nt' => fst nt' = fst nt /\ exists u, usage c (fst nt) (snd nt) u /\ snd nt' = type_back u (snd nt)) (c_types c) ts.
  Proof.
    assert (G : forall l, incl l (c_types c) -> exists ts,
      viter (fun td => rmap (option_map (fun a => (td_name td, a))) (to_type K td)) (map (type_definition K (map fst m) inputs) l) = Ok (map Some ts) /\
      Forall2 (fun nt nt' => fst nt' = fst nt /\ exists u, usage c (fst nt) (snd nt) u /\ snd nt' = type_back u (snd nt)) l ts).
    { induction l as [|[n t] l IH]; intros Sub; cbn [map viter].
      - exists []. split; [reflexivity|constructor].
      - destruct (IH (fun x I => Sub x (or_intror I))) as (ts & E & F). destruct (type_comes_back n t (Sub _ (or_introl eq_refl))) as (u & U & Et).
        rewrite E, Et. exists ((n, type_back u t) :: ts). split; [reflexivity|]. constructor; [|exact F]. cbn. split; [reflexivity|]. exists u. auto. }
    destruct (G (c_types c) (incl_refl _)) as (ts & E & F). exists ts. split; [|exact F].
    destruct (skipped (to_type K) (@union_definition Args) (c_unions c)) as (r2 & E2 & N2); [reflexivity|].
    destruct (skipped (to_type K) (enum_definition K) (c_enums c)) as (r3 & E3 & N3); [reflexivity|].
    unfold to_types, tds_types, tds_unions, tds_enums. rewrite (collected_three _ _ _ _ _ _ _ E E2 E3), N2, N3, !app_nil_r. f_equal.
    assert (Z : flat_map opt_list (map Some ts) = ts) by (clear; induction ts as [|a l IH]; cbn; [reflexivity|now rewrite IH]).
    rewrite Z. apply omap_of_sorted. destruct (sto_types K c St) as [So _]. clear - So F. revert ts F. induction So as [|k v t Lt' So IH]; intros ts F; inversion F as [|? [k' v'] ? ts' [Ek _] F']; subst; [constructor|].
    cbn in Ek. subst k'. constructor; [|now apply IH]. intros k' w I. clear - Lt' I F'. induction F' as [|[a b] [a' b'] l l' [Ea _] F IH]; [destruct I|]. cbn in Ea. subst a'.
    destruct I as [I|I]; [injection I as <- <-; apply (Lt' a b); now left|apply IH; [intros x y J; apply (Lt' x y); now right|exact I]].
  Qed.

  Lemma unions_back : to_union_types (tds_types ++ tds_unions ++ tds_enums) = Ok (map (fun nu => (fst nu, {| u_types := u_types (snd nu); u_doc := None |})) (c_unions c)).
  Proof.
    destruct (sto_unions K c St) as [So H].
    destruct (skipped (@to_union Args) (type_definition K (map fst m) inputs) (c_types c)) as (r1 & E1 & N1).
    { intros [n t] _. unfold to_union, type_definition, kind_of. cbn. destruct (smem n (map fst m)); [reflexivity|]. destruct (smem n inputs); [reflexivity|]. now destruct (t_fields t). }
    destruct (taken (@to_union Args) (@union_definition Args) (fun nu => {| u_types := u_types (snd nu); u_doc := None |}) (c_unions c)) as (r2 & E2 & N2).
    { intros [n u] I. split; [reflexivity|]. cbn. now rewrite (set_of_sorted scmp scmp_order) by (exact (H n u I)). }
    destruct (skipped (@to_union Args) (enum_definition K) (c_enums c)) as (r3 & E3 & N3); [reflexivity|].
    unfold to_union_types, tds_types, tds_unions, tds_enums. rewrite (collected_three _ _ _ _ _ _ _ E1 E2 E3), N1, N2, N3, app_nil_r. cbn [app]. f_equal. apply omap_of_sorted.
    now apply (osorted_map (fun u => {| u_types := u_types u; u_doc := None |})).
  Qed.

  Lemma vcmp_order : total_order vcmp.
  Proof. apply cmp_pair_order; [exact scmp_order|]. apply cmp_opt_order, cmp_list_order, scmp_order. Qed.
  Lemma enums_back : to_enum_types K (tds_types ++ tds_unions ++ tds_enums) = Ok (c_enums c).
  Proof.
    destruct (sto_enums K c St) as [So H].
    destruct (skipped (to_enum K) (type_definition K (map fst m) inputs) (c_types c)) as (r1 & E1 & N1).
    { intros [n t] _. unfold to_enum, type_definition, kind_of. cbn. destruct (smem n (map fst m)); [reflexivity|]. destruct (smem n inputs); [reflexivity|]. now destruct (t_fields t). }
    destruct (skipped (to_enum K) (@union_definition Args) (c_unions c)) as (r2 & E2 & N2); [reflexivity|].
    destruct (taken (to_enum K) (enum_definition K) snd (c_enums c)) as (r3 & E3 & N3).
    { intros [n [vs d]] I. split; [reflexivity|]. unfold to_enum, enum_definition. cbn [td_kind td_doc snd fst e_variants e_doc].
      rewrite (viter_map _ _ (fun v => v)).
      - rewrite map_id. cbn. now rewrite (set_of_sorted vcmp vcmp_order) by (exact (H _ _ I)).
      - intros [v a] _. unfold to_variant, enum_value. cbn [fst snd]. destruct a as [a|]; cbn; [|reflexivity]. now rewrite (l_alias K L). }
    unfold to_enum_types, tds_types, tds_unions, tds_enums. rewrite (collected_three _ _ _ _ _ _ _ E1 E2 E3), N1, N2, N3. cbn [app]. f_equal.
    replace (map (fun y : string * genum => (fst y, snd y)) (c_enums c)) with (c_enums c); [now apply omap_of_sorted|].
    rewrite <- (map_id (c_enums c)) at 1. apply map_ext. now intros [].
  Qed.

  Lemma multiple_links : schema_multiple "Link" (k_link K) (schema_of K c) = Ok (c_links c).
  Proof.
    unfold schema_multiple, schema_of. cbn [sd_dirs]. set (p := fun d : dir Args => String.eqb (d_name d) (directive_name "Link")). cbn [filter].
    assert (F : filter p (map (to_directive "Link" (k_link K)) (c_links c)) = map (to_directive "Link" (k_link K)) (c_links c)).
    { induction (c_links c) as [|a l IH]; cbn; [reflexivity|]. now rewrite IH. }
    change (p (to_directive "Server" (k_server K) (c_server c))) with false. change (p (to_directive "Upstream" (k_upstream K) (c_upstream c))) with false.
    cbv iota. rewrite F, (viter_map _ _ (fun a => a)); [now rewrite map_id|]. intros a _. cbn. apply L.
  Qed.
  Lemma schema_past_links {A} rt (k : codec Args A) l r :
    String.eqb "link" (directive_name rt) = false ->
    fold_left (fun res d => if String.eqb (d_name d) (directive_name rt) then dec k (d_args d) else res) (map (to_directive "Link" (k_link K)) l) r = r.
  Proof.
    intros E. induction l as [|a l IH]; cbn [map fold_left]; [reflexivity|].
    change (d_name (to_directive "Link" (k_link K) a)) with "link". rewrite E. exact IH.
  Qed.

  Lemma config_comes_back doc : config_document K fuel c = Some doc -> exists c', from_document K doc = Ok c' /\ comes_back c c'.
  Proof.
    unfold config_document. rewrite Em, Ei. intros E. injection E as <-. destruct types_back as (ts & Et & Ft).
    unfold from_document. rewrite definitions, Et, unions_back, enums_back. cbn [schema_definition]. rewrite multiple_links.
    assert (E1 : schema_directive "Server" (k_server K) empty_server (schema_of K c) = Ok (c_server c)).
    { unfold schema_directive, schema_of. cbn [sd_dirs fold_left]. rewrite schema_past_links by reflexivity. cbn. apply L. }
    assert (E2 : schema_directive "Upstream" (k_upstream K) empty_upstream (schema_of K c) = Ok (c_upstream c)).
    { unfold schema_directive, schema_of. cbn [sd_dirs fold_left]. rewrite schema_past_links by reflexivity. cbn. apply L. }
    assert (E3 : schema_directive "Telemetry" (k_telemetry K) empty_telemetry (schema_of K c) = Ok empty_telemetry).
    { unfold schema_directive, schema_of. cbn [sd_dirs fold_left]. rewrite schema_past_links by reflexivity. reflexivity. }
    rewrite E1, E2, E3. eexists. split; [reflexivity|]. split; cbn; try reflexivity; auto.
    unfold to_root_schema. cbn. now destruct (c_schema c).
  Qed.
End Round.

(** ** Nothing is lost of what a document can say. *)
Lemma filter_all {A} (p : A -> bool) l : Forall (fun a => p a = true) l -> filter p l = l.
Proof. induction 1 as [|a l E _ IH]; cbn; [reflexivity|]. now rewrite E, IH. Qed.
Lemma map_fst_id {V} (g : V -> V) (l : list (string * V)) : Forall (fun nv => g (snd nv) = snd nv) l -> map (fun nv => (fst nv, g (snd nv))) l = l.
Proof. induction 1 as [|[n v] l E _ IH]; cbn; [reflexivity|]. cbn in E. now rewrite E, IH. Qed.
Lemma field_said u f : sayable_field u f -> field_back u f = f.
Proof.
  intros (A & D & R). unfold field_back. rewrite (filter_all _ _ R). destruct f as [ty args doc mo om ca de pr di rs ds]. cbn in *. subst di.
  destruct u; [destruct A as [-> ->]|subst args|destruct A as [-> ->]|destruct A as [A ->]]; try reflexivity.
  rewrite (map_fst_id arg_back); [reflexivity|]. refine (Forall_impl _ _ A). intros [n [aty ad am adf]] Q. unfold sayable_arg in Q. cbn in *. now rewrite Q.
Qed.
Lemma type_said u t : sayable_type u t -> type_back u t = t.
Proof.
  intros (F & R & X). unfold type_back.
  assert (E : map (fun nf => (fst nf, field_back u (snd nf))) (t_fields t) = t_fields t).
  { apply map_fst_id. refine (Forall_impl _ _ F). intros nf. apply field_said. }
  destruct u; [| |symmetry; exact X|]; rewrite E; destruct t as [fs ad do im ca pr rs ds]; cbn in *.
  - now rewrite (filter_all _ _ R).
  - now destruct X as (-> & -> & -> & -> & ->).
  - now rewrite (filter_all _ _ R).
Qed.
Lemma config_said c c' : sayable c -> comes_back c c' -> c' = c.
Proof.
  intros (Te & Un & Ty) [A B C D E F G H].
  assert (Et : c_types c' = c_types c).
  { assert (Z : forall l l', incl l (c_types c) ->
      Forall2 (fun nt nt' => fst nt' = fst nt /\ exists u, usage c (fst nt) (snd nt) u /\ snd nt' = type_back u (snd nt)) l l' -> l' = l).
    { intros l l' Sub F2. induction F2 as [|[n t] [n' t'] l l' (En & u & U & Eb) F2 IH]; [reflexivity|]. cbn in *. subst n' t'.
      rewrite (type_said u t) by (apply (Ty n t u); [apply Sub; now left|exact U]). f_equal. apply IH. intros x I. apply Sub. now right. }
    exact (Z _ _ (incl_refl _) H). }
  assert (Eu : c_unions c' = c_unions c).
  { rewrite F. refine (map_fst_id (fun u => {| u_types := u_types u; u_doc := None |}) _ _). refine (Forall_impl _ _ Un). intros [n [us ud]] Q. cbn in *. now rewrite Q. }
  destruct c, c'. cbn in *. congruence.
Qed.

(** ** Writing ends *)
Lemma input_types_end c fuel : tidy c -> walk_fuel c <= fuel -> exists s, input_types fuel c = Some s.
Proof.
  intros T Le. unfold input_types. generalize (@nil string). generalize (map (fun a => type_name (arg_type a)) (filter (fun a => negb (is_scalar c (type_name (arg_type a)))) (arguments c))).
  induction l as [|n ns IH]; intros s0; cbn [fold_opt]; [eauto|].
  destruct (connections_end c (fun n H => proj1 (ti_union c T n H)) (fun n u m => ti_flat c T n u m) fuel n s0) as (s1 & ->); [|apply IH].
  unfold rank, walk_fuel in *. assert (U : unvisited c s0 <= List.length (names_of c)).
  { unfold unvisited. clear. induction (names_of c) as [|a l IH]; cbn; [lia|]. destruct (negb (smem a s0)); cbn; lia. }
  unfold names_of in U. rewrite !app_length, !map_length in U. destruct (smem n s0); [|lia]. destruct (find_union c n); lia.
Qed.
Lemma writing_ends {Args} (K : codecs Args) c fuel : tidy c -> acyclic_implements c ->
  walk_fuel c <= fuel -> List.length (implementors c) < fuel -> exists doc, config_document K fuel c = Some doc.
Proof.
  intros T Ac L1 L2. unfold config_document. destruct (interfaces_map_end c fuel Ac L2) as [m ->]. destruct (input_types_end c fuel T L1) as [s ->]. eauto.
Qed.

(** ** What is read is stored *)
Lemma viter_in {A B} (f : A -> valid B) l bs : viter f l = Ok bs -> forall b, In b bs -> exists a, In a l /\ f a = Ok b.
Proof.
  revert bs. induction l as [|a l IH]; intros bs E b I; cbn in E; [injection E as <-; destruct I|].
  destruct (f a) as [x|] eqn:Fa; destruct (viter f l) as [xs|] eqn:Fl; cbn in E; try discriminate. injection E as <-. destruct I as [<- | I].
  - exists a. split; [now left|exact Fa].
  - destruct (IH xs eq_refl b I) as (a' & J & Q). exists a'. split; [now right|exact Q].
Qed.
Lemma omap_of_in {V} (l : list (string * V)) k v : In (k, v) (omap_of scmp l) -> In (k, v) l.
Proof.
  unfold omap_of. assert (G : forall (l acc : list (string * V)), In (k, v) (fold_left (fun acc kv => oins scmp (fst kv) (snd kv) acc) l acc) -> In (k, v) l \/ In (k, v) acc).
  { clear l. induction l as [|[k' v'] l IH]; intros acc I; cbn [fold_left] in I; [auto|]. apply IH in I as [I|I]; [left; now right|].
    apply (oins_in scmp scmp_order) in I as [[-> ->]|I]; [left; now left|auto]. }
  intros I. apply G in I as [I|[]]. exact I.
Qed.
Lemma vfuse_ok {A B} (a : valid A) (b : valid B) r : vfuse a b = Ok r -> a = Ok (fst r) /\ b = Ok (snd r).
Proof. destruct a, b; cbn; try discriminate. intros E. injection E as <-. auto. Qed.
Lemma rmap_ok {A B E} (f : A -> B) (x : result A E) b : rmap f x = Ok b -> exists a, x = Ok a /\ b = f a.
Proof. destruct x; cbn; [|discriminate]. intros Q. injection Q as <-. eauto. Qed.

Section Read.
  Context {Args : Type}.
  Variable K : codecs Args.
  Hypothesis L : lawful_codecs K.

  Lemma collected_ok {A} (f : type_def Args -> valid (option A)) tds m : collected f tds = Ok m ->
    osorted scmp m /\ forall n a, In (n, a) m -> exists td, In td tds /\ f td = Ok (Some a).
  Proof.
    intros E. apply rmap_ok in E as (l & E & ->). split; [apply (osorted_omap_of scmp scmp_order)|]. intros n a I. apply omap_of_in, in_flat_map in I as ([x|] & J & I); [|destruct I].
    destruct I as [-> | []]. destruct (viter_in _ _ _ E _ J) as (td & J' & Q). exists td. split; [exact J'|]. apply rmap_ok in Q as ([y|] & Q & R); [|discriminate]. cbn in R. injection R as -> ->. exact Q.
  Qed.
  Lemma fed_kept ds l : to_federation_directives K ds = Ok l -> Forall (kept_directive K) l.
  Proof.
    intros E. apply rmap_ok in E as (x & E & ->). apply Forall_forall. intros d I. apply in_flat_map in I as ([y|] & J & I); [|destruct I]. destruct I as [-> | []].
    destruct (viter_in _ _ _ E _ J) as (dd & _ & Q). destruct (smem (d_name dd) FEDERATION_DIRECTIVES) eqn:S; [|discriminate].
    apply rmap_ok in Q as (z & Q & R). injection R as <-. unfold kept_directive. rewrite (l_other_name K L _ _ _ Q). now apply smem_In.
  Qed.
  Lemma aset_fst {V} k (v : V) m x : In x (map fst (aset k v m)) <-> x = k \/ In x (map fst m).
  Proof.
    induction m as [|[k' v'] m IH]; cbn; [intuition|]. destruct (String.eqb k k') eqn:E.
    - apply String.eqb_eq in E. subst. cbn. intuition.
    - cbn. rewrite IH. intuition.
  Qed.
  Lemma aset_nodup {V} k (v : V) m : NoDup (map fst m) -> NoDup (map fst (aset k v m)).
  Proof.
    induction m as [|[k' v'] m IH]; cbn; intros N; [repeat constructor; intros []|]. inversion N as [|? ? N1 N2]; subst. destruct (String.eqb k k') eqn:E.
    - apply String.eqb_eq in E. subst. exact N.
    - cbn. constructor; [|auto]. rewrite aset_fst. apply String.eqb_neq in E. intros [-> | I]; [congruence|auto].
  Qed.
  Lemma to_args_nodup l : NoDup (map fst (to_args K l)).
  Proof.
    unfold to_args. assert (G : forall l acc, NoDup (map fst acc) -> NoDup (map fst (fold_left (fun acc (iv : input_value Args) => aset (iv_name iv) (to_arg K iv) acc) l acc))).
    { clear l. induction l as [|a l IH]; intros acc N; cbn [fold_left]; [exact N|]. apply IH, aset_nodup, N. }
    apply G. constructor.
  Qed.
  Lemma common_stored ty doc ds args de f : NoDup (map fst args) -> to_common_field K ty doc ds args de = Ok f -> stored_field K f.
  Proof.
    intros N E. unfold to_common_field in E. apply rmap_ok in E as ([r fd] & E & ->). apply vfuse_ok in E as [_ E]. cbn in E.
    destruct r as [[[[[a b] c] d] e] g]. split; cbn; [exact N|]. eapply fed_kept; eauto.
  Qed.
  Lemma inner_stored {T} (name : T -> string) (tr : T -> valid field) fs l :
    (forall x f, tr x = Ok f -> stored_field K f) -> to_fields_inner name tr fs = Ok l ->
    osorted scmp l /\ Forall (fun nf => stored_field K (snd nf)) l.
  Proof.
    intros H E. apply rmap_ok in E as (x & E & ->). split; [apply (osorted_omap_of scmp scmp_order)|]. apply Forall_forall. intros [n f] I. apply omap_of_in in I.
    destruct (viter_in _ _ _ E _ I) as (y & _ & Q). apply rmap_ok in Q as (z & Q & R). injection R as _ ->. cbn. eauto.
  Qed.
  Lemma object_stored im fs doc ds t : to_object_type K im fs doc ds = Ok t -> stored_type K t.
  Proof.
    intros E. unfold to_object_type in E. apply rmap_ok in E as ([r fd] & E & ->). apply vfuse_ok in E as [E Ed]. cbn in E, Ed. destruct r as [[[[a b] fl] d] e].
    apply vfuse_ok in E as [E _]. apply vfuse_ok in E as [E _]. apply vfuse_ok in E as [_ Ef]. cbn in Ef.
    destruct (inner_stored _ _ _ _ (fun x f Q => common_stored _ _ _ _ _ _ (to_args_nodup _) Q) Ef) as [So Fa].
    refine (conj (conj So _) (conj (fed_kept _ _ Ed) Fa)). cbn. apply (ssorted_sextend scmp scmp_order). constructor.
  Qed.
  Lemma input_stored fs doc ds t : to_input_object K fs doc ds = Ok t -> stored_type K t.
  Proof.
    intros E. unfold to_input_object in E. apply rmap_ok in E as ([fl p] & E & ->). apply vfuse_ok in E as [Ef _]. cbn in Ef.
    destruct (inner_stored _ _ _ _ (fun x f Q => common_stored _ _ _ [] _ _ (NoDup_nil _) Q) Ef) as [So Fa].
    refine (conj (conj So _) (conj (Forall_nil _) Fa)). constructor.
  Qed.
  Lemma read_stored doc c : from_document K doc = Ok c -> stored K c.
  Proof.
    intros E. unfold from_document in E. apply rmap_ok in E as ([r te] & E & ->). apply vfuse_ok in E as [E _]. cbn in E. destruct r as [[[[[a b] ts] us] es] ls].
    apply vfuse_ok in E as [E _]. apply vfuse_ok in E as [E Ee]. apply vfuse_ok in E as [E Eu]. apply vfuse_ok in E as [_ Et]. cbn in *.
    split; cbn.
    - destruct (collected_ok _ _ _ Et) as [So H]. split; [exact So|]. intros n t I. destruct (H n t I) as (td & _ & Q). unfold to_type in Q.
      destruct (td_kind td) as [|im fs|im fs|ms|vs|fs]; try discriminate.
      + injection Q as <-. refine (conj (conj _ _) (conj (Forall_nil _) (Forall_nil _))); constructor.
      + apply rmap_ok in Q as (z & Q & R). injection R as ->. eapply object_stored; eauto.
      + apply rmap_ok in Q as (z & Q & R). injection R as ->. eapply object_stored; eauto.
      + apply rmap_ok in Q as (z & Q & R). injection R as ->. eapply input_stored; eauto.
    - destruct (collected_ok _ _ _ Eu) as [So H]. split; [exact So|]. intros n u I. destruct (H n u I) as (td & _ & Q). unfold to_union in Q.
      destruct (td_kind td); try discriminate. injection Q as <-. apply (ssorted_sextend scmp scmp_order). constructor.
    - destruct (collected_ok _ _ _ Ee) as [So H]. split; [exact So|]. intros n u I. destruct (H n u I) as (td & _ & Q). unfold to_enum in Q.
      destruct (td_kind td); try discriminate. apply rmap_ok in Q as (z & Q & R). injection R as ->. apply (ssorted_sextend vcmp vcmp_order). constructor.
  Qed.
End Read.
