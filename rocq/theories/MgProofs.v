From Coq Require Import String Ascii ZArith NArith Bool List Lia.
From Verif Require Import Base Ordered OrderedFacts JsonModel TypeModel ConfigModel MergeModel MergeSpec MergeProofs RenameModel FedModel GenModel GenSpec GenProofs OpGenModel OpGenSpec OpGenProofs MgModel MgSpec JsonProofs.
Import ListNotations.
Open Scope string_scope.
Open Scope list_scope.

(** * The containers of a sample's configuration *)
Definition wf_types_of (st : gstate) : Prop := wf_map wf_gtype (gs_types st).
Lemma wf_map_oins {V} (P : V -> Prop) k v m : wf_map P m -> P v -> wf_map P (oins scmp k v m).
Proof.
  intros [S A] H. split; [now apply (osorted_oins scmp scmp_order)|]. intros k' v' I. apply in_oins in I as [[-> ->]|I]; eauto.
Qed.
Lemma wf_with_fields fs : osorted scmp fs -> wf_gtype (with_fields fs).
Proof. intros S. split; [exact S|constructor]. Qed.
Lemma merge_field_sorted acc kf : osorted scmp acc -> osorted scmp (merge_field acc kf).
Proof. intros S. destruct kf as [k f]. unfold merge_field. destruct (oget scmp k acc); [destruct (_ || _)|]; auto; now apply (osorted_oins scmp scmp_order). Qed.
Lemma merge_fields_sorted l : osorted scmp (merge_fields l).
Proof.
  unfold merge_fields. assert (G : forall l acc, osorted scmp acc -> osorted scmp (fold_left (fun acc fs => fold_left merge_field fs acc) l acc)).
  { induction l0 as [|fs l0 IH]; intros acc S; [exact S|]. cbn. apply IH. revert acc S. induction fs as [|f fs IHf]; intros acc S; [exact S|]. cbn. apply IHf. now apply merge_field_sorted. }
  apply G. constructor.
Qed.
Section Wf.
  Variable prefix : string.
  Local Notation gen := (generate_types prefix).
  Local Notation create := (create_type_from_object gen).
  Definition gen_wf (v : value) : Prop := forall st name st', gen v st = (name, st') -> wf_types_of st -> wf_types_of st'.
  Lemma add_wf fs st name st' : add_type prefix fs st = (name, st') -> osorted scmp fs -> wf_types_of st -> wf_types_of st'.
  Proof. unfold add_type. intros E S W. injection E as _ <-. apply wf_map_oins; [exact W|now apply wf_with_fields]. Qed.
  Lemma create_wf m : Forall (fun kv => gen_wf (snd kv)) m -> forall fs st fs' st', create m fs st = (fs', st') -> osorted scmp fs -> wf_types_of st ->
    osorted scmp fs' /\ wf_types_of st'.
  Proof.
    induction 1 as [|[k v] m G _ IH]; intros fs st fs' st' E S W; [cbn in E; injection E as <- <-; auto|].
    rewrite create_cons in E. destruct (gen v st) as [name s1] eqn:E1. apply (IH _ _ _ _ E); [now apply (osorted_oins scmp scmp_order)|exact (G _ _ _ E1 W)].
  Qed.
  Lemma loop_wf l : Forall (fun v => gen_wf v /\ match v with VObj m => Forall (fun kv => gen_wf (snd kv)) m | _ => True end) l ->
    forall acc st name st', loop prefix l acc st = (name, st') -> wf_types_of st -> wf_types_of st'.
  Proof.
    induction 1 as [|v l [G M] _ IH]; intros acc st name st' E W.
    - cbn in E. destruct acc; [injection E as _ <-; exact W|]. eapply add_wf; [exact E|apply merge_fields_sorted|exact W].
    - assert (D : (exists m, v = VObj m) \/ forall m, v <> VObj m) by (destruct v; try (right; discriminate); eauto). destruct D as [[m ->]|D].
      + cbn [loop] in E. destruct (negb _); [injection E as _ <-; exact W|]. destruct (create m [] st) as [fs s1] eqn:C.
        destruct (create_wf m M _ _ _ _ C) as [_ W1]; [constructor|exact W|]. exact (IH _ _ _ _ E W1).
      + rewrite loop_not_object in E by exact D. exact (G _ _ _ E W).
  Qed.
  Lemma all_wf v : gen_wf v /\ match v with VObj m => Forall (fun kv => gen_wf (snd kv)) m | _ => True end.
  Proof.
    induction v as [| | | | |l IH|m IH] using value_ind'.
    1-5: (split; [|exact Logic.I]; intros st name st' H W; cbn in H; injection H as <- <-; exact W).
    - split; [|exact Logic.I]. intros st name st' H W. rewrite gen_list in H. exact (loop_wf l IH _ _ _ _ H W).
    - assert (G : Forall (fun kv => gen_wf (snd kv)) m) by (eapply Forall_impl; [|exact IH]; intros kv [X _]; exact X).
      split; [|exact G]. intros st name st' H W. cbn [generate_types] in H. destruct (negb _); [injection H as _ <-; exact W|].
      destruct (create m [] st) as [fs s1] eqn:C. destruct (create_wf m G _ _ _ _ C) as [S W1]; [constructor|exact W|]. exact (add_wf _ _ _ _ H S W1).
  Qed.
End Wf.

Section Sample.
  Variable is_f64 : string -> bool.
  Variable is_utf8 : string -> bool.
  Variable camel : string -> string.
  Variable http_text : gen_http -> string.
  Variable query : string.
  Variable mutation : option string.
  Variable prefix : string.
  Hypothesis Apart : roots_apart query mutation prefix.
  Local Notation directive := (generate_http_directive is_f64 is_utf8 camel).
  Local Notation one_sample := (generate_sample is_f64 is_utf8 camel http_text prefix).

  Lemma sample_wf s st h st' : one_sample s st = Some (h, st') -> wf_types_of st -> wf_types_of st'.
  Proof.
    unfold generate_sample, generate_operation. destruct (generate_types prefix (sa_answer s) st) as [name st1] eqn:G. intros E W.
    destruct (directive (sa_url s)) as [[h0 args]|]; [|discriminate].
    pose proof (proj1 (all_wf prefix _) _ _ _ G W) as W1.
    assert (Last : forall st2 f, wf_types_of st2 -> wf_types_of {| gs_next := gs_next st2; gs_types := oins scmp (root_name s) (match oget scmp (root_name s) (gs_types st2) with
        | Some t => with_field t (sa_field s) f | None => with_fields [(sa_field s, f)] end) (gs_types st2) |}).
    { intros st2 f W2. apply wf_map_oins; [exact W2|]. destruct (oget scmp (root_name s) (gs_types st2)) as [t|] eqn:O.
      - apply (oget_in scmp scmp_order) in O. destruct W2 as [_ W2]. destruct (W2 _ _ O) as [A B]. split; [now apply (osorted_oins scmp scmp_order)|exact B].
      - apply wf_with_fields. apply (osorted_oins scmp scmp_order (sa_field s) f []). constructor. }
    destruct (sa_mutation s).
    - destruct (generate_types prefix (sa_body s) st1) as [ty st2] eqn:G2. injection E as _ <-. apply Last. exact (proj1 (all_wf prefix _) _ _ _ G2 W1).
    - injection E as _ <-. now apply Last.
  Qed.

  (** ** What renaming the root does *)
  Definition moved (a b n : string) : string := if String.eqb n a then b else n.
  Lemma rename_typ_named a b t : type_name (rename_typ [(a, b)] t) = moved a b (type_name t).
  Proof.
    unfold rename_typ, moved. cbn [aget]. destruct (String.eqb_spec (type_name t) a) as [E|N]; [|reflexivity].
    induction t as [n x|t IH x]; [reflexivity|]. cbn in *. auto.
  Qed.
  Lemma renamed_types a b types n g : b = a \/ oget scmp b types = None -> oget scmp a types <> None -> oget scmp n types = Some g ->
    oget scmp (moved a b n) (map_values (rename_gtype [(a, b)]) (move a b types)) = Some (rename_gtype [(a, b)] g).
  Proof.
    intros B A G.
    assert (M : forall m k, oget scmp k (map_values (rename_gtype [(a, b)]) m) = option_map (rename_gtype [(a, b)]) (oget scmp k m)).
    { induction m as [|[x y] m IH]; intros k; [reflexivity|]. cbn. destruct (scmp k x); auto. }
    rewrite M. unfold move. destruct (oget scmp a types) as [ga|] eqn:Ea; [|congruence]. unfold moved. destruct (String.eqb_spec n a) as [->|N].
    - rewrite (oget_oins_same scmp scmp_order). cbn. congruence.
    - assert (n <> b) by (intros ->; destruct B as [B|B]; congruence).
      rewrite (oget_oins_other scmp scmp_order) by auto. rewrite (oget_odel_other scmp scmp_order) by auto. now rewrite G.
  Qed.
  Lemma renamed_back a b types k g : oget scmp a types <> None ->
    oget scmp k (map_values (rename_gtype [(a, b)]) (move a b types)) = Some g -> exists n g0, moved a b n = k /\ oget scmp n types = Some g0 /\ g = rename_gtype [(a, b)] g0.
  Proof.
    intros A.
    assert (M : forall m k, oget scmp k (map_values (rename_gtype [(a, b)]) m) = option_map (rename_gtype [(a, b)]) (oget scmp k m)).
    { induction m as [|[x y] m IH]; intros k0; [reflexivity|]. cbn. destruct (scmp k0 x); auto. }
    rewrite M. unfold move. destruct (oget scmp a types) as [ga|] eqn:Ea; [|congruence]. intros E. destruct (string_dec k b) as [->|N].
    - rewrite (oget_oins_same scmp scmp_order) in E. injection E as <-. exists a, ga. unfold moved. rewrite String.eqb_refl. auto.
    - rewrite (oget_oins_other scmp scmp_order) in E by auto. destruct (string_dec k a) as [->|N'].
      + rewrite oget_odel_same in E. discriminate.
      + rewrite (oget_odel_other scmp scmp_order) in E by auto. destruct (oget scmp k types) as [g0|] eqn:G; [|discriminate]. injection E as <-. exists k, g0.
        unfold moved. rewrite (proj2 (String.eqb_neq _ _) N'). auto.
  Qed.
  Lemma renamed_fields l t n : oget scmp n (t_fields (rename_gtype l t)) = option_map (rename_field l) (oget scmp n (t_fields t)).
  Proof. cbn. generalize (t_fields t). induction l0 as [|[x y] m IH]; [reflexivity|]. cbn. destruct (scmp n x); auto. Qed.

  Lemma rename_list a b t x : rename_typ [(a, b)] (TList t x) = TList (rename_typ [(a, b)] t) x.
  Proof. unfold rename_typ. cbn [type_name aget]. destruct (String.eqb (type_name t) a); reflexivity. Qed.
  Lemma rename_named a b n x : rename_typ [(a, b)] (TNamed n x) = TNamed (moved a b n) x.
  Proof. unfold rename_typ, moved. cbn [type_name aget]. destruct (String.eqb n a); reflexivity. Qed.
  (** Values are described as before. *)
  Lemma described_renamed a b types types' : ~ plain_scalar a ->
    (forall n g, oget scmp n types = Some g -> oget scmp (moved a b n) types' = Some (rename_gtype [(a, b)] g)) ->
    forall ty v, describes types ty v -> describes types' (rename_typ [(a, b)] ty) v.
  Proof.
    intros Na H. fix IH 3. intros ty v D.
    assert (Sc : forall n x, plain_scalar n -> rename_typ [(a, b)] (TNamed n x) = TNamed n x).
    { intros n x P. rewrite rename_named. unfold moved. destruct (String.eqb_spec n a) as [->|_]; [contradiction|reflexivity]. }
    destruct D as [n|v x|y x|z x B|s x|ty x l A|n x g m G A]; rewrite ?Sc by (cbn; auto 6); try first [apply describes_null|apply describes_json|apply describes_bool|now apply describes_int|apply describes_text].
    - rewrite rename_list. apply describes_list. intros v I. apply IH, A, I.
    - rewrite rename_named. apply describes_object with (rename_gtype [(a, b)] g); [now apply H|]. intros k v I. destruct (A k v I) as (f & F & D).
      exists (rename_field [(a, b)] f). split; [rewrite renamed_fields, F; reflexivity|]. cbn [f_type rename_field]. apply IH, D.
  Qed.
  Lemma described_more types types' :
    (forall n g, oget scmp n types = Some g -> exists g', oget scmp n types' = Some g' /\ forall k x, oget scmp k (t_fields g) = Some x -> oget scmp k (t_fields g') = Some x) ->
    forall ty v, describes types ty v -> describes types' ty v.
  Proof.
    intros H. fix IH 3. intros ty v D. destruct D as [n|v x|y x|z x B|s x|ty x l A|n x g m G A]; try first [apply describes_null|apply describes_json|apply describes_bool|now apply describes_int|apply describes_text].
    - apply describes_list. intros v I. apply IH, A, I.
    - destruct (H n g G) as (g' & G' & K). apply describes_object with g'; [exact G'|]. intros k v I. destruct (A k v I) as (f & F & D). exists f. split; [auto|]. apply IH, D.
  Qed.

  (** ** The configuration of one sample *)
  Lemma root_not_scalar s : ~ plain_scalar (root_name s).
  Proof. unfold root_name. destruct (sa_mutation s); intros [H|[H|[H|[H|[]]]]]; discriminate. Qed.
  Lemma root_suggested s : suggested query mutation s = root_of query mutation s.
  Proof. unfold suggested, root_of. destruct (sa_mutation s); reflexivity. Qed.
  Lemma root_numbered s k : numbered prefix k <> root_name s.
  Proof. destruct (Apart k) as (A & B & C & D). unfold root_name. destruct (sa_mutation s); auto. Qed.
  Lemma root_numbered' s k : numbered prefix k <> root_of query mutation s.
  Proof. destruct (Apart k) as (A & B & C & D). unfold root_of. destruct (sa_mutation s); [destruct mutation as [m|]|]; congruence. Qed.
  Definition renamed_config (s : sample) (headers : option (list string)) (types : list (string * gtype)) : config :=
    {| c_server := c_server empty_config; c_upstream := with_allowed headers (c_upstream empty_config);
       c_schema := {| r_query := if sa_mutation s then None else Some query; r_mutation := if sa_mutation s then Some (root_of query mutation s) else None;
                      r_subscription := None |};
       c_types := types; c_unions := []; c_enums := []; c_links := []; c_telemetry := c_telemetry empty_config |}.
  Lemma renamed_root s headers types g : oget scmp (root_name s) types = Some g ->
    rename_types [(root_name s, root_of query mutation s)] (sample_schema s headers types) =
    Ok (renamed_config s headers (map_values (rename_gtype [(root_name s, root_of query mutation s)]) (move (root_name s) (root_of query mutation s) types))).
  Proof.
    intros O. unfold rename_types. cbn [fold_left]. unfold rename_one. cbn [fst snd rs_types rs_enums rs_unions sample_schema c_types c_enums c_unions empty_config].
    unfold has. rewrite O. cbn [orb rs_ok rs_query rs_mutation rs_types rs_enums rs_unions rs_lookup aset sample_schema c_schema r_query r_mutation r_subscription c_server c_upstream c_links c_telemetry].
    unfold renamed_config, root_name, root_of. destruct (sa_mutation s); reflexivity.
  Qed.
  Lemma map_values_sorted {V W} (f : V -> W) m : osorted scmp m -> osorted scmp (map_values f m).
  Proof. induction 1 as [|k v m L S IH]; cbn; [constructor|]. constructor; [|exact IH]. intros k' v' I. apply in_map_iff in I as ([k0 v0] & E & I). injection E as <- _. exact (L _ _ I). Qed.
  Lemma renamed_wf l a b types : wf_map wf_gtype types -> wf_map wf_gtype (map_values (rename_gtype l) (move a b types)).
  Proof.
    intros [S A]. assert (M : wf_map wf_gtype (move a b types)).
    { unfold move. destruct (oget scmp a types) as [g|] eqn:O; [|now split]. apply wf_map_oins.
      - split; [now apply osorted_odel|]. intros k v I. apply odel_in in I. exact (A _ _ I).
      - apply (oget_in scmp scmp_order) in O. exact (A _ _ O). }
    destruct M as [S' A']. split; [now apply map_values_sorted|]. intros k v I. apply in_map_iff in I as ([k0 v0] & E & I). injection E as <- <-. destruct (A' _ _ I) as [F _].
    split; [now apply map_values_sorted|]. apply (ssorted_sextend scmp scmp_order). constructor.
  Qed.
  Lemma numbered_in lo hi n : (exists k, (lo <= k < hi)%Z /\ n = numbered prefix k) \/ (forall k, (lo <= k < hi)%Z -> n <> numbered prefix k).
  Proof.
    assert (G : forall m, (exists k, (lo <= k < lo + Z.of_nat m)%Z /\ n = numbered prefix k) \/ (forall k, (lo <= k < lo + Z.of_nat m)%Z -> n <> numbered prefix k)).
    { induction m as [|m [(k & H & E)|N]]; [right; intros k H; lia|left; exists k; split; [lia|exact E]|].
      destruct (string_dec n (numbered prefix (lo + Z.of_nat m))) as [->|D]; [left; exists (lo + Z.of_nat m)%Z; split; [lia|reflexivity]|].
      right. intros k H. destruct (Z.eq_dec k (lo + Z.of_nat m)) as [->|X]; [exact D|]. apply N. lia. }
    destruct (G (Z.to_nat (hi - lo))) as [(k & H & E)|N]; [left; exists k; split; [lia|exact E]|right; intros k H; apply N; lia].
  Qed.
  Lemma sample_ok s hs next r next' :
    sample_config is_f64 is_utf8 camel http_text query mutation prefix s hs next = Ok (r, next') ->
    wf_config r /\ (next <= next')%Z /\
    (forall t n, field_at r t n <> None -> (t = root_of query mutation s /\ n = sa_field s) \/ exists k, (next <= k < next')%Z /\ t = numbered prefix k) /\
    (forall t, oget scmp t (c_types r) <> None -> t = root_of query mutation s \/ exists k, (next <= k < next')%Z /\ t = numbered prefix k) /\
    (exists f h h0 args, field_at r (root_of query mutation s) (sa_field s) = Some f /\ directive (sa_url s) = Some (h0, args) /\
       f_resolvers f = [RHttp [] (http_text h)] /\
       (regular (sa_answer s) -> describes (c_types r) (f_type f) (sa_answer s)) /\
       gh_url h = gh_url h0 /\ gh_query h = gh_query h0 /\
       (forall k x, k <> "GEN__Input1" \/ sa_mutation s = false -> type_name (arg_type x) <> "Query" -> type_name (arg_type x) <> "Mutation" ->
          aget k args = Some x -> aget k (f_args f) = Some x) /\
       (if sa_mutation s
        then gh_method h = sa_method s /\ gh_body h = Some "{{.args.GEN__Input1}}" /\
          exists a, aget "GEN__Input1" (f_args f) = Some a /\
            (regular (sa_body s) -> (forall l, sa_body s <> VList l) -> describes (c_types r) (arg_type a) (sa_body s))
        else gh_method h = "GET" /\ gh_body h = None)) /\
    c_schema r = {| r_query := if sa_mutation s then None else Some query; r_mutation := if sa_mutation s then Some (root_of query mutation s) else None; r_subscription := None |} /\
    through_list (up_allowed_headers (c_upstream r)) (fun l => l) = match hs with Some l => sextend scmp [] l | None => [] end /\ c_links r = [].
  Proof.
    unfold sample_config. destruct (one_sample s {| gs_next := next; gs_types := [] |}) as [[h st]|] eqn:G; [|discriminate].
    assert (W : wf_types_of st) by (apply (sample_wf _ _ _ _ G); split; [constructor|intros k v []]).
    destruct (field_added is_f64 is_utf8 camel http_text prefix s _ h st G) with (root := root_name s) as (g & f & h0 & args & Dr & Og & Of & Rs & De & U & Q & As & Mu & Fs & Ln & Ot);
      [reflexivity|reflexivity|reflexivity|intros k; apply root_numbered|]. cbn [gs_next gs_types] in *.
    rewrite root_suggested in *. rewrite (renamed_root s _ _ _ Og).
    set (a := root_name s) in *. set (b := root_of query mutation s) in *.
    assert (Bn : b = a \/ oget scmp b (gs_types st) = None).
    { destruct (string_dec b a) as [->|N]; [now left|]. right. rewrite Ot; [reflexivity|exact N|]. intros k _ X. apply (root_numbered' s k). now rewrite <- X. }
    set (types' := map_values (rename_gtype [(a, b)]) (move a b (gs_types st))).
    assert (An : oget scmp a (gs_types st) <> None) by congruence.
    pose proof (fun n g0 => renamed_types a b (gs_types st) n g0 Bn An) as Fwd. fold types' in Fwd.
    pose proof (fun k g0 => renamed_back a b (gs_types st) k g0 An) as Bwd. fold types' in Bwd.
    assert (Wt : wf_map wf_gtype types') by (apply renamed_wf; exact W).
    set (r0 := renamed_config s _ types').
    assert (Wr : wf_config r0).
    { apply wf_config_split. split; [exact Wt|]. split; [split; [constructor|intros k v []]|]. split; [split; [constructor|intros k v []]|].
      split; [|exact Logic.I]. split; [|exact Logic.I]. cbn. destruct hs as [l|]; cbn; [|exact Logic.I]. apply (ssorted_sextend scmp scmp_order). constructor. }
    rewrite (m_config_empty_l r0 Wr). intros E. injection E as <- <-.
    assert (Ty : c_types (vars_in_order r0) = types') by reflexivity.
    assert (Rt : forall n, oget scmp n (gs_types st) <> None -> n = a \/ exists k, (next <= k < gs_next st)%Z /\ n = numbered prefix k).
    { intros n H. destruct (string_dec n a) as [->|N]; [now left|]. right.
      destruct (numbered_in next (gs_next st) n) as [X|X]; [exact X|]. exfalso. apply H. rewrite Ot; [reflexivity|exact N|]. intros k Hk E. apply (X k Hk E). }
    split; [|split; [|split; [|split; [|split; [|split; [|split]]]]]].
    - apply wf_config_split. apply wf_config_split in Wr. exact Wr.
    - exact Ln.
    - intros t n. unfold field_at. rewrite Ty. destruct (oget scmp t types') as [g1|] eqn:T; [|congruence]. destruct (Bwd _ _ T) as (n0 & g0 & <- & G0 & ->).
      rewrite renamed_fields. intros X. destruct (Rt n0) as [->|(k & Hk & ->)]; [congruence| |].
      + left. unfold moved. rewrite String.eqb_refl. split; [reflexivity|]. rewrite Og in G0. injection G0 as <-. destruct (string_dec n (sa_field s)) as [->|N]; [reflexivity|].
        rewrite (Fs n N) in X. cbn in X. congruence.
      + right. exists k. split; [exact Hk|]. unfold moved. rewrite (proj2 (String.eqb_neq _ _)) by apply root_numbered. reflexivity.
    - intros t. rewrite Ty. destruct (oget scmp t types') as [g1|] eqn:T; [|congruence]. destruct (Bwd _ _ T) as (n0 & g0 & <- & G0 & ->). intros _.
      destruct (Rt n0) as [->|(k & Hk & ->)]; [congruence| |].
      + left. unfold moved. now rewrite String.eqb_refl.
      + right. exists k. split; [exact Hk|]. unfold moved. rewrite (proj2 (String.eqb_neq _ _)) by apply root_numbered. reflexivity.
    - exists (rename_field [(a, b)] f), h, h0, args. split.
      { unfold field_at. rewrite Ty. pose proof (Fwd a g Og) as X. unfold moved in X. rewrite String.eqb_refl in X. rewrite X, renamed_fields, Of. reflexivity. }
      split; [exact Dr|]. split; [exact Rs|]. rewrite Ty.
      assert (Dd : forall ty v, describes (gs_types st) ty v -> describes types' (rename_typ [(a, b)] ty) v) by (apply described_renamed; [apply root_not_scalar|exact Fwd]).
      split; [intros R; apply Dd, De, R|]. split; [exact U|]. split; [exact Q|].
      assert (Ag : forall k x, aget k (f_args f) = Some x -> aget k (f_args (rename_field [(a, b)] f)) = Some (rename_arg [(a, b)] x)).
      { intros k x. cbn [f_args rename_field]. unfold map_values. generalize (f_args f). induction l as [|[x0 y] l IH]; [discriminate|]. cbn [map aget fst snd].
        destruct (String.eqb _ x0); [intros E; now injection E as ->|exact IH]. }
      split.
      { intros k x C N1 N2 E. rewrite <- (As k C) in E. rewrite (Ag k x E). f_equal. unfold rename_arg, rename_typ. cbn [aget].
        replace (String.eqb (type_name (arg_type x)) a) with false; [now destruct x|]. symmetry. apply String.eqb_neq. unfold a, root_name. now destruct (sa_mutation s). }
      destruct (sa_mutation s); [|exact Mu]. destruct Mu as (M1 & M2 & a0 & M3 & M4). split; [exact M1|]. split; [exact M2|]. exists (rename_arg [(a, b)] a0). split.
      + exact (Ag _ _ M3).
      + intros R N. apply Dd, M4; assumption.
    - cbn. reflexivity.
    - cbn. destruct hs; reflexivity.
    - reflexivity.
  Qed.

  (** ** What merging keeps *)
  Lemma field_merged l r t n : wf_config l -> wf_config r -> field_at (m_config l r) t n = match field_at r t n with Some v => Some v | None => field_at l t n end.
  Proof. exact (single_right_wins field (fun c => field_at c t n) l r (S_field t n)). Qed.
  Definition within (r c : config) : Prop :=
    (forall t, oget scmp t (c_types r) <> None -> oget scmp t (c_types c) <> None) /\ forall t n f, field_at r t n = Some f -> field_at c t n = Some f.
  Lemma within_described r c : within r c -> forall ty v, describes (c_types r) ty v -> describes (c_types c) ty v.
  Proof.
    intros [T F]. apply described_more. intros n g G. destruct (oget scmp n (c_types c)) as [g'|] eqn:G'; [|exfalso; now apply (T n); [congruence|]]. exists g'. split; [reflexivity|].
    intros k x X. specialize (F n k x). unfold field_at in F. rewrite G, G' in F. auto.
  Qed.
  Lemma type_merged l r t : wf_config l -> wf_config r -> oget scmp t (c_types l) <> None \/ oget scmp t (c_types r) <> None -> oget scmp t (c_types (m_config l r)) <> None.
  Proof.
    intros Wl Wr H. pose proof (find_type_merge l r t Wr) as E. unfold find_type in E. rewrite E. destruct (oget scmp t (c_types l)), (oget scmp t (c_types r)); cbn; try discriminate.
    destruct H; congruence.
  Qed.
  Lemma right_within l r : wf_config l -> wf_config r -> within r (m_config l r).
  Proof. intros Wl Wr. split; [intros t H; apply type_merged; auto|]. intros t n f H. now rewrite field_merged, H. Qed.

  Local Notation from := (generate_from is_f64 is_utf8 camel http_text query mutation prefix).
  Lemma from_app a b c next : from (a ++ b) c next = match from a c next with Ok (c1, n1) => from b c1 n1 | Err e => Err e end.
  Proof.
    revert c next. induction a as [|[s hs|[r|e]] a IH]; intros c next; cbn; [reflexivity| |apply IH|reflexivity].
    destruct (sample_config _ _ _ _ _ _ _ s hs next) as [[r n]|]; [apply IH|reflexivity].
  Qed.
  (** Fields of a configuration that nobody gives later are kept. *)
  Lemma from_kept sources : forall c next c' next', from sources c next = Ok (c', next') -> wf_config c -> (forall src, In src sources -> apart prefix src) ->
    wf_config c' /\ (next <= next')%Z /\
    (forall t, oget scmp t (c_types c) <> None -> oget scmp t (c_types c') <> None) /\
    (forall t n f, field_at c t n = Some f -> (forall src, In src sources -> ~ gives query mutation src t n) -> (forall k, (next <= k)%Z -> t <> numbered prefix k) -> field_at c' t n = Some f).
  Proof.
    induction sources as [|[s hs|[r|e]] sources IH]; intros c next c' next' E W A; cbn in E.
    - injection E as <- <-. split; [exact W|]. split; [lia|]. auto.
    - destruct (sample_config _ _ _ _ _ _ _ s hs next) as [[r n]|] eqn:S; [|discriminate]. apply sample_ok in S. destruct S as (Wr & L & Fr & Tr & _).
      apply IH in E; [|now apply m_config_closed|intros; apply A; now right]. destruct E as (W' & L' & T' & F'). split; [exact W'|]. split; [lia|]. split.
      + intros t H. apply T'. apply type_merged; auto.
      + intros t k f H G N. apply F'; [|intros src I; apply G; now right|intros j Hj; apply N; lia]. rewrite field_merged by assumption.
        destruct (field_at r t k) as [x|] eqn:X; [|exact H]. exfalso. destruct (Fr t k) as [[-> ->]|(j & Hj & ->)]; [congruence| |].
        * apply (G (SSample s hs)); [now left|]. split; reflexivity.
        * apply (N j); [lia|reflexivity].
    - pose proof (A _ (or_introl eq_refl)) as [Wr Nr]. apply IH in E; [|now apply m_config_closed|intros; apply A; now right]. destruct E as (W' & L' & T' & F').
      split; [exact W'|]. split; [exact L'|]. split.
      + intros t H. apply T'. apply type_merged; auto.
      + intros t k f H G N. apply F'; [|intros src I; apply G; now right|exact N]. rewrite field_merged by assumption.
        destruct (field_at r t k) as [x|] eqn:X; [|exact H]. exfalso. apply (G (SConfig (Ok r))); [now left|]. cbn. congruence.
    - discriminate.
  Qed.
  Lemma empty_wf : wf_config empty_config.
  Proof. apply wf_config_split. do 3 (split; [split; [apply osorted_nil|intros k v []]|]). split; [split|]; exact Logic.I. Qed.
  Local Notation whole := (fun sources c => generate is_f64 is_utf8 camel http_text query mutation prefix sources [] false = Ok c).
  Lemma whole_split before src after c : whole (before ++ src :: after) c -> (forall x, In x (before ++ src :: after) -> apart prefix x) ->
    exists c1 n1 c2 n2 n3, wf_config c1 /\ from [src] c1 n1 = Ok (c2, n2) /\ wf_config c2 /\ from after c2 n2 = Ok (c, n3) /\ (forall x, In x after -> apart prefix x).
  Proof.
    intros E A. unfold generate in E. destruct (from (before ++ src :: after) empty_config 1) as [[c0 n0]|] eqn:F; [|discriminate]. injection E as ->.
    rewrite from_app in F. destruct (from before empty_config 1) as [[c1 n1]|] eqn:F1; [|discriminate].
    change (src :: after) with ([src] ++ after) in F. rewrite from_app in F. destruct (from [src] c1 n1) as [[c2 n2]|] eqn:F2; [|discriminate].
    apply from_kept in F1; [|apply empty_wf|intros x I; apply A, in_or_app; now left]. destruct F1 as (W1 & _).
    exists c1, n1, c2, n2, n0. split; [exact W1|]. split; [exact F2|]. split; [|split; [exact F|intros x I; apply A, in_or_app; right; now right]].
    apply from_kept in F2; [apply F2|exact W1|]. intros x [<-|[]]. apply A, in_or_app. right. now left.
  Qed.

  Lemma sample_answered before s hs after c : whole (before ++ SSample s hs :: after) c ->
    (forall x, In x (before ++ SSample s hs :: after) -> apart prefix x) ->
    (forall x, In x after -> ~ gives query mutation x (root_of query mutation s) (sa_field s)) ->
    exists f h h0 args, field_at c (root_of query mutation s) (sa_field s) = Some f /\ directive (sa_url s) = Some (h0, args) /\
       f_resolvers f = [RHttp [] (http_text h)] /\
       (regular (sa_answer s) -> describes (c_types c) (f_type f) (sa_answer s)) /\
       gh_url h = gh_url h0 /\ gh_query h = gh_query h0 /\
       (forall k x, k <> "GEN__Input1" \/ sa_mutation s = false -> type_name (arg_type x) <> "Query" -> type_name (arg_type x) <> "Mutation" ->
          aget k args = Some x -> aget k (f_args f) = Some x) /\
       (if sa_mutation s
        then gh_method h = sa_method s /\ gh_body h = Some "{{.args.GEN__Input1}}" /\
          exists a, aget "GEN__Input1" (f_args f) = Some a /\
            (regular (sa_body s) -> (forall l, sa_body s <> VList l) -> describes (c_types c) (arg_type a) (sa_body s))
        else gh_method h = "GET" /\ gh_body h = None).
  Proof.
    intros E A N. destruct (whole_split _ _ _ _ E A) as (c1 & n1 & c2 & n2 & n3 & W1 & S & W2 & F & A'). cbn in S.
    destruct (sample_config _ _ _ _ _ _ _ s hs n1) as [[r n]|] eqn:Sc; [|discriminate]. injection S as <- <-. apply sample_ok in Sc.
    destruct Sc as (Wr & L & Fr & Tr & (f & h & h0 & args & Ff & D & R & De & U & Q & Ar & Mu) & _).
    assert (In' : within r c).
    { destruct (right_within c1 r W1 Wr) as [T0 F0]. apply from_kept in F; [|exact W2|exact A']. destruct F as (_ & _ & T & K). split; [auto|].
      intros t k x X. apply K; [now apply F0| |].
      - intros src I G. destruct (Fr t k) as [[-> ->]|(j & Hj & ->)]; [congruence|exact (N src I G)|]. specialize (A' src I). destruct src as [s' hs'|[c'|e']]; cbn in G, A'.
        + destruct G as [G _]. exact (root_numbered' s' j (eq_sym G)).
        + apply G. apply A'.
        + exact G.
      - intros j Hj ->. destruct (Fr (numbered prefix j) k) as [[B _]|(i & Hi & B)]; [congruence|exact (root_numbered' s j B)|]. apply nm_inj in B. lia. }
    pose proof (within_described r c In') as Dd. exists f, h, h0, args. split; [apply (proj2 In'); exact Ff|]. split; [exact D|]. split; [exact R|]. split; [intros X; apply Dd, De, X|].
    split; [exact U|]. split; [exact Q|]. split; [exact Ar|]. destruct (sa_mutation s); [|exact Mu]. destruct Mu as (M1 & M2 & a & M3 & M4). split; [exact M1|]. split; [exact M2|].
    exists a. split; [exact M3|]. intros X Y. apply Dd, M4; assumption.
  Qed.

  Lemma file_kept before r after c : whole (before ++ SConfig (Ok r) :: after) c -> (forall x, In x (before ++ SConfig (Ok r) :: after) -> apart prefix x) ->
    forall t n f, field_at r t n = Some f -> (forall x, In x after -> ~ gives query mutation x t n) -> field_at c t n = Some f.
  Proof.
    intros E A t n f X N. assert (Ar : apart prefix (SConfig (Ok r))) by (apply A, in_or_app; right; now left). destruct Ar as [Wr Nr].
    destruct (whole_split _ _ _ _ E A) as (c1 & n1 & c2 & n2 & n3 & W1 & S & W2 & F & A'). cbn in S. injection S as <- <-.
    apply from_kept in F; [|exact W2|exact A']. destruct F as (_ & _ & _ & K). apply K; [|exact N|].
    - apply (proj2 (right_within c1 r W1 Wr)). exact X.
    - intros k _ ->. rewrite Nr in X. discriminate.
  Qed.

  (** ** Lists, sets and roots *)
  Lemma from_lists sources : forall c next c' next', from sources c next = Ok (c', next') -> wf_config c -> (forall src, In src sources -> apart prefix src) ->
    c_links c' = c_links c ++ concat (map links_of sources) /\
    (forall h, In h (through_list (up_allowed_headers (c_upstream c')) (fun l => l)) <->
       In h (through_list (up_allowed_headers (c_upstream c)) (fun l => l)) \/ exists src, In src sources /\ In h (headers_of src)).
  Proof.
    induction sources as [|[s hs|[r|e]] sources IH]; intros c next c' next' E W A; cbn in E.
    - injection E as <- <-. cbn. rewrite app_nil_r. split; [reflexivity|]. intros h. split; [auto|]. intros [H|(src & [] & _)]. exact H.
    - destruct (sample_config _ _ _ _ _ _ _ s hs next) as [[r n]|] eqn:S; [|discriminate]. apply sample_ok in S. destruct S as (Wr & _ & _ & _ & _ & _ & Hd & Lk).
      apply IH in E; [|now apply m_config_closed|intros; apply A; now right]. destruct E as [E1 E2]. rewrite (listed_concatenated _ _ _ _ L_links W Wr), Lk, app_nil_r in E1.
      split; [exact E1|]. intros h. rewrite E2. rewrite (collected_united _ _ _ _ h C_allowed W Wr). cbv beta. rewrite Hd. split.
      + intros [[H|H]|(src & I & H)]; [now left| |right; exists src; split; [now right|exact H]]. right. exists (SSample s hs). split; [now left|]. cbn. destruct hs as [l|]; [|destruct H].
        apply (sextend_in scmp scmp_order) in H. destruct H as [[]|H]. exact H.
      + intros [H|(src & [<-|I] & H)]; [auto| |right; eauto]. left. right. cbn in H. destruct hs as [l|]; [|destruct H]. apply (sextend_in scmp scmp_order). now right.
    - pose proof (A _ (or_introl eq_refl)) as [Wr Nr]. apply IH in E; [|now apply m_config_closed|intros; apply A; now right]. destruct E as [E1 E2].
      rewrite (listed_concatenated _ _ _ _ L_links W Wr) in E1. split; [rewrite E1, <- app_assoc; reflexivity|]. intros h. rewrite E2.
      rewrite (collected_united _ _ _ _ h C_allowed W Wr). cbv beta. split.
      + intros [[H|H]|(src & I & H)]; [now left| |right; exists src; split; [now right|exact H]]. right. exists (SConfig (Ok r)). split; [now left|]. cbn. unfold through_list in H.
        destruct (up_allowed_headers (c_upstream r)); exact H.
      + intros [H|(src & [<-|I] & H)]; [auto| |right; eauto]. left. right. cbn in H. unfold through_list. destruct (up_allowed_headers (c_upstream r)); exact H.
    - discriminate.
  Qed.
  Lemma whole_lists sources c : whole sources c -> (forall src, In src sources -> apart prefix src) ->
    c_links c = concat (map links_of sources) /\
    (forall h, In h (through_list (up_allowed_headers (c_upstream c)) (fun l => l)) <-> exists src, In src sources /\ In h (headers_of src)).
  Proof.
    intros E A. unfold generate in E. destruct (from sources empty_config 1) as [[c0 n0]|] eqn:F; [|discriminate]. injection E as ->.
    apply from_lists in F; [|apply empty_wf|exact A]. destruct F as [F1 F2]. split; [exact F1|]. intros h. rewrite F2. cbn. intuition auto.
  Qed.
  Lemma root_merged m l r : wf_config l -> wf_config r -> root_named m (m_config l r) = match root_named m r with Some v => Some v | None => root_named m l end.
  Proof.
    destruct m; [exact (single_right_wins _ _ l r S_mutation)|exact (single_right_wins _ _ l r S_query)].
  Qed.
  Lemma from_root m sources : forall c next c' next' root, from sources c next = Ok (c', next') -> wf_config c -> (forall src, In src sources -> apart prefix src) ->
    root_named m c = Some root ->
    (forall r, In (SConfig (Ok r)) sources -> root_named m r = None \/ root_named m r = Some root) ->
    (forall s hs, In (SSample s hs) sources -> sa_mutation s = m -> root_of query mutation s = root) -> root_named m c' = Some root.
  Proof.
    induction sources as [|[s hs|[r|e]] sources IH]; intros c next c' next' root E W A R C S; cbn in E.
    - injection E as <- <-. exact R.
    - destruct (sample_config _ _ _ _ _ _ _ s hs next) as [[r n]|] eqn:Sc; [|discriminate]. apply sample_ok in Sc. destruct Sc as (Wr & _ & _ & _ & _ & Ro & _).
      eapply IH; [exact E|now apply m_config_closed|intros; apply A; now right| |intros; apply C; now right|intros s' hs' I; apply (S s' hs'); now right].
      rewrite root_merged by assumption. specialize (S s hs (or_introl eq_refl)). unfold root_named. rewrite Ro. cbn [r_query r_mutation]. revert S. unfold root_of.
      destruct (sa_mutation s), m; intros S; try exact R; now rewrite S.
    - pose proof (A _ (or_introl eq_refl)) as [Wr Nr].
      eapply IH; [exact E|now apply m_config_closed|intros; apply A; now right| |intros; apply C; now right|intros s' hs' I; apply (S s' hs'); now right].
      rewrite root_merged by assumption. destruct (C r (or_introl eq_refl)) as [-> | ->]; [exact R|reflexivity].
    - discriminate.
  Qed.
  Lemma whole_root before s hs after c : whole (before ++ SSample s hs :: after) c -> (forall x, In x (before ++ SSample s hs :: after) -> apart prefix x) ->
    (forall r, In (SConfig (Ok r)) after -> root_named (sa_mutation s) r = None \/ root_named (sa_mutation s) r = Some (root_of query mutation s)) ->
    root_named (sa_mutation s) c = Some (root_of query mutation s).
  Proof.
    intros E A C. destruct (whole_split _ _ _ _ E A) as (c1 & n1 & c2 & n2 & n3 & W1 & S & W2 & F & A'). cbn in S.
    destruct (sample_config _ _ _ _ _ _ _ s hs n1) as [[r n]|] eqn:Sc; [|discriminate]. injection S as <- <-. apply sample_ok in Sc. destruct Sc as (Wr & _ & _ & _ & _ & Ro & _).
    eapply from_root; [exact F|exact W2|exact A'| |exact C|].
    - rewrite root_merged by assumption. unfold root_named. rewrite Ro. cbn [r_query r_mutation]. unfold root_of. destruct (sa_mutation s); reflexivity.
    - intros s' hs' _ M. unfold root_of. now rewrite M.
  Qed.

  (** ** When it succeeds *)
  Lemma sample_succeeds s hs next : (exists r, sample_config is_f64 is_utf8 camel http_text query mutation prefix s hs next = Ok r) <-> directive (sa_url s) <> None.
  Proof.
    unfold sample_config. destruct (one_sample s {| gs_next := next; gs_types := [] |}) as [[h st]|] eqn:G.
    - destruct (field_added is_f64 is_utf8 camel http_text prefix s _ h st G) with (root := root_name s) as (g & f & h0 & args & Dr & Og & _);
        [reflexivity|reflexivity|reflexivity|intros k; apply root_numbered|]. cbn [gs_types] in *. rewrite root_suggested, (renamed_root s _ _ _ Og). split; [congruence|eauto].
    - split; [intros [r X]; discriminate|]. intros X. exfalso. revert G. unfold generate_sample, generate_operation. destruct (generate_types prefix (sa_answer s) _) as [name st1].
      destruct (directive (sa_url s)) as [[h0 args]|]; [|congruence]. destruct (sa_mutation s); [destruct (generate_types _ _ _)|]; discriminate.
  Qed.
  Lemma from_succeeds sources : forall c next, (exists r, from sources c next = Ok r) <->
    forall src, In src sources -> match src with SSample s _ => directive (sa_url s) <> None | SConfig (Ok _) => True | SConfig (Err _) => False end.
  Proof.
    induction sources as [|[s hs|[r|e]] sources IH]; intros c next; cbn.
    - split; [intros _ src []|eauto].
    - pose proof (sample_succeeds s hs next) as P. destruct (sample_config _ _ _ _ _ _ _ s hs next) as [[r n]|] eqn:S.
      + rewrite IH. split; [intros H src [<-|I]; [apply P; eauto|now apply H]|intros H src I; apply H; now right].
      + split; [intros [x X]; discriminate|]. intros H. destruct (proj2 P) as [x X]; [exact (H _ (or_introl eq_refl))|discriminate].
    - rewrite IH. split; [intros H src [<-|I]; [exact Logic.I|now apply H]|intros H src I; apply H; now right].
    - split; [intros [x X]; discriminate|]. intros H. destruct (H _ (or_introl eq_refl)).
  Qed.

  Lemma transform_steps ts : forall c r, transform_all ts c = Ok r <-> transformed ts c r.
  Proof.
    induction ts as [|t ts IH]; intros c r; cbn; split; intros H.
    - injection H as <-. constructor.
    - inversion H. reflexivity.
    - destruct (t c) as [c1|] eqn:E; [|discriminate]. apply IH in H. econstructor; eauto.
    - inversion H as [|t' ts' c' c1 r' E R]; subst. rewrite E. now apply IH.
  Qed.
End Sample.
