(** Proofs for C63 to C65. *)
From Coq Require Import String Ascii ZArith NArith Arith Bool Lia List.
From Verif Require Import Base BaseFacts Ordered OrderedFacts JsonModel TypeModel ConfigModel AuthModel
  DiscModel IrModel ScalarModel ComposeModel ComposeProofs CtxModel FieldModel FieldSpec FieldProofs.
Import ListNotations.
Open Scope string_scope.
Open Scope list_scope.

Lemma traced_ok {A E} (x : checked A E) s a : traced x s = Ok a <-> x = Ok a.
Proof. destruct x; cbn; split; congruence. Qed.
Lemma trace_ok {I E O} (a : try_fold I E O) s i o o' : trace a s i o = Ok o' <-> a i o = Ok o'.
Proof. apply traced_ok. Qed.

Lemma aget_held (members : list (string * value)) n :
  held members n (match aget n members with Some v => v | None => VNull end).
Proof.
  destruct (aget n members) as [v|] eqn:E.
  - left. induction members as [|[k w] rest IH]; cbn in E; [discriminate|].
    destruct (String.eqb_spec n k) as [<- | D].
    + injection E as ->. exists [], rest. auto.
    + destruct (IH E) as (b & a & -> & N). exists ((k, w) :: b), a. split; [reflexivity|].
      cbn; intros [K | K]; [congruence|auto].
  - right. split; [|reflexivity]. now apply aget_None in E.
Qed.

Lemma all_checked_ok {A B} (f : A -> valid B) l l' :
  all_checked f l = Ok l' <-> Forall2 (fun a b => f a = Ok b) l l'.
Proof.
  revert l'. induction l as [|a l IH]; intros l'; cbn.
  - split; [intros E; injection E as <-; constructor|]. intros K; inversion K. reflexivity.
  - destruct (f a) as [b|e] eqn:F.
    + destruct (all_checked f l) as [bs|e] eqn:A2.
      * split.
        -- intros E; injection E as <-. constructor; [exact F|]. now apply IH.
        -- intros K. inversion K as [|x y xs ys H1 H2]; subst. apply IH in H2. congruence.
      * split; [discriminate|]. intros K. inversion K as [|x y xs ys H1 H2]; subst. apply IH in H2. congruence.
    + split; [destruct (all_checked f l); discriminate|]. intros K. inversion K as [|x y xs ys H1 H2]; subst. congruence.
Qed.

(** Wrapping an expression in conversions that run after it. *)
Inductive after {IO} : (ir IO -> ir IO) -> Prop :=
| A_id : after (fun e => e)
| A_map : forall w m, after w -> after (fun e => IMap (w e) m)
| A_disc : forall w k, after w -> after (fun e => IDiscriminate k (w e)).

Section Defs.
  Context {IO : Type}.
  Variable compile : string -> field -> resolver -> valid (option (ir IO)).
  Variable valid_templates : gtype -> fdef IO -> valid unit.
  Variable m : cmodule.
  Local Notation c := (m_config m).
  Local Notation define := (to_field_definition compile valid_templates m).

  (** The definition, step by step. *)
  Lemma define_steps object t f name d :
    define object t f name = Ok d <->
    let i := {| i_object := object; i_field := f; i_type := t; i_name := name |} in
    exists rs d1 d2 d5 d7,
      all_checked (compile object f) (f_resolvers f) = Ok rs /\
      d1 = {| d_name := name; d_args := f_args f; d_type := f_type f; d_resolver := composed rs |} /\
      valid_templates t d1 = Ok tt /\
      update_modify m i d1 = Ok d2 /\
      (exists d4, d4 = match (match f_cache f with Some a => Some a | None => t_cache t end) with
                       | Some age =>
                           let d3 := if negb (has_resolver (f_resolvers f)) && all_resolved m f
                                     then with_resolver (Some (IDynamic (DValue (VObj [])))) d2 else d2 in
                           with_resolver (option_map (cache_wrap age) (d_resolver d3)) d3
                       | None => if negb (has_resolver (f_resolvers f)) && all_resolved m f
                                 then with_resolver (Some (IDynamic (DValue (VObj [])))) d2 else d2
                       end /\
         update_protected m i d4 = Ok d5) /\
      (exists d6, d6 = match find_enum c (type_name (f_type f)) with
                       | Some e => with_resolver (with_aliases (map (fun v => {| n_name := fst v; n_alias := snd v |}) (e_variants e)) (d_resolver d5)) d5
                       | None => d5
                       end /\
         update_union_resolver m i d6 = Ok d7) /\
      update_interface_resolver m i d7 = Ok d.
  Proof.
    cbv zeta. unfold to_field_definition. rewrite and_ok. split.
    - intros (d7 & H & HI). apply and_ok in H. destruct H as (d6 & H & HU).
      apply and_ok in H. destruct H as (d5 & H & HE).
      apply and_ok in H. destruct H as (d4 & H & HP).
      apply and_ok in H. destruct H as (d3 & H & HC).
      apply and_ok in H. destruct H as (d2 & H & HD).
      apply and_ok in H. destruct H as (d1 & H & HM).
      apply and_ok in H. destruct H as (d0 & HA & HR).
      apply trace_ok in HM. apply trace_ok in HP.
      unfold update_args in HA. cbn in HA. injection HA as <-.
      unfold update_resolver in HR. cbn in HR.
      destruct (all_checked (compile object f) (f_resolvers f)) as [rs|e] eqn:ER; cbn in HR; [|discriminate].
      destruct (valid_templates t _) as [[]|e] eqn:EV in HR; cbn in HR; [|discriminate]. injection HR as <-.
      unfold fix_dangling_resolvers in HD. cbn in HD. injection HD as <-.
      unfold update_cache_resolvers in HC. cbn in HC. injection HC as HC.
      unfold update_enum_alias in HE. cbn in HE. injection HE as HE.
      exists rs. eexists. exists d2, d5, d7. split; [reflexivity|]. split; [reflexivity|].
      split; [exact EV|]. split; [exact HM|]. split; [exists d4; split; [symmetry|]; assumption|].
      split; [exists d6; split; [symmetry|]; assumption|]. exact HI.
    - intros (rs & d1 & d2 & d5 & d7 & ER & -> & EV & HM & (d4 & -> & HP) & (d6 & -> & HU) & HI).
      exists d7. split; [|exact HI]. apply and_ok. eexists. split; [|exact HU].
      apply and_ok. exists d5. split; [|reflexivity].
      apply and_ok. eexists. split; [|apply trace_ok; exact HP].
      apply and_ok. eexists. split; [|reflexivity].
      apply and_ok. exists d2. split; [|reflexivity].
      apply and_ok. eexists. split; [|apply trace_ok; exact HM].
      apply and_ok. eexists. split; [reflexivity|].
      unfold update_resolver. cbn. rewrite ER. cbn. unfold with_resolver. cbn. rewrite EV. reflexivity.
  Qed.

  Lemma resolved_iff f : all_resolved m f = true <-> f_resolvers f <> [] \/ (f_resolvers f = [] /\ ~ needs_data c f).
  Proof.
    unfold all_resolved, field_checked.
    destruct (has_resolver (f_resolvers f)) eqn:HR.
    - split; [|reflexivity]. intros _. left. intros K. rewrite K in HR. discriminate.
    - apply has_resolver_nil in HR. unfold needs_data, find_type.
      destruct (oget scmp (type_name (f_type f)) (c_types c)) as [ty|] eqn:ET.
      + destruct (enough (c_types c) _ ty [] ET) as [[failed V] E]. unfold levels. rewrite E.
        destruct (type_checked_exact _ _ _ _ _ _ ET E) as [P _]. rewrite (stuck_iff c) in P.
        destruct failed as [|g rest].
        * split; [|reflexivity]. intros _. right. split; [exact HR|]. intros (_ & [K | K]); [discriminate|].
          now apply P in K.
        * split; [discriminate|]. intros [K | (_ & K)]; [contradiction|].
          exfalso. assert (G : ~ dead_end c (type_name (f_type f))) by (intros D; apply K; auto).
          apply P in G. discriminate.
      + split; [discriminate|]. intros [K | (_ & K)]; [contradiction|]. exfalso. apply K. auto.
  Qed.

  Lemma needs_not_resolved f : needs_data c f -> all_resolved m f = false.
  Proof.
    intros N. destruct (all_resolved m f) eqn:E; [|reflexivity]. apply resolved_iff in E.
    destruct N as [R N]. destruct E as [E | (_ & E)]; [contradiction|]. exfalso. apply E. split; auto.
  Qed.

  Lemma protected_iff object t f name :
    is_protected_field m {| i_object := object; i_field := f; i_type := t; i_name := name |} = true <-> marked m t f.
  Proof.
    unfold is_protected_field, marked. cbn.
    destruct (f_protected f) as [p|].
    - split; [|reflexivity]. intros _. left. discriminate.
    - destruct (t_protected t) as [p|].
      + split; [|reflexivity]. intros _. right. left. discriminate.
      + destruct (find_type c (type_name (f_type f))) as [out|].
        * destruct (t_protected out) as [p|] eqn:E.
          -- split; [|reflexivity]. intros _. right. right. exists out. split; [reflexivity|]. congruence.
          -- split; [discriminate|]. intros [K | [K | (o & K1 & K2)]]; [congruence|congruence|].
             injection K1 as <-. congruence.
        * split; [discriminate|]. intros [K | [K | (o & K1 & K2)]]; congruence.
  Qed.

  (** Names and types. *)
  Lemma update_modify_ok i (d d' : fdef IO) : update_modify m i d = Ok d' ->
    (exists new, renamed (i_field i) new /\ d' = with_name new (with_resolver (Some (or_own_value d)) d)) \/
    ((forall new, ~ renamed (i_field i) new) /\ d' = d).
  Proof.
    unfold update_modify, renamed. destruct (f_modify (i_field i)) as [[[new|] om]|] eqn:E.
    - destruct (existsb _ _); [discriminate|]. intros K. injection K as <-. left. exists new. split; [|reflexivity].
      eexists. split; reflexivity.
    - intros K. injection K as <-. right. split; [|reflexivity]. intros new (mo & A & B). injection A as <-. discriminate.
    - intros K. injection K as <-. right. split; [|reflexivity]. intros new (mo & A & B). discriminate.
  Qed.

  Lemma discriminated_ok types i (d d' : fdef IO) : discriminated types i d = Ok d' ->
    exists k, d' = with_resolver (Some (IDiscriminate k (or_own_value d))) d.
  Proof.
    unfold discriminated. destruct (new_discriminator _ _) as [k|e]; [|discriminate].
    intros K. injection K as <-. eauto.
  Qed.

  (** The steps after the check of authorization only wrap an expression that is there. *)
  Lemma tail_wraps i (d5 d6 d7 d : fdef IO) e :
    d_resolver d5 = Some e ->
    d6 = match find_enum c (type_name (f_type (i_field i))) with
         | Some en => with_resolver (with_aliases (map (fun v => {| n_name := fst v; n_alias := snd v |}) (e_variants en)) (d_resolver d5)) d5
         | None => d5
         end ->
    update_union_resolver m i d6 = Ok d7 -> update_interface_resolver m i d7 = Ok d ->
    exists w, after w /\ d_resolver d = Some (w e).
  Proof.
    intros E -> HU HI.
    assert (S6 : exists w, after w /\ d_resolver (match find_enum c (type_name (f_type (i_field i))) with
         | Some en => with_resolver (with_aliases (map (fun v => {| n_name := fst v; n_alias := snd v |}) (e_variants en)) (d_resolver d5)) d5
         | None => d5
         end) = Some (w e)).
    { destruct (find_enum c _) as [en|].
      - cbn. unfold with_aliases. rewrite E. destruct (has_alias _).
        + eexists. split; [apply A_map; apply A_id|]. reflexivity.
        + eexists. split; [apply A_id|]. reflexivity.
      - exists (fun e => e). split; [constructor|exact E]. }
    destruct S6 as (w6 & W6 & E6). revert HU E6.
    generalize (match find_enum c (type_name (f_type (i_field i))) with
         | Some en => with_resolver (with_aliases (map (fun v => {| n_name := fst v; n_alias := snd v |}) (e_variants en)) (d_resolver d5)) d5
         | None => d5
         end) as d6. intros d6 HU E6.
    assert (S7 : exists w, after w /\ d_resolver d7 = Some (w e)).
    { unfold update_union_resolver in HU. destruct (find_union c _) as [u|].
      - apply discriminated_ok in HU. destruct HU as (k & ->). cbn. unfold or_own_value. rewrite E6.
        eexists. split; [apply A_disc; exact W6|]. reflexivity.
      - injection HU as <-. eauto. }
    destruct S7 as (w7 & W7 & E7).
    unfold update_interface_resolver in HI. destruct (aget _ (m_interfaces m)) as [ts|].
    - apply discriminated_ok in HI. destruct HI as (k & ->). cbn. unfold or_own_value. rewrite E7.
      eexists. split; [apply A_disc; exact W7|]. reflexivity.
    - injection HI as <-. eauto.
  Qed.

  Section Eval.
    Context {F Key St : Type}.
    Variable rx : req_ext.
    Variable ext : auth_ext.
    Variable req : request.
    Variable do_io : IO -> ctx -> St -> result value F * St.
    Variable cache_key : IO -> ctx -> option Key.
    Variable cache_get : Key -> St -> result (option value) F * St.
    Variable cache_set : Key -> value -> Z -> St -> result unit F * St.
    Local Notation ev := (eval rx ext req do_io cache_key cache_get cache_set).
    Local Notation dl := (deliver rx ext req do_io cache_key cache_get cache_set).

    Lemma after_err w : after w -> forall e x st er st', ev e x st = (Err er, st') -> ev (w e) x st = (Err er, st').
    Proof.
      intros W. induction W as [|w m' W IH|w k W IH]; intros e x st er st' E; cbn; [exact E| |].
      - now rewrite (IH _ _ _ _ _ E).
      - now rewrite (IH _ _ _ _ _ E).
    Qed.
    Lemma after_same w : after w -> forall e e' x st, ev e x st = ev e' x st -> ev (w e) x st = ev (w e') x st.
    Proof.
      intros W. induction W as [|w m' W IH|w k W IH]; intros e e' x st E; cbn; [exact E| |].
      - now rewrite (IH _ _ _ _ E).
      - now rewrite (IH _ _ _ _ E).
    Qed.

    Lemma context_path_value n x members : c_over_value x = None -> c_value x = Some (VObj members) ->
      forall st, ev (IContextPath [n]) x st = (Ok (match aget n members with Some v => v | None => VNull end), st).
    Proof.
      intros O V st. cbn. unfold path_value. rewrite O, V. cbn. destruct (aget n members); reflexivity.
    Qed.

    (** C63 *)
    Lemma plain_field object t f name d :
      define object t f name = Ok d -> needs_data c f -> ~ marked m t f ->
      plain_type m f ->
      (renamed f (d_name d) \/ ((forall new, ~ renamed f new) /\ d_name d = name)) /\
      d_args d = f_args f /\ d_type d = f_type f /\
      forall parent members st, c_over_value parent = None -> c_value parent = Some (VObj members) ->
        exists v, held members name v /\ dl d parent st = (Ok v, st).
    Proof.
      intros H N U (HU & HI & HE). apply aget_None in HI. apply define_steps in H. cbn in H.
      destruct H as (rs & d1 & d2 & d5 & d7 & ER & -> & EV & HM & (d4 & E4 & HP) & (d6 & E6 & H7) & H8).
      rewrite (needs_not_resolved f N), andb_false_r in E4.
      destruct N as [R N]. rewrite R in ER. cbn in ER. injection ER as <-.
      unfold update_protected in HP.
      destruct (is_protected_field _ _) eqn:EP in HP; [apply protected_iff in EP; contradiction|].
      injection HP as <-. rewrite HE in E6. subst d6.
      unfold update_union_resolver in H7. cbn in H7. rewrite HU in H7. injection H7 as <-.
      unfold update_interface_resolver in H8. cbn in H8. rewrite HI in H8. injection H8 as <-.
      apply update_modify_ok in HM. cbn in HM.
      assert (K : exists n, (renamed f n \/ ((forall new, ~ renamed f new) /\ n = name)) /\
                (d4 = {| d_name := n; d_args := f_args f; d_type := f_type f; d_resolver := Some (IContextPath [name]) |} \/
                 (n = name /\ d4 = {| d_name := n; d_args := f_args f; d_type := f_type f; d_resolver := None |}))).
      { destruct HM as [(new & RN & ->) | (NR & ->)].
        - exists new. split; [auto|]. left. unfold or_own_value in E4. cbn in E4.
          destruct (match f_cache f with Some a => Some a | None => t_cache t end); exact E4.
        - exists name. split; [auto|]. right. split; [reflexivity|].
          cbn in E4. destruct (match f_cache f with Some a => Some a | None => t_cache t end); exact E4. }
      destruct K as (n & K1 & K2).
      assert (NM : d_name d4 = n /\ d_args d4 = f_args f /\ d_type d4 = f_type f).
      { destruct K2 as [-> | (-> & ->)]; auto. }
      destruct NM as (NM & NA & NT). rewrite NM. split; [exact K1|]. split; [exact NA|]. split; [exact NT|].
      intros parent members st O V. eexists. split; [apply aget_held|].
      destruct K2 as [-> | (-> & ->)]; unfold deliver; cbn [d_resolver d_name].
      - now apply context_path_value.
      - rewrite V. reflexivity.
    Qed.

    Lemma resolved_field object t f name d :
      define object t f name = Ok d -> f_resolvers f = [] -> ~ needs_data c f -> ~ marked m t f ->
      plain_type m f ->
      forall parent st, dl d parent st = (Ok (VObj []), st).
    Proof.
      intros H R N U (HU & HI & HE). apply aget_None in HI. apply define_steps in H. cbn in H.
      destruct H as (rs & d1 & d2 & d5 & d7 & ER & -> & EV & HM & (d4 & E4 & HP) & (d6 & E6 & H7) & H8).
      assert (AR : all_resolved m f = true) by (apply resolved_iff; auto).
      rewrite AR, R in E4. cbn [has_resolver negb andb] in E4.
      unfold update_protected in HP.
      destruct (is_protected_field _ _) eqn:EP in HP; [apply protected_iff in EP; contradiction|].
      injection HP as <-. rewrite HE in E6. subst d6.
      unfold update_union_resolver in H7. cbn in H7. rewrite HU in H7. injection H7 as <-.
      unfold update_interface_resolver in H8. cbn in H8. rewrite HI in H8. injection H8 as <-.
      intros parent st. unfold deliver.
      assert (RS : d_resolver d4 = Some (IDynamic (DValue (VObj [])))).
      { rewrite E4. destruct (match f_cache f with Some a => Some a | None => t_cache t end); reflexivity. }
      rewrite RS. reflexivity.
    Qed.

    (** C64 *)
    Lemma verify_all l a : verify ext (fold_left AAnd l a) req = Succeed <->
      verify ext a req = Succeed /\ Forall (fun b => verify ext b req = Succeed) l.
    Proof.
      revert a. induction l as [|b l IH]; intros a; cbn.
      - split; [auto|tauto].
      - rewrite IH. cbn. unfold vand. destruct (verify ext a req) eqn:EA.
        + split; [intros [A B]; auto|]. intros (A & B). inversion B; auto.
        + split; [intros [A B]; discriminate|]. intros (A & B). discriminate.
    Qed.
  End Eval.

  Lemma by_id id : aget id (providers_by_id m) =
    fold_left (fun acc ip => match fst ip with Some i => if String.eqb id i then Some (snd ip) else acc | None => acc end)
      (m_providers m) None.
  Proof.
    unfold providers_by_id.
    enough (G : forall l acc o, aget id acc = o ->
      aget id (fold_left (fun acc ip => match fst ip with Some i => aset i (snd ip) acc | None => acc end) l acc) =
      fold_left (fun acc (ip : option string * provider) => match fst ip with Some i => if String.eqb id i then Some (snd ip) else acc | None => acc end) l o)
      by now apply G.
    intros l. induction l as [|[[i|] p] l IH]; intros acc o E; cbn; [exact E| |].
    - apply IH. rewrite aget_aset. destruct (String.eqb id i); auto.
    - now apply IH.
  Qed.
  Lemma by_id_iff id p : aget id (providers_by_id m) = Some p <-> provider_named m id p.
  Proof.
    rewrite by_id. unfold provider_named. generalize (m_providers m) as l. intros l.
    enough (G : forall l o, fold_left (fun acc (ip : option string * provider) => match fst ip with Some i => if String.eqb id i then Some (snd ip) else acc | None => acc end) l o = Some p <->
      (exists before after, l = before ++ (Some id, p) :: after /\ forall q, ~ In (Some id, q) after) \/
      ((forall q, ~ In (Some id, q) l) /\ o = Some p)).
    { rewrite G. split; [intros [K | (_ & K)]; [exact K|discriminate]|auto]. }
    clear l. intros l. induction l as [|[i q] l IH]; intros o; cbn.
    - split; [intros ->; right; split; [auto|reflexivity]|].
      intros [(b & a & E & _) | (_ & E)]; [destruct b; discriminate|exact E].
    - rewrite IH. split.
      + intros [(b & a & -> & N) | (N & E)].
        * left. exists ((i, q) :: b), a. auto.
        * destruct i as [i|].
          -- destruct (String.eqb_spec id i) as [<- | D].
             ++ injection E as ->. left. exists [], l. auto.
             ++ right. split; [|exact E]. intros q' [K | K]; [congruence|exact (N q' K)].
          -- right. split; [|exact E]. intros q' [K | K]; [congruence|exact (N q' K)].
      + intros [(b & a & E & N) | (N & E)].
        * destruct b as [|x b]; cbn in E.
          -- injection E as -> -> ->. right. split; [exact N|]. now rewrite String.eqb_refl.
          -- injection E as _ ->. left. exists b, a. auto.
        * right. split; [intros q' K; exact (N q' (or_intror K))|].
          destruct i as [i|]; [|exact E]. destruct (String.eqb_spec id i) as [<- | D]; [|exact E].
          exfalso. exact (N q (or_introl eq_refl)).
  Qed.

  Lemma ids_asked t f id : In id (ids_of (t_protected t) ++ ids_of (f_protected f)) <-> asked_for t f id.
  Proof.
    assert (G : forall p, In id (ids_of p) <-> exists q l, p = Some q /\ prot_id q = Some l /\ In id l).
    { intros p. unfold ids_of. split.
      - destruct p as [q|]; [|easy]. destruct (prot_id q) as [l|] eqn:E; [|easy]. intros K. exists q, l. auto.
      - intros (q & l & -> & E & K). now rewrite E. }
    rewrite in_app_iff, !G. unfold asked_for. tauto.
  Qed.

  (** What the check of a protected field demands. *)
  Lemma update_protected_ok i (d d' : fdef IO) : is_protected_field m i = true -> update_protected m i d = Ok d' ->
    smem (i_object i) (m_inputs m) = false /\
    (forall id, asked_for (i_type i) (i_field i) id -> exists p, provider_named m id p) /\
    exists a, d' = with_resolver (Some (IProtect a (or_own_value d))) d /\
      (forall ext req, verify ext a req = Succeed <->
         forall p, demanded m (i_type i) (i_field i) p -> verify_provider ext p req = Succeed).
  Proof.
    intros P. unfold update_protected. rewrite P.
    destruct (smem (i_object i) (m_inputs m)); [discriminate|].
    destruct (m_providers m) as [|ip rest] eqn:EP; [discriminate|]. rewrite <- EP.
    destruct (all_checked _ _) as [auths|e] eqn:EA; [|discriminate]. cbn.
    apply all_checked_ok in EA. intros K. split; [reflexivity|].
    assert (FA : Forall2 (fun id a => exists p, provider_named m id p /\ a = AProvider p)
        (ids_of (t_protected (i_type i)) ++ ids_of (f_protected (i_field i))) auths).
    { clear K. induction EA as [|id a ids auths H EA IH]; constructor; [|exact IH].
      destruct (aget id (providers_by_id m)) as [p|] eqn:G; [|discriminate]. injection H as <-.
      exists p. split; [|reflexivity]. now apply by_id_iff. }
    clear EA. split.
    { intros id A. apply ids_asked in A. clear K. induction FA as [|x a ids auths (p & H & _) FA IH]; [contradiction|].
      destruct A as [<- | A]; eauto. }
    assert (NU : forall p q id, provider_named m id p -> provider_named m id q -> p = q).
    { intros p q id A B. apply by_id_iff in A. apply by_id_iff in B. congruence. }
    destruct auths as [|a auths].
    - inversion FA as [E|]. rewrite EP in K. cbn in K.
      injection K as <-. eexists. split; [reflexivity|]. intros ext req. rewrite verify_all.
      assert (NO : forall id, ~ asked_for (i_type i) (i_field i) id).
      { intros id A. apply ids_asked in A. rewrite <- E in A. contradiction. }
      split.
      + intros (A & B) p [(id & C & _) | (_ & id & C)]; [now apply NO in C|].
        rewrite EP in C. destruct C as [-> | C]; [exact A|].
        rewrite Forall_forall in B. apply (B (AProvider p)). apply in_map_iff. exists (id, p). auto.
      + intros A. split.
        * cbn. apply A. right. split; [exact NO|]. exists (fst ip). rewrite EP. left. now destruct ip.
        * apply Forall_forall. intros b B. apply in_map_iff in B. destruct B as ([id p] & <- & B). cbn.
          apply A. right. split; [exact NO|]. exists id. rewrite EP. now right.
    - cbn in K. injection K as <-. eexists. split; [reflexivity|]. intros ext req. rewrite verify_all.
      rewrite <- (Forall_cons_iff (fun b => verify ext b req = Succeed)).
      assert (SOME : exists id, asked_for (i_type i) (i_field i) id).
      { remember (ids_of (t_protected (i_type i)) ++ ids_of (f_protected (i_field i))) as ids eqn:EI.
        destruct ids as [|id ids]; [inversion FA|]. exists id. apply ids_asked. rewrite <- EI. now left. }
      rewrite Forall_forall. split.
      + intros A p [(id & C & D) | (C & _)]; [|destruct SOME as (id & C'); now apply C in C'].
        apply (A (AProvider p)). apply ids_asked in C. clear A SOME.
        induction FA as [|x b ids bs (q & H & HE) FA IH]; [contradiction|].
        destruct C as [<- | C]; [left|right; auto]. rewrite HE. f_equal. eapply NU; eauto.
      + intros A b B.
        assert (Q : exists id p, In id (ids_of (t_protected (i_type i)) ++ ids_of (f_protected (i_field i))) /\ provider_named m id p /\ b = AProvider p).
        { clear A SOME. induction FA as [|x b' ids bs (q & H & HE) FA IH]; [contradiction|].
          destruct B as [<- | B]; [exists x, q; repeat split; auto; now left|].
          destruct (IH B) as (id & p & I1 & I2 & I3). exists id, p. repeat split; auto. now right. }
        destruct Q as (id & p & Q1 & Q2 & ->). cbn. apply A. left. exists id. split; [now apply ids_asked|exact Q2].
  Qed.

  Section Eval2.
    Context {F Key St : Type}.
    Variable rx : req_ext.
    Variable ext : auth_ext.
    Variable req : request.
    Variable do_io : IO -> ctx -> St -> result value F * St.
    Variable cache_key : IO -> ctx -> option Key.
    Variable cache_get : Key -> St -> result (option value) F * St.
    Variable cache_set : Key -> value -> Z -> St -> result unit F * St.
    Local Notation ev := (eval rx ext req do_io cache_key cache_get cache_set).
    Local Notation dl := (deliver rx ext req do_io cache_key cache_get cache_set).

    Lemma refused object t f name d p e :
      define object t f name = Ok d -> marked m t f ->
      demanded m t f p -> verify_provider ext p req = Fail e ->
      forall parent st, exists er, dl d parent st = (Err (EAuth er), st).
    Proof.
      intros H MK DP VF parent st. apply define_steps in H. cbn in H.
      destruct H as (rs & d1 & d2 & d5 & d7 & ER & E1 & EV & HM & (d4 & E4 & HP) & (d6 & E6 & H7) & H8).
      apply (protected_iff object t f name) in MK.
      destruct (update_protected_ok _ _ _ MK HP) as (_ & _ & a & E5 & A). cbn in A.
      destruct (tail_wraps {| i_object := object; i_field := f; i_type := t; i_name := name |} d5 d6 d7 d
                 (IProtect a (or_own_value d4))) as (w & W & RD); [now rewrite E5|exact E6|exact H7|exact H8|].
      unfold deliver. rewrite RD.
      destruct (verify ext a req) as [|er] eqn:VA.
      - exfalso. pose proof (proj1 (A ext req) VA p DP). congruence.
      - exists er. apply after_err; [exact W|]. cbn. now rewrite VA.
    Qed.

    Lemma composed_some object f rs : resolves compile object f ->
      all_checked (compile object f) (f_resolvers f) = Ok rs -> exists e, composed rs = Some e.
    Proof.
      intros (r & e & I & C) A. apply all_checked_ok in A. unfold composed.
      destruct rs as [|x [|y rs]]; [inversion A as [E|]; rewrite <- E in I; contradiction| |eauto].
      remember (f_resolvers f) as l eqn:EL. destruct l as [|r1 [|r2 l]]; [contradiction| |].
      - inversion A as [|? ? ? ? H1 H2]; subst. destruct I as [<- | []]. rewrite H1 in C. injection C as ->. eauto.
      - inversion A as [|? ? ? ? H1 H2]; subst. inversion H2.
    Qed.

    (** The steps after the check of authorization, on an expression and on its guarded form. *)
    Lemma tail_both i (d4 : fdef IO) a d6 d7 d :
      find_enum c (type_name (f_type (i_field i))) = None \/ d_resolver d4 <> None ->
      let alias (x : fdef IO) := match find_enum c (type_name (f_type (i_field i))) with
         | Some en => with_resolver (with_aliases (map (fun v => {| n_name := fst v; n_alias := snd v |}) (e_variants en)) (d_resolver x)) x
         | None => x
         end in
      d6 = alias (with_resolver (Some (IProtect a (or_own_value d4))) d4) ->
      update_union_resolver m i d6 = Ok d7 -> update_interface_resolver m i d7 = Ok d ->
      exists d7' d', update_union_resolver m i (alias d4) = Ok d7' /\ update_interface_resolver m i d7' = Ok d' /\
        d_name d' = d_name d /\ d_args d' = d_args d /\ d_type d' = d_type d /\
        exists w, after w /\ d_resolver d = Some (w (IProtect a (or_own_value d4))) /\
          (d_resolver d' = Some (w (or_own_value d4)) \/
           (d_resolver d' = None /\ d_name d' = d_name d4 /\ d_resolver d4 = None /\ forall e, w e = e)).
    Proof.
      intros NE alias E6 HU HI.
      assert (S6 : d_name (alias d4) = d_name d6 /\ d_args (alias d4) = d_args d6 /\ d_type (alias d4) = d_type d6 /\
        d_name d6 = d_name d4 /\
        exists w, after w /\ d_resolver d6 = Some (w (IProtect a (or_own_value d4))) /\
          (d_resolver (alias d4) = Some (w (or_own_value d4)) \/
           (d_resolver (alias d4) = None /\ d_resolver d4 = None /\ forall e, w e = e))).
      { subst d6. unfold alias. destruct (find_enum c _) as [en|] eqn:FE.
        - destruct NE as [NE | NE]; [discriminate|]. unfold or_own_value.
          destruct (d_resolver d4) as [e4|] eqn:R4; [|contradiction].
          cbn. repeat (split; [reflexivity|]). unfold with_aliases. destruct (has_alias _); cbn.
          + eexists. split; [apply A_map; apply A_id|]. split; [reflexivity|]. left. reflexivity.
          + eexists. split; [apply A_id|]. split; [reflexivity|]. left. reflexivity.
        - cbn. repeat (split; [reflexivity|]). exists (fun e => e). split; [constructor|]. split; [reflexivity|].
          unfold or_own_value. destruct (d_resolver d4); auto. }
      destruct S6 as (N6 & A6 & T6 & N4 & w & W & R6 & R6').
      set (x4 := alias d4) in *. clearbody x4. clear E6 NE.
      assert (S7 : exists d7', update_union_resolver m i x4 = Ok d7' /\
        d_name d7' = d_name d7 /\ d_args d7' = d_args d7 /\ d_type d7' = d_type d7 /\ d_name d7 = d_name d4 /\
        exists w, after w /\ d_resolver d7 = Some (w (IProtect a (or_own_value d4))) /\
          (d_resolver d7' = Some (w (or_own_value d4)) \/
           (d_resolver d7' = None /\ d_resolver d4 = None /\ forall e, w e = e))).
      { unfold update_union_resolver in *. destruct (find_union c _) as [u|].
        - unfold discriminated in *. destruct (new_discriminator _ _) as [k|]; [|discriminate].
          injection HU as <-. eexists. split; [reflexivity|]. cbn. repeat (split; [congruence|]).
          exists (fun e => IDiscriminate k (w e)). split; [now constructor|].
          unfold or_own_value at 1. rewrite R6. split; [reflexivity|]. left.
          unfold or_own_value at 1. destruct R6' as [-> | (R6' & R4 & WI)]; [reflexivity|].
          rewrite R6', WI. unfold or_own_value. rewrite R4. congruence.
        - injection HU as <-. exists x4. split; [reflexivity|]. repeat (split; [congruence|]). eauto. }
      destruct S7 as (d7' & E7 & N7 & A7 & T7 & N47 & w7 & W7 & R7 & R7').
      exists d7'. rewrite E7.
      unfold update_interface_resolver in *. destruct (aget _ (m_interfaces m)) as [ts|].
      - unfold discriminated in *. destruct (new_discriminator _ _) as [k|]; [|discriminate].
        injection HI as <-. eexists. split; [reflexivity|]. split; [reflexivity|]. cbn. repeat (split; [congruence|]).
        exists (fun e => IDiscriminate k (w7 e)). split; [now constructor|].
        unfold or_own_value at 1. rewrite R7. split; [reflexivity|]. left.
        unfold or_own_value at 1. destruct R7' as [-> | (R7' & R4 & WI)]; [reflexivity|].
        rewrite R7', WI. unfold or_own_value. rewrite R4. congruence.
      - injection HI as <-. exists d7'. split; [reflexivity|]. split; [reflexivity|]. repeat (split; [congruence|]).
        exists w7. split; [exact W7|]. split; [exact R7|]. destruct R7' as [R7' | (R7' & R4 & WI)]; [now left|].
        right. repeat split; auto. congruence.
    Qed.

    Lemma accepted object t f name d :
      (forall r, compile object (unmarked_field f) r = compile object f r) ->
      (forall x, valid_templates (unmarked_type t) x = valid_templates t x) ->
      (forall out, find_type c (type_name (f_type f)) = Some out -> t_protected out = None) ->
      find_enum c (type_name (f_type f)) = None \/ resolves compile object f ->
      define object t f name = Ok d -> marked m t f ->
      (forall p, demanded m t f p -> verify_provider ext p req = Succeed) ->
      exists d', define object (unmarked_type t) (unmarked_field f) name = Ok d' /\
        d_name d' = d_name d /\ d_args d' = d_args d /\ d_type d' = d_type d /\
        forall parent members st, c_over_value parent = None -> c_value parent = Some (VObj members) ->
          dl d parent st = dl d' parent st.
    Proof.
      intros CP VT OUT NE H MK ACC. apply define_steps in H. cbn in H.
      destruct H as (rs & d1 & d2 & d5 & d7 & ER & E1 & EV & HM & (d4 & E4 & HP) & (d6 & E6 & H7) & H8).
      apply (protected_iff object t f name) in MK.
      destruct (update_protected_ok _ _ _ MK HP) as (_ & _ & a & E5 & A). cbn in A.
      assert (VA : verify ext a req = Succeed) by (apply A; exact ACC).
      assert (NE4 : find_enum c (type_name (f_type f)) = None \/ d_resolver d4 <> None).
      { destruct NE as [NE | NE]; [now left|]. right. destruct (composed_some _ _ _ NE ER) as (e & CE).
        assert (HR : has_resolver (f_resolvers f) = true).
        { destruct NE as (r & e' & I & _). destruct (f_resolvers f); [contradiction|reflexivity]. }
        rewrite HR in E4. cbn [negb andb] in E4.
        assert (R2 : d_resolver d2 = Some e).
        { apply update_modify_ok in HM. destruct HM as [(new & _ & ->) | (_ & ->)]; subst d1; cbn; [|exact CE].
          unfold or_own_value. cbn. now rewrite CE. }
        rewrite E4. destruct (match f_cache f with Some x => Some x | None => t_cache t end); cbn; rewrite R2; discriminate. }
      subst d5.
      destruct (tail_both {| i_object := object; i_field := f; i_type := t; i_name := name |} d4 a d6 d7 d NE4 E6 H7 H8)
        as (d7' & d' & U' & I' & SN & SA & ST & w & W & RD & RD').
      exists d'. split.
      { apply define_steps. cbn. exists rs, d1, d2, d4, d7'. split.
        { rewrite <- ER. clear -CP. induction (f_resolvers f) as [|r l IH]; [reflexivity|]. cbn. now rewrite CP, IH. }
        split; [exact E1|]. split; [now rewrite VT|]. split; [exact HM|]. split.
        { exists d4. split; [exact E4|]. unfold update_protected.
          assert (NP : is_protected_field m {| i_object := object; i_field := unmarked_field f; i_type := unmarked_type t; i_name := name |} = false).
          { unfold is_protected_field. cbn. destruct (find_type c (type_name (f_type f))) as [out|] eqn:FO; [|reflexivity].
            now rewrite (OUT out eq_refl). }
          rewrite NP. reflexivity. }
        split; [eexists; split; [reflexivity|exact U']|]. exact I'. }
      split; [exact SN|]. split; [exact SA|]. split; [exact ST|].
      intros parent members st O V. unfold deliver. rewrite RD.
      destruct RD' as [-> | (RN & SN4 & R4 & WI)].
      - apply after_same; [exact W|]. cbn. now rewrite VA.
      - rewrite RN, WI. cbn [eval]. rewrite VA. cbn [to_result].
        unfold or_own_value. rewrite R4. rewrite (context_path_value rx ext req do_io cache_key cache_get cache_set _ _ _ O V).
        rewrite V, SN4. reflexivity.
    Qed.

    (** C65 *)
    Lemma path_found p : forall v x, get_path p v = Some x <-> found v p x.
    Proof.
      induction p as [|n p IH]; intros v x; cbn.
      - split; [intros K; injection K as <-; constructor|]. intros K; inversion K; reflexivity.
      - split.
        + destruct v; try discriminate.
          * destruct (parse_usize n) as [i|] eqn:PU; [|discriminate].
            unfold nth_N. destruct (N.ltb i _) eqn:LT; [|discriminate].
            destruct (nth_error l (N.to_nat i)) as [w|] eqn:NT; [|discriminate].
            intros K. apply IH in K. eapply F_item; eauto.
          * destruct (aget n m0) as [w|] eqn:AG; [|discriminate]. intros K. apply IH in K.
            eapply F_member; [reflexivity| | |exact K].
            -- pose proof (aget_held m0 n) as HH. now rewrite AG in HH.
            -- now apply aget_Some_key in AG.
        + intros K. inversion K as [|members n' w p' x' -> HD IN FD|items n' i w p' x' -> PU NT FD]; subst.
          * assert (AG : aget n members = Some w).
            { destruct HD as [(b & a & -> & NI) | (NI & _)]; [|contradiction].
              rewrite aget_app. apply aget_None in NI. unfold akeys in *.
              destruct (aget n b) eqn:AB; [congruence|]. cbn. now rewrite String.eqb_refl. }
            rewrite AG. now apply IH.
          * rewrite PU. unfold nth_N.
            assert (LT : N.ltb i (N.of_nat (length items)) = true).
            { apply N.ltb_lt. assert (N.to_nat i < length items) by (apply nth_error_Some; congruence). lia. }
            rewrite LT, NT. now apply IH.
    Qed.
    Lemma get_path_found p : forall v, found_or_null v p (match get_path p v with Some x => x | None => VNull end).
    Proof.
      intros v. destruct (get_path p v) as [x|] eqn:E; [left; now apply path_found|]. right. split; [|reflexivity].
      intros y Y. apply path_found in Y. congruence.
    Qed.
    Lemma get_path_value_same p : forall v, get_path_value v p = get_path p v.
    Proof.
      induction p as [|n p IH]; intros v; cbn; [reflexivity|]. destruct v; try reflexivity.
      - destruct (parse_usize n); [|reflexivity]. destruct (nth_N l n0); [apply IH|reflexivity].
      - destruct (aget n m0); [apply IH|reflexivity].
    Qed.

    Lemma same_resolver object t f n1 n2 d1 d2 : resolves compile object f ->
      define object t f n1 = Ok d1 -> define object t f n2 = Ok d2 ->
      d_resolver d1 = d_resolver d2 /\ d_resolver d1 <> None.
    Proof.
      intros RS H1 H2. apply define_steps in H1. apply define_steps in H2. cbn in H1, H2.
      destruct H1 as (rs & a1 & a2 & a5 & a7 & ER & E1 & EV & HM & (a4 & E4 & HP) & (a6 & E6 & H7) & H8).
      destruct H2 as (rs' & b1 & b2 & b5 & b7 & ER' & E1' & EV' & HM' & (b4 & E4' & HP') & (b6 & E6' & H7') & H8').
      rewrite ER in ER'. injection ER' as <-.
      destruct (composed_some _ _ _ RS ER) as (e & CE).
      assert (HR : has_resolver (f_resolvers f) = true).
      { destruct RS as (r & e' & I & _). destruct (f_resolvers f); [contradiction|reflexivity]. }
      rewrite HR in E4, E4'. cbn [negb andb] in E4, E4'.
      assert (R2 : d_resolver a2 = Some e /\ d_resolver b2 = Some e).
      { apply update_modify_ok in HM. apply update_modify_ok in HM'.
        destruct HM as [(new & _ & ->) | (_ & ->)], HM' as [(new' & _ & ->) | (_ & ->)]; subst a1 b1; unfold or_own_value; cbn;
          rewrite CE; auto. }
      destruct R2 as [R2 R2'].
      assert (R4 : exists e4, d_resolver a4 = Some e4 /\ d_resolver b4 = Some e4).
      { rewrite E4, E4'. destruct (match f_cache f with Some x => Some x | None => t_cache t end) as [age|]; cbn; rewrite R2, R2'; cbn; eauto. }
      destruct R4 as (e4 & R4 & R4').
      assert (R5 : exists e5, d_resolver a5 = Some e5 /\ d_resolver b5 = Some e5).
      { unfold update_protected in HP, HP'.
        change (is_protected_field m {| i_object := object; i_field := f; i_type := t; i_name := n2 |})
          with (is_protected_field m {| i_object := object; i_field := f; i_type := t; i_name := n1 |}) in HP'.
        destruct (is_protected_field m _).
        - cbn [i_object i_type i_field] in HP, HP'. destruct (smem object (m_inputs m)); [discriminate|].
          destruct (m_providers m); [discriminate|].
          destruct (all_checked _ (ids_of (t_protected t) ++ ids_of (f_protected f))) as [auths|]; [|discriminate].
          cbn [rmap] in HP, HP'.
          injection HP as HP. injection HP' as HP'.
          destruct (match all_of auths with Some x => Some x | None => _ end) as [au|].
          + subst a5 b5. unfold or_own_value. cbn. rewrite R4, R4'. eauto.
          + subst a5 b5. eauto.
        - injection HP as <-. injection HP' as <-. eauto. }
      destruct R5 as (e5 & R5 & R5').
      assert (R6 : exists e6, d_resolver a6 = Some e6 /\ d_resolver b6 = Some e6).
      { rewrite E6, E6'. destruct (find_enum c _) as [en|]; [|eauto]. cbn. rewrite R5, R5'. unfold with_aliases.
        destruct (has_alias _); cbn; eauto. }
      destruct R6 as (e6 & R6 & R6').
      assert (DD : forall types i i' (x x' y y' : fdef IO) ex, f_discriminate (i_field i) = f_discriminate (i_field i') ->
        d_resolver x = Some ex -> d_resolver x' = Some ex -> discriminated types i x = Ok y -> discriminated types i' x' = Ok y' ->
        exists ey, d_resolver y = Some ey /\ d_resolver y' = Some ey).
      { intros types i i' x x' y y' ex DF X X'. unfold discriminated. rewrite DF.
        destruct (new_discriminator _ _); [|discriminate]. intros K K'. injection K as <-. injection K' as <-.
        unfold or_own_value. rewrite X, X'. cbn. eauto. }
      assert (R7 : exists e7, d_resolver a7 = Some e7 /\ d_resolver b7 = Some e7).
      { unfold update_union_resolver in H7, H7'. cbn [i_field] in H7, H7'. destruct (find_union c _) as [u|].
        - eapply (DD _ _ _ a6 b6); [|exact R6|exact R6'|exact H7|exact H7']. reflexivity.
        - injection H7 as <-. injection H7' as <-. eauto. }
      destruct R7 as (e7 & R7 & R7').
      assert (R8 : exists e8, d_resolver d1 = Some e8 /\ d_resolver d2 = Some e8).
      { unfold update_interface_resolver in H8, H8'. cbn [i_field] in H8, H8'. destruct (aget _ (m_interfaces m)) as [u|].
        - eapply (DD _ _ _ a7 b7); [|exact R7|exact R7'|exact H8|exact H8']. reflexivity.
        - injection H8 as <-. injection H8' as <-. eauto. }
      destruct R8 as (e8 & R8 & R8'). split; congruence.
    Qed.

    Lemma added_resolved object t a d head tail source ds :
      to_added_field compile valid_templates m object t a = Ok d -> af_path a = head :: tail ->
      get_field head t = Some source -> resolves compile object source ->
      define object t source head = Ok ds ->
      forall parent st,
        match dl ds parent st with
        | (Ok v, st') => exists x, found_or_null v tail x /\ dl d parent st = (Ok x, st')
        | (Err er, st') => dl d parent st = (Err er, st')
        end.
    Proof.
      intros H EP G RS DS parent st. unfold to_added_field in H. rewrite EP, G in H.
      assert (HR : has_resolver (f_resolvers source) = true).
      { destruct RS as (r & e' & I & _). destruct (f_resolvers source); [contradiction|reflexivity]. }
      rewrite HR in H. apply traced_ok in H.
      destruct (to_field_definition _ _ _ _ _ source (af_name a)) as [d0|] eqn:E0; [|discriminate]. cbn in H.
      unfold update_resolver_from_path in H. destruct (process_path _ _ _ _ _) as [ty|]; [|discriminate]. cbn in H.
      injection H as <-.
      destruct (same_resolver _ _ _ _ _ _ _ RS E0 DS) as [SR SN].
      unfold deliver. cbn. rewrite <- SR. destruct (d_resolver d0) as [e0|]; [|contradiction].
      cbn. destruct (ev e0 parent st) as [[v|er] st']; [|reflexivity].
      eexists. split; [apply get_path_found|reflexivity].
    Qed.

    Lemma added_plain object t a d head tail source :
      to_added_field compile valid_templates m object t a = Ok d -> af_path a = head :: tail ->
      get_field head t = Some source -> needs_data c source -> ~ marked m t source ->
      (forall new, ~ renamed source new) -> plain_type m source ->
      d_name d = af_name a /\
      forall parent v st, c_over_value parent = None -> c_value parent = Some v ->
        exists x, found_or_null v (af_path a) x /\ dl d parent st = (Ok x, st).
    Proof.
      intros H EP G ND NM NR PT. unfold to_added_field in H. rewrite EP, G in H.
      assert (HR : has_resolver (f_resolvers source) = false) by (apply has_resolver_nil; apply ND).
      rewrite HR in H. apply traced_ok in H.
      destruct (to_field_definition _ _ _ _ _ source (af_name a)) as [d0|] eqn:E0; [|discriminate]. cbn in H.
      unfold update_resolver_from_path in H. destruct (process_path _ _ _ _ _) as [ty|]; [|discriminate]. cbn in H.
      injection H as <-.
      assert (D0 : d_name d0 = af_name a /\ d_resolver d0 = None).
      { apply define_steps in E0. cbn in E0.
        destruct E0 as (rs & d1 & d2 & d5 & d7 & ER & E1 & EV & HM & (d4 & E4 & HP) & (d6 & E6 & H7) & H8).
        rewrite (needs_not_resolved source ND), andb_false_r in E4. destruct ND as [R _]. rewrite R in ER. cbn in ER. injection ER as <-.
        apply update_modify_ok in HM. destruct HM as [(new & K & _) | (_ & ->)]; [now apply NR in K|].
        unfold update_protected in HP.
        destruct (is_protected_field _ _) eqn:EPF in HP; [apply protected_iff in EPF; contradiction|].
        injection HP as <-. destruct PT as (HU & HI & HE). apply aget_None in HI. rewrite HE in E6. subst d6.
        unfold update_union_resolver in H7. cbn in H7. rewrite HU in H7. injection H7 as <-.
        unfold update_interface_resolver in H8. cbn in H8. rewrite HI in H8. injection H8 as <-.
        subst d1. rewrite E4. destruct (match f_cache source with Some x => Some x | None => t_cache t end); cbn; auto. }
      destruct D0 as [D0 DR]. split; [exact D0|]. intros parent v st O V. unfold deliver. cbn. rewrite DR.
      cbn [eval]. unfold path_value. rewrite O, V.
      eexists. split; [apply get_path_found|]. rewrite get_path_value_same, EP. cbn [option_map].
      destruct (get_path (head :: tail) v); reflexivity.
    Qed.
  End Eval2.

  (** Types of added fields *)
  Lemma name_not_index n : like_a_name n -> is_index n = false /\ is_digits n = false.
  Proof.
    destruct n as [|ch s]; cbn; [contradiction|]. intros [D P].
    assert (DV : digit_value ch = None).
    { unfold digit_value. destruct (N.leb 48 (N_of_ascii ch) && N.leb (N_of_ascii ch) 57) eqn:E; [|reflexivity].
      apply andb_true_iff in E. destruct E as [E1 E2]. apply N.leb_le in E1. apply N.leb_le in E2. lia. }
    split.
    - unfold is_index, parse_usize. destruct (Ascii.eqb_spec ch "+"); [contradiction|]. cbn. now rewrite DV.
    - destruct (N.leb 48 (N_of_ascii ch) && N.leb (N_of_ascii ch) 57) eqn:E; [|reflexivity].
      apply andb_true_iff in E. destruct E as [E1 E2]. apply N.leb_le in E1. apply N.leb_le in E2. lia.
  Qed.

  Lemma path_type original : (forall n t, find_type c n = Some t -> BuilderModel.is_predefined n = false) ->
    forall t p ty, leads c t p ty -> Forall like_a_name p ->
      BuilderModel.is_predefined (type_name ty) = true \/
      (is_list ty = false /\ exists t', find_type c (type_name ty) = Some t') ->
      forall ft, process_path m original p ft t = Ok (or_null ty).
  Proof.
    intros NP t p ty L. induction L as [t n f GF R | t n f nn next p ty GF R TY t' FT L IH]; intros FA LF ft.
    - inversion FA as [|? ? LN _]; subst. cbn. rewrite (proj1 (name_not_index n LN)). rewrite GF. rewrite GF. rewrite R. cbn [has_resolver].
      assert (ON : forall x, into_nullable x = or_null x) by (intros []; reflexivity).
      destruct (BuilderModel.is_predefined (type_name (f_type f))) eqn:PD; [now rewrite ON|].
      destruct LF as [LF | (IL & t' & FT)]; [discriminate|]. rewrite FT. cbn. now rewrite IL, ON.
    - inversion FA as [|? ? LN FA']; subst. cbn. rewrite (proj1 (name_not_index n LN)). rewrite GF. rewrite GF. rewrite R. cbn [has_resolver].
      rewrite TY. cbn [type_name is_list]. rewrite (NP _ _ FT). rewrite FT. rewrite (IH FA' LF). reflexivity.
  Qed.

  Lemma not_numeric p : Forall like_a_name p -> item_is_numeric p = false.
  Proof.
    intros FA. unfold item_is_numeric. induction FA as [|n p LN FA IH]; [reflexivity|]. cbn.
    now rewrite (proj2 (name_not_index n LN)), IH.
  Qed.

  Lemma added_type object t a d head tail source ty :
    (forall n t, find_type c n = Some t -> BuilderModel.is_predefined n = false) ->
    to_added_field compile valid_templates m object t a = Ok d -> af_path a = head :: tail ->
    get_field head t = Some source -> Forall like_a_name (af_path a) ->
    (f_resolvers source = [] /\ leads c t (af_path a) ty \/
     f_resolvers source <> [] /\ exists next nn t', f_type source = TNamed next nn /\ find_type c next = Some t' /\
       leads c t' tail ty /\ (forall n, hd_error tail = Some n -> get_field n t = None)) ->
    BuilderModel.is_predefined (type_name ty) = true \/
    (is_list ty = false /\ exists t', find_type c (type_name ty) = Some t') ->
    d_type d = or_null ty.
  Proof.
    intros NP H EP G FA LD LF. unfold to_added_field in H. rewrite EP, G in H. rewrite <- EP in H. apply traced_ok in H.
    destruct (to_field_definition _ _ _ _ _ source (af_name a)) as [d0|] eqn:E0; [|discriminate]. cbn in H.
    unfold update_resolver_from_path in H.
    destruct LD as [(R & L) | (R & next & nn & t' & TY & FT & L & HD)].
    - rewrite R in H. cbn [has_resolver] in H. rewrite (path_type _ NP _ _ _ L FA LF) in H. cbn in H. injection H as <-.
      cbn. now rewrite (not_numeric _ FA).
    - destruct (f_resolvers source) as [|r rs] eqn:RS; [contradiction|]. cbn [has_resolver] in H.
      assert (FT' : Forall like_a_name tail) by (rewrite EP in FA; now inversion FA).
      assert (PP : process_path m (af_path a) tail (f_type source) t = Ok (or_null ty)).
      { rewrite <- (path_type (af_path a) NP _ _ _ L FT' LF (f_type source)).
        destruct tail as [|n tail]; [inversion L|]. cbn. inversion FT' as [|? ? LN _]; subst.
        rewrite (proj1 (name_not_index n LN)). rewrite (HD n eq_refl). rewrite TY. cbn [type_name]. rewrite FT.
        inversion L as [? ? f GF | ? ? f ? ? ? ? GF]; subst; rewrite !GF; reflexivity. }
      rewrite PP in H. cbn in H. injection H as <-. cbn. now rewrite (not_numeric _ FT').
  Qed.

  (** Protections that cannot be met *)
  Lemma and_second {A B E} (a b : try_fold A E B) x i s :
    (forall s, exists es, b i s = Err es /\ In x es) -> exists es, and_ a b i s = Err es /\ In x es.
  Proof.
    intros H. unfold and_, fold. destruct (a i s) as [s'|e]; [apply H|].
    destruct (H s) as (es & -> & I). eexists. split; [reflexivity|]. apply in_app_iff. auto.
  Qed.
  Lemma and_first {A B E} (a b : try_fold A E B) x i s :
    (exists es, a i s = Err es /\ In x es) -> exists es, and_ a b i s = Err es /\ In x es.
  Proof.
    intros (es & H & I). unfold and_, fold. rewrite H. destruct (b i s) as [s'|e]; [eauto|].
    eexists. split; [reflexivity|]. apply in_app_iff. auto.
  Qed.
  Lemma all_checked_err {A B} (f : A -> valid B) l a x :
    In a l -> (exists es, f a = Err es /\ In x es) -> exists es, all_checked f l = Err es /\ In x es.
  Proof.
    intros I (es & E & X). induction l as [|b l IH]; [contradiction|]. cbn.
    destruct I as [-> | I].
    - rewrite E. destruct (all_checked f l); [eauto|]. eexists. split; [reflexivity|]. apply in_app_iff. auto.
    - destruct (IH I) as (es' & -> & X'). destruct (f b); [eauto|]. eexists. split; [reflexivity|]. apply in_app_iff. auto.
  Qed.
  Lemma bad_protection object t f name e : marked m t f ->
    (In object (m_inputs m) /\ e = InputTypesCannotBeProtected \/
     ~ In object (m_inputs m) /\ m_providers m = [] /\ e = NoAuthProviders \/
     ~ In object (m_inputs m) /\ m_providers m <> [] /\
       exists id, asked_for t f id /\ (forall p, ~ provider_named m id p) /\ e = AuthProviderNotFound id) ->
    exists es, define object t f name = Err es /\ In (Build_cause ["@protected"] e) es.
  Proof.
    intros MK BAD. unfold to_field_definition. do 3 apply and_first. apply and_second. intros s.
    apply (protected_iff object t f name) in MK. unfold trace, update_protected. rewrite MK. cbn [i_object i_type i_field].
    destruct BAD as [(I & ->) | [(I & P & ->) | (I & P & id & A & N & ->)]].
    - apply smem_In in I. rewrite I. eexists. split; [reflexivity|]. now left.
    - apply smem_false in I. rewrite I, P. eexists. split; [reflexivity|]. now left.
    - apply smem_false in I. rewrite I. destruct (m_providers m) as [|ip rest] eqn:EP; [contradiction|].
      assert (E : exists es, all_checked (fun id => match aget id (providers_by_id m) with
                                         | Some p => Ok (AProvider p)
                                         | None => fail (AuthProviderNotFound id)
                                         end) (ids_of (t_protected t) ++ ids_of (f_protected f)) = Err es /\
                 In (Build_cause [] (AuthProviderNotFound id)) es).
      { apply all_checked_err with (a := id); [now apply ids_asked|].
        destruct (aget id (providers_by_id m)) as [p|] eqn:G; [apply by_id_iff in G; now apply N in G|].
        eexists. split; [reflexivity|]. now left. }
      destruct E as (es & -> & I2). cbn. eexists. split; [reflexivity|]. apply in_map_iff. eexists. split; [|exact I2]. reflexivity.
  Qed.
End Defs.
