(** Proofs: what is read from the text of a configuration. *)
From Coq Require Import String Ascii ZArith NArith Bool Arith Lia List Permutation.
From Verif Require Import Base BaseFacts Ordered OrderedFacts JsonModel TypeModel TypeProofs BuilderModel ConfigModel MergeSpec RenameSpec FedModel AmbModel AmbSpec AmbProofs DocModel DocSpec DocProofs DocRound
  PrModel PrSpec PrProofs Pr2Proofs Pr3Proofs SdlModel SdlSpec SdlProofs.
Import ConfigModel.
Import ListNotations.
Open Scope string_scope.
Open Scope list_scope.

(** ** Orders of definitions *)
Lemma viter_cons_ok {A B} (f : A -> valid B) a l r : viter f (a :: l) = Ok r -> exists b bs, f a = Ok b /\ viter f l = Ok bs /\ r = b :: bs.
Proof. cbn. destruct (f a) as [b|e]; destruct (viter f l) as [bs|e']; cbn; intros E; try discriminate. injection E as <-. eauto. Qed.
Lemma viter_perm {A B} (f : A -> valid B) l l' : Permutation l l' -> forall r, viter f l = Ok r -> exists r', viter f l' = Ok r' /\ Permutation r r'.
Proof.
  induction 1 as [|a l l' P IH|a b l|l l' l'' P IH P' IH']; intros r E.
  - exists r. split; [exact E|apply Permutation_refl].
  - apply viter_cons_ok in E as (x & xs & Ea & El & ->). destruct (IH xs El) as (r' & E' & P'). exists (x :: r'). split; [|now constructor]. cbn. now rewrite Ea, E'.
  - apply viter_cons_ok in E as (x & xs & Ea & E & ->). apply viter_cons_ok in E as (y & ys & Eb & El & ->). exists (y :: x :: ys). split; [|constructor]. cbn. now rewrite Ea, Eb, El.
  - destruct (IH r E) as (r' & E' & Q). destruct (IH' r' E') as (r'' & E'' & Q'). exists r''. split; [exact E''|]. now transitivity r'.
Qed.
Lemma perm_flat {A B} (f : A -> list B) l l' : Permutation l l' -> Permutation (flat_map f l) (flat_map f l').
Proof.
  induction 1 as [|a l l' P IH|a b l|l l' l'' P IH P' IH']; cbn; [constructor|now apply Permutation_app_head| |now transitivity (flat_map f l')].
  rewrite !app_assoc. apply Permutation_app_tail, Permutation_app_comm.
Qed.
Lemma omap_of_get {V} (l : list (string * V)) k v : NoDup (map fst l) -> In (k, v) l -> oget scmp k (omap_of scmp l) = Some v.
Proof.
  unfold omap_of. assert (G : forall (l acc : list (string * V)), NoDup (map fst l) ->
    (In (k, v) l -> oget scmp k (fold_left (fun acc kv => oins scmp (fst kv) (snd kv) acc) l acc) = Some v) /\
    (~ In k (map fst l) -> oget scmp k (fold_left (fun acc kv => oins scmp (fst kv) (snd kv) acc) l acc) = oget scmp k acc)).
  { induction l0 as [|[k' v'] l0 IH]; intros acc N; cbn [map fold_left fst snd] in *; [split; [intros []|reflexivity]|]. inversion N as [|? ? Ni N']; subst. destruct (IH (oins scmp k' v' acc) N') as [A B]. split.
    - intros [E|I]; [|now apply A]. injection E as -> ->. rewrite (B Ni). apply (oget_oins_same scmp scmp_order).
    - intros Q. rewrite B by (intros Z; apply Q; now right). apply (oget_oins_other scmp scmp_order). intros ->. apply Q. now left. }
  intros N I. now apply G.
Qed.
Lemma omap_of_perm {V} (l l' : list (string * V)) : Permutation l l' -> NoDup (map fst l) -> omap_of scmp l = omap_of scmp l'.
Proof.
  intros P N. assert (N' : NoDup (map fst l')) by (eapply Permutation_NoDup; [apply Permutation_map, P|exact N]).
  apply (osorted_ext scmp scmp_order); [apply (osorted_omap_of scmp scmp_order)|apply (osorted_omap_of scmp scmp_order)|]. intros k.
  destruct (oget scmp k (omap_of scmp l)) as [v|] eqn:E.
  - apply (oget_in scmp scmp_order) in E. apply omap_of_in in E. symmetry. apply omap_of_get; [exact N'|]. now apply (Permutation_in _ P).
  - destruct (oget scmp k (omap_of scmp l')) as [v|] eqn:E'; [|reflexivity]. apply (oget_in scmp scmp_order) in E'. apply omap_of_in in E'.
    rewrite (omap_of_get l k v N) in E; [discriminate|]. now apply (Permutation_in _ (Permutation_sym P)).
Qed.
(** Definitions of a kind with different names are collected alike in any order. *)
Lemma collected_perm {X A} (f : type_def X -> valid (option A)) (kept : type_def X -> bool) l l' m :
  (forall t, kept t = false -> f t = Ok None) -> NoDup (map td_name (filter kept l)) -> Permutation l l' -> collected f l = Ok m -> collected f l' = Ok m.
Proof.
  intros K N P E. unfold collected in *. apply rmap_ok in E as (r & E & ->). destruct (viter_perm _ _ _ P _ E) as (r' & E' & Q). rewrite E'. cbn. f_equal. symmetry. apply omap_of_perm; [now apply perm_flat|].
  clear - K N E. revert r E. induction l as [|t l IH]; intros r E; [injection E as <-; constructor|]. apply viter_cons_ok in E as (x & xs & Et & El & ->).
  assert (Sub : forall n, In n (map fst (flat_map opt_list xs)) -> In n (map td_name (filter kept l))).
  { clear - K El. revert xs El. induction l as [|u l IH]; intros xs El n I; [injection El as <-; destruct I|]. apply viter_cons_ok in El as (y & ys & Eu & El & ->). cbn [flat_map filter] in *. rewrite map_app in I. apply in_app_or in I.
    destruct (kept u) eqn:Ku; cbn.
    - destruct I as [I|I]; [left|right; exact (IH ys El n I)]. apply rmap_ok in Eu as (o & _ & ->). destruct o as [a|]; cbn in I; [|destruct I]. destruct I as [<-|[]]. reflexivity.
    - destruct I as [I|I]; [|exact (IH ys El n I)]. rewrite (K u Ku) in Eu. cbn in Eu. injection Eu as <-. destruct I. }
  cbn [flat_map filter] in *. rewrite map_app. destruct (kept t) eqn:Kt.
  - cbn in N. inversion N as [|? ? Ni N']; subst. specialize (IH N' xs El). apply rmap_ok in Et as (o & _ & ->). destruct o as [a|]; cbn; [|exact IH]. constructor; [|exact IH]. intros I. apply Ni. exact (Sub _ I).
  - rewrite (K t Kt) in Et. cbn in Et. injection Et as <-. cbn. now apply IH.
Qed.

(** ** What is not lost *)
Section Read.
  Variable text_of : list token -> string.
  Definition kept_input (i : input_value Args) : Prop := kept_default text_of (iv_default i).
  Definition kept_argument (i : input_value Args) : Prop := iv_doc i = None /\ iv_dirs i = [] /\ kept_input i.
  Definition kept_field (f : field_def Args) : Prop := Forall kept_argument (fd_args f).
  Definition kept_type (t : type_def Args) : Prop :=
    match td_kind t with
    | KScalar => td_dirs t = []
    | KObject _ fs => Forall kept_field fs
    | KInterface _ fs => td_doc t = None /\ td_dirs t = [] /\ Forall kept_field fs
    | KUnion _ => td_doc t = None
    | KEnum _ => True
    | KInput fs => Forall kept_input fs
    end.
  Lemma as_told_dirs l : map as_dir (dirs_told l) = map tell_dir l.
  Proof. unfold dirs_told. now rewrite map_map. Qed.
  Lemma as_default o : kept_default text_of o -> option_map text_of (option_map value_tokens o) = o.
  Proof. destruct o as [v|]; [|reflexivity]. intros [_ E]. cbn. now rewrite E. Qed.
  Lemma map_all {A B} (f g : A -> B) (p : A -> Prop) l : (forall a, p a -> f a = g a) -> Forall p l -> map f l = map g l.
  Proof. intros X F. apply map_ext_in. intros a I. apply X. rewrite Forall_forall in F. now apply F. Qed.
  Lemma as_argument i : kept_argument i -> as_input text_of (argument_told i) = tell_input i.
  Proof. intros (D & S & K). unfold as_input, argument_told, tell_input. cbn. now rewrite D, S, (as_default _ K). Qed.
  Lemma as_told_input i : kept_input i -> as_input text_of (input_told i) = tell_input i.
  Proof. intros K. unfold as_input, input_told, tell_input. cbn -[dirs_told]. now rewrite as_told_dirs, (as_default _ K). Qed.
  Lemma as_told_field f : kept_field f -> as_field text_of (field_told f) = tell_field f.
  Proof.
    intros K. unfold as_field, field_told, tell_field. cbn -[dirs_told argument_told]. rewrite as_told_dirs, map_map. f_equal. exact (map_all _ _ _ _ as_argument K).
  Qed.
  Lemma as_told_type t : kept_type t -> as_definition text_of (type_told t) = DType (tell_type t).
  Proof.
    intros K. unfold type_told, tell_type, kept_type in *. destruct (td_kind t) as [|is fs|is fs|ms|vs|fs] eqn:E; cbn [as_definition as_kind tell_kind].
    - now rewrite K.
    - rewrite as_told_dirs, map_map. do 3 f_equal. exact (map_all _ _ _ _ as_told_field K).
    - destruct K as (D & S & K). rewrite D, S, map_map. do 3 f_equal. exact (map_all _ _ _ _ as_told_field K).
    - now rewrite K, as_told_dirs.
    - rewrite as_told_dirs, map_map. do 3 f_equal. apply map_ext. intros v. cbn [fst snd]. now rewrite as_told_dirs.
    - rewrite as_told_dirs, map_map. do 3 f_equal. exact (map_all _ _ _ _ as_told_input K).
  Qed.
  Lemma as_told_schema s : sd_query s <> None \/ sd_mutation s <> None -> map (as_definition text_of) (schema_told s) = [DSchema (tell_schema s)].
  Proof.
    intros N. unfold schema_told, tell_schema. destruct s as [ds q m sub]. cbn [sd_query sd_mutation sd_subscription sd_dirs] in *.
    destruct q as [q|], m as [m|]; try (exfalso; destruct N as [N|N]; now apply N); destruct sub as [sub|]; cbn -[dirs_told]; rewrite as_told_dirs; reflexivity.
  Qed.

  Lemma parsed s ts : readable (DSchema s :: map DType ts) -> sd_query s <> None \/ sd_mutation s <> None -> Forall kept_type ts ->
    exists ts', parse_schema text_of (print "" (DSchema s :: map DType ts)) = Some (DSchema (tell_schema s) :: map DType ts') /\ Permutation (map tell_type ts) ts'.
  Proof.
    intros Rd Q K. unfold parse_schema. rewrite (document_read _ Rd). cbn [option_map].
    pose proof (told_types (DSchema s :: map DType ts)) as P. unfold told.
    assert (S : schemas_told (DSchema s :: map DType ts) = schema_told s).
    { cbn. replace (flat_map _ (map DType ts)) with (@nil r_def); [apply app_nil_r|]. clear. induction ts as [|t ts IH]; [reflexivity|exact IH]. }
    assert (T : types_of (DSchema s :: map DType ts) = ts).
    { cbn. clear. induction ts as [|t ts IH]; [reflexivity|]. cbn. f_equal. exact IH. }
    rewrite S, map_app, (as_told_schema s Q). rewrite T in P.
    assert (X : forall l, Permutation l (map type_told ts) -> exists ts', map (as_definition text_of) l = map DType ts' /\ Permutation (map tell_type ts) ts').
    { intros l Pl. apply Permutation_map_inv in Pl as (us & -> & Pu). exists (map tell_type us). split; [|now apply Permutation_map].
      rewrite !map_map. apply (map_all _ _ _ _ as_told_type). rewrite Forall_forall in *. intros u I. apply K. now apply (Permutation_in _ (Permutation_sym Pu)). }
    destruct (X _ P) as (ts' & E & P'). exists ts'. split; [|exact P']. now rewrite E.
  Qed.
End Read.

(** ** Configurations *)
Lemma named_type t : is_name (type_name t) -> type_ok (to_parser t).
Proof. induction t as [n nn|t IH nn]; cbn; intros N; [exact N|]. exact (IH N). Qed.
(** The types that are written as inputs have fields. *)
Definition full (c : config) (n : string) : Prop := forall t, find_type c n = Some t -> t_fields t <> [].
Lemma scalar_full c n : is_scalar c n = false -> full c n.
Proof. intros E t F. unfold is_scalar in E. rewrite F in E. intros Q. unfold gtype_scalar in E. rewrite Q in E. discriminate. Qed.
Lemma connections_full c : (forall n u m, find_union c n = Some u -> In m (u_types u) -> full c m) ->
  forall fuel n s s', full c n -> (forall x, In x s -> full c x) -> connections fuel c n s = Some s' -> forall x, In x s' -> full c x.
Proof.
  intros M. induction fuel as [|fuel IH]; intros n s s' Pn Ps E; [discriminate|]. cbn [connections] in E.
  assert (A : forall x, In x (set_add n s) -> full c x) by (intros x X; apply set_add_in in X as [->|X]; auto).
  destruct (find_union c n) as [u|] eqn:U.
  - refine (fold_opt_ind _ (fun s => forall x, In x s -> full c x) _ _ _ _ A E).
    intros x y m I Px F. eapply IH; [|exact Px|exact F]. exact (M n u m U I).
  - destruct (find_type c n) as [t|] eqn:T.
    + refine (fold_opt_ind _ (fun s => forall x, In x s -> full c x) _ _ _ _ A E).
      intros x y [fn f] I Px F. cbn [snd] in F. destruct (negb (smem (type_name (f_type f)) x) && negb (is_scalar c (type_name (f_type f))))%bool eqn:B.
      * eapply IH; [|exact Px|exact F]. apply scalar_full. apply andb_prop in B as [_ B]. now apply negb_true_iff in B.
      * injection F as <-. exact Px.
    + destruct (find_enum c n); injection E as <-; auto.
Qed.
Lemma inputs_full c fuel s : (forall n u m, find_union c n = Some u -> In m (u_types u) -> full c m) -> input_types fuel c = Some s -> forall n t, In n s -> find_type c n = Some t -> t_fields t <> [].
Proof.
  intros M E n t I. revert t. change (full c n). revert n I. unfold input_types in E.
  refine (fold_opt_ind _ (fun s => forall n, In n s -> full c n) _ _ _ _ _ E); [|intros n []].
  intros x y m J Px F. eapply (connections_full c M); [|exact Px|exact F]. apply in_map_iff in J as (a & <- & J). apply filter_In in J as [_ J]. apply negb_true_iff in J. now apply scalar_full.
Qed.
Section Config.
  Variables (W : codecs Args) (R : codecs TArgs) (text_of : list token -> string).
  Hypothesis H : writes_all W R.
  Variable c : config.
  Hypothesis T : tidy c.
  Hypothesis St : stored R c.
  Hypothesis Sa : sayable c.
  Hypothesis Pr : printable text_of c.
  Variables (fuel : nat) (m : list (string * list string)) (inputs : list string).
  Hypothesis Em : interfaces_types_map fuel c = Some m.
  Hypothesis Ei : input_types fuel c = Some inputs.

  Lemma default_read o : kept_default text_of o -> default_ok o.
  Proof. destruct o as [v|]; [|trivial]. now intros [A _]. Qed.
  Lemma arg_fine na : printable_arg text_of na -> argument_ok (@argument Args na) /\ kept_argument text_of (@argument Args na).
  Proof. intros (N & Ty & D & K). split; [split; [exact N|split; [now apply named_type|now apply default_read]]|]. split; [exact D|]. split; [reflexivity|exact K]. Qed.
  Lemma object_field_fine nf : stored_field R (snd nf) -> printable_field text_of AsObject nf -> field_ok (object_field W nf) /\ kept_field text_of (object_field W nf).
  Proof.
    intros [_ Sd] (N & Ty & D & A). assert (B : Forall (fun na => argument_ok (@argument Args na) /\ kept_argument text_of (@argument Args na)) (f_args (snd nf))) by (eapply Forall_impl; [exact arg_fine|exact A]). split.
    - split; [exact D|]. split; [exact N|]. split; [|split; [now apply named_type|now apply (ok_field_directives W R H)]]. cbn. apply Forall_map. eapply Forall_impl; [|exact B]. now intros a [X _].
    - unfold kept_field. cbn. apply Forall_map. eapply Forall_impl; [|exact B]. now intros a [_ X].
  Qed.
  Lemma interface_field_fine nf : stored_field R (snd nf) -> printable_field text_of AsInterface nf -> field_ok (interface_field W nf) /\ kept_field text_of (interface_field W nf).
  Proof.
    intros [_ Sd] (N & Ty & D). split; [|constructor]. split; [exact D|]. split; [exact N|]. split; [constructor|]. split; [now apply named_type|now apply (ok_field_directives W R H)].
  Qed.
  Lemma bare_directives f : bare f -> field_directives W f = [].
  Proof. intros (A & B & C & D & E & F). unfold field_directives. now rewrite A, B, C, D, E, F. Qed.
  Lemma input_field_fine nf : stored_field R (snd nf) -> printable_field text_of AsInput nf -> input_ok (input_field W nf) /\ kept_input text_of (input_field W nf).
  Proof.
    intros [_ Sd] (N & Ty & D & K & B). split; [|exact K]. split; [split; [exact N|split; [now apply named_type|now apply default_read]]|]. split; [exact D|]. split; [now apply (ok_field_directives W R H)|].
    destruct B as [B|B]; [now left|right]. now apply bare_directives.
  Qed.
  Lemma fields_fine {X} (f : string * field -> X) (p q : X -> Prop) u (fs : list (string * field)) :
    (forall nf, stored_field R (snd nf) -> printable_field text_of u nf -> p (f nf) /\ q (f nf)) ->
    Forall (fun nf => stored_field R (snd nf)) fs -> Forall (printable_field text_of u) fs -> Forall p (map f fs) /\ Forall q (map f fs).
  Proof.
    intros G A B. rewrite !Forall_map, !Forall_forall in *. split; intros x I; now apply G; [apply A|apply B].
  Qed.
  Lemma map_some {X Y} (f : X -> Y) l : l <> [] -> map f l <> [].
  Proof. destruct l; [congruence|discriminate]. Qed.
  Lemma members_full n u x : find_union c n = Some u -> In x (u_types u) -> full c x.
  Proof.
    intros E I t F. destruct Pr as (_ & Pu & _). apply (oget_in scmp scmp_order) in E. apply (oget_in scmp scmp_order) in F. rewrite Forall_forall in Pu. destruct (Pu _ E) as (_ & _ & G). exact (G x t I F).
  Qed.
  Lemma type_fine n t : In (n, t) (c_types c) -> type_def_ok (type_definition W (map fst m) inputs (n, t)) /\ kept_type text_of (type_definition W (map fst m) inputs (n, t)).
  Proof.
    intros I. destruct (sto_types R c St) as [So HS]. destruct (HS n t I) as ((Sf & Si) & Kd & Sto). destruct Pr as (Pt & _). destruct Sa as (_ & _ & Sy).
    assert (F : find_type c n = Some t) by (apply (in_oget scmp scmp_order); auto).
    assert (Od : dirs_ok (type_directives W t)) by now apply (ok_type_directives W R H).
    unfold type_def_ok, kept_type, type_definition, kind_of. cbn [td_kind td_doc td_dirs td_name fst snd].
    destruct (smem n (map fst m)) eqn:E1.
    - assert (U : usage c n t AsInterface) by (apply U_interface; now apply (interface_key c fuel m Em)). destruct (Pt n t _ I U) as (N & Im & Fs & Ne & D & Ad & Ca & Pc & Re & Di). cbn [fst snd] in *.
      assert (Dn : type_directives W t = []) by (unfold type_directives; now rewrite Ad, Ca, Pc, Re, Di).
      destruct (fields_fine _ _ _ _ _ interface_field_fine Sto Fs) as [A B].
      split; [split; [exact N|split; [exact Im|split; [now apply map_some|exact A]]]|split; [exact D|split; [exact Dn|exact B]]].
    - assert (NI : ~ Implemented c n) by (intros Q; apply (interface_key c fuel m Em) in Q; congruence).
      destruct (input_types_ok c T _ _ Ei) as [I1 I2].
      destruct (smem n inputs) eqn:E2.
      + assert (U : usage c n t AsInput) by (apply U_input; [exact NI|apply smem_In in E2; now apply I1]). destruct (Pt n t _ I U) as (N & Im & Fs & D). cbn [fst snd] in *.
        assert (Ne : t_fields t <> []) by (apply (inputs_full c fuel inputs members_full Ei n t); [now apply smem_In|exact F]).
        destruct (fields_fine _ _ _ _ _ input_field_fine Sto Fs) as [A B]. split; [split; [exact N|split; [exact D|split; [exact Od|split; [now apply map_some|exact A]]]]|exact B].
      + destruct (t_fields t) as [|nf fs] eqn:Ef.
        * assert (U : usage c n t AsScalar) by now apply U_scalar. destruct (Pt n t _ I U) as (N & _). destruct (Sy n t _ I U) as (_ & _ & Et). rewrite Et. cbn. split; [split; [exact N|exact Logic.I]|reflexivity].
        * assert (U : usage c n t AsObject).
          { apply U_object; [exact NI| |congruence]. intros U. apply smem_false in E2. apply E2. apply I2; [|exact U]. left. exists t. split; [exact F|congruence]. }
          destruct (Pt n t _ I U) as (N & Im & Fs & D). cbn [fst snd] in *. rewrite Ef in Fs.
          destruct (fields_fine _ _ _ _ _ object_field_fine Sto Fs) as [A B]. split; [split; [exact N|split; [exact D|split; [exact Od|split; [exact Im|split; [discriminate|exact A]]]]]|exact B].
  Qed.
  Lemma union_fine nu : In nu (c_unions c) -> type_def_ok (@union_definition Args nu) /\ kept_type text_of (@union_definition Args nu).
  Proof. intros I. destruct Pr as (_ & Pu & _). rewrite Forall_forall in Pu. destruct (Pu nu I) as (N & M & _). split; [split; [exact N|split; [constructor|exact M]]|reflexivity]. Qed.
  Lemma enum_fine ne : In ne (c_enums c) -> type_def_ok (enum_definition W ne) /\ kept_type text_of (enum_definition W ne).
  Proof.
    intros I. destruct Pr as (_ & _ & Pe & _). rewrite Forall_forall in Pe. destruct (Pe ne I) as (N & D & M & F). split; [|exact Logic.I]. split; [exact N|]. split; [exact D|]. split; [constructor|].
    split; [now apply map_some|]. apply Forall_map. eapply Forall_impl; [|exact F]. intros [v a] [A B]. cbn in *. split; [exact A|]. split; [exact B|].
    destruct a as [a|]; [|constructor]. constructor; [|constructor]. eapply ok_to; [apply (w_alias W R H)|reflexivity].
  Qed.
  Definition written_types : list (type_def Args) := map (type_definition W (map fst m) inputs) (c_types c) ++ map (@union_definition Args) (c_unions c) ++ map (enum_definition W) (c_enums c).
  Lemma written : config_document W fuel c = Some (DSchema (schema_of W c) :: map DType written_types).
  Proof. unfold config_document, written_types. rewrite Em, Ei, !map_app, !map_map. reflexivity. Qed.
  Lemma written_fine : Forall (fun t => type_def_ok t /\ kept_type text_of t) written_types.
  Proof.
    unfold written_types. rewrite !Forall_app, !Forall_map, !Forall_forall. split; [intros [n t]; apply type_fine|]. split; [exact union_fine|exact enum_fine].
  Qed.
  Lemma written_readable : readable (DSchema (schema_of W c) :: map DType written_types).
  Proof.
    constructor.
    - destruct Pr as (_ & _ & _ & _ & A & B & C). split; [apply (ok_schema_of W R H)|]. auto.
    - apply Forall_map. eapply Forall_impl; [|exact written_fine]. now intros t [A _].
  Qed.

  (** which definitions are types, unions and enums *)
  Definition kept_as (k : nat) (t : type_def TArgs) : bool :=
    match td_kind t with KUnion _ => Nat.eqb k 1 | KEnum _ => Nat.eqb k 2 | _ => Nat.eqb k 0 end.
  Lemma filter_none {X} (p : X -> bool) l : (forall x, In x l -> p x = false) -> filter p l = [].
  Proof. induction l as [|x l IH]; intros A; [reflexivity|]. cbn. rewrite (A x (or_introl eq_refl)). apply IH. intros y I. apply A. now right. Qed.
  Lemma names_once k : NoDup (map td_name (filter (kept_as k) (map tell_type written_types))).
  Proof.
    unfold written_types. rewrite !map_app, !filter_app, !map_map.
    assert (G : forall {V} (g : string * V -> type_def TArgs) j (l : list (string * V)), NoDup (map fst l) -> (forall x, td_name (g x) = fst x) -> (forall x, kept_as k (g x) = Nat.eqb k j) ->
       filter (kept_as k) (map g l) = (if Nat.eqb k j then map g l else []) /\ NoDup (map td_name (map g l))).
    { intros V g j l N A B. split.
      - destruct (Nat.eqb k j) eqn:E.
        + clear N. induction l as [|x l IH]; [reflexivity|]. cbn. rewrite B. now rewrite IH.
        + apply filter_none. intros x I. apply in_map_iff in I as (y & <- & _). apply B.
      - rewrite map_map. replace (map (fun x => td_name (g x)) l) with (map fst l); [exact N|]. apply map_ext. intros x. now rewrite A. }
    destruct (sto_types R c St) as [S0 _]. destruct (sto_unions R c St) as [S1 _]. destruct (sto_enums R c St) as [S2 _].
    apply (osorted_nodup scmp scmp_order) in S0, S1, S2.
    destruct (G _ (fun x => tell_type (type_definition W (map fst m) inputs x)) 0 _ S0) as [A0 B0]; [reflexivity| |].
    { intros [n t]. unfold kept_as, tell_type, type_definition, kind_of. cbn. destruct (smem n (map fst m)); [reflexivity|]. destruct (smem n inputs); [reflexivity|]. now destruct (t_fields t). }
    destruct (G _ (fun x => tell_type (union_definition x)) 1 _ S1) as [A1 B1]; [reflexivity|reflexivity|].
    destruct (G _ (fun x => tell_type (enum_definition W x)) 2 _ S2) as [A2 B2]; [reflexivity|reflexivity|].
    rewrite A0, A1, A2. destruct k as [|[|[|k]]]; cbn [Nat.eqb app]; rewrite ?app_nil_r; try assumption. constructor.
  Qed.

  Lemma text_read : lawful_codecs R -> from_sdl text_of R (print "" (DSchema (schema_of W c) :: map DType written_types)) = Ok c.
  Proof.
    intros L. unfold from_sdl. destruct (parsed text_of (schema_of W c) written_types written_readable) as (ts & E & P).
    { destruct Pr as (_ & _ & _ & Q & _). exact Q. }
    { eapply Forall_impl; [|exact written_fine]. now intros t [_ A]. }
    rewrite E.
    assert (B : from_document R (map tell_def (DSchema (schema_of W c) :: map DType written_types)) = Ok c).
    { pose proof (tell_document W R H fuel c _ written) as D. destruct (config_comes_back R L c T St fuel m inputs Em Ei _ D) as (c' & X & Y). rewrite (config_said c c' Sa Y) in X. exact X. }
    cbn [map tell_def] in B. rewrite map_map in B. cbn [tell_def] in B.
    assert (TD : forall l : list (type_def TArgs), type_definitions (DSchema (tell_schema (schema_of W c)) :: map DType l) = l).
    { intros l. cbn. induction l as [|t l IH]; [reflexivity|]. cbn. now f_equal. }
    unfold from_document in *. rewrite TD. rewrite <- (map_map tell_type DType), TD in B.
    assert (SD : forall l l' : list (definition TArgs), schema_definition (DSchema (tell_schema (schema_of W c)) :: l) = schema_definition (DSchema (tell_schema (schema_of W c)) :: l')) by reflexivity.
    rewrite (SD _ (map DType (map tell_type written_types))).
    set (sd := schema_definition _) in *. clearbody sd.
    apply rmap_ok in B as (x & B & Ec).
    apply vfuse_ok in B as [B B7]. apply vfuse_ok in B as [B B6]. apply vfuse_ok in B as [B B5]. apply vfuse_ok in B as [B B4]. apply vfuse_ok in B as [B B3]. apply vfuse_ok in B as [B1 B2].
    assert (C3 : to_types R ts = Ok (snd (fst (fst (fst (fst x)))))).
    { apply (collected_perm _ (kept_as 0) (map tell_type written_types) ts); [|apply names_once|exact P|exact B3]. intros t. unfold kept_as, to_type. destruct (td_kind t); reflexivity || discriminate. }
    assert (C4 : to_union_types ts = Ok (snd (fst (fst (fst x))))).
    { apply (collected_perm _ (kept_as 1) (map tell_type written_types) ts); [|apply names_once|exact P|exact B4]. intros t. unfold kept_as, to_union. destruct (td_kind t); reflexivity || discriminate. }
    assert (C5 : to_enum_types R ts = Ok (snd (fst (fst x)))).
    { apply (collected_perm _ (kept_as 2) (map tell_type written_types) ts); [|apply names_once|exact P|exact B5]. intros t. unfold kept_as, to_enum. destruct (td_kind t); reflexivity || discriminate. }
    rewrite B1, B2, C3, C4, C5, B6, B7. cbn [vfuse rmap]. rewrite Ec. now destruct x as [[[[[[? ?] ?] ?] ?] ?] ?].
  Qed.
End Config.
