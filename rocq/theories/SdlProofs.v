(** Proofs: configurations written as texts in GraphQL are read again. *)
From Coq Require Import String Ascii ZArith NArith Bool Arith Lia List Permutation.
From Verif Require Import Base BaseFacts Ordered OrderedFacts JsonModel TypeModel TypeProofs BuilderModel ConfigModel MergeSpec RenameSpec FedModel AmbModel AmbSpec AmbProofs DocModel DocSpec DocProofs DocRound
  PrModel PrSpec PrProofs Pr2Proofs Pr3Proofs SdlModel SdlSpec.
Import ConfigModel.
Import ListNotations.
Open Scope string_scope.
Open Scope list_scope.

(** ** Documents with texts and documents with tokens *)
Definition tell_dir (d : dir Args) : dir TArgs := as_dir (dir_told d).
Definition tell_input (i : input_value Args) : input_value TArgs :=
  {| iv_doc := iv_doc i; iv_name := iv_name i; iv_type := iv_type i; iv_default := iv_default i; iv_dirs := map tell_dir (iv_dirs i) |}.
Definition tell_field (f : field_def Args) : field_def TArgs :=
  {| fd_doc := fd_doc f; fd_name := fd_name f; fd_args := map tell_input (fd_args f); fd_type := fd_type f; fd_dirs := map tell_dir (fd_dirs f) |}.
Definition tell_kind (k : kind Args) : kind TArgs :=
  match k with
  | KScalar => KScalar
  | KObject is fs => KObject is (map tell_field fs)
  | KInterface is fs => KInterface is (map tell_field fs)
  | KUnion ms => KUnion ms
  | KEnum vs => KEnum (map (fun v => (fst v, map tell_dir (snd v))) vs)
  | KInput fs => KInput (map tell_input fs)
  end.
Definition tell_type (t : type_def Args) : type_def TArgs :=
  {| td_doc := td_doc t; td_name := td_name t; td_dirs := map tell_dir (td_dirs t); td_kind := tell_kind (td_kind t) |}.
Definition tell_schema (s : schema_def Args) : schema_def TArgs :=
  {| sd_dirs := map tell_dir (sd_dirs s); sd_query := sd_query s; sd_mutation := sd_mutation s; sd_subscription := sd_subscription s |}.
Definition tell_def (d : definition Args) : definition TArgs :=
  match d with DSchema s => DSchema (tell_schema s) | DType t => DType (tell_type t) | DDirective => DDirective end.

Section Write.
  Variables (W : codecs Args) (R : codecs TArgs).
  Hypothesis H : writes_all W R.

  Lemma tell_to {A} rt (w : codec Args A) (r : codec TArgs A) a : writes w r -> to_directive rt r a = tell_dir (to_directive rt w a).
  Proof. intros X. destruct (X a) as [_ E]. unfold to_directive, tell_dir, as_dir, dir_told. cbn. now rewrite E. Qed.
  Lemma ok_to {A} rt (w : codec Args A) (r : codec TArgs A) a : writes w r -> is_name (directive_name rt) -> dir_ok (to_directive rt w a).
  Proof. intros X N. destruct (X a) as [Y _]. split; [exact N|exact Y]. Qed.
  Lemma tell_opt {A} rt (w : codec Args A) (r : codec TArgs A) o : writes w r ->
    opt_list (option_map (to_directive rt r) o) = map tell_dir (opt_list (option_map (to_directive rt w) o)).
  Proof. intros X. destruct o as [a|]; [|reflexivity]. cbn. now rewrite (tell_to rt w r a X). Qed.
  Lemma ok_opt {A} rt (w : codec Args A) (r : codec TArgs A) o : writes w r -> is_name (directive_name rt) -> dirs_ok (opt_list (option_map (to_directive rt w) o)).
  Proof. intros X N. destruct o as [a|]; [|constructor]. constructor; [exact (ok_to rt w r a X N)|constructor]. Qed.
  Lemma tell_resolver r : resolver_directive R r = option_map tell_dir (resolver_directive W r).
  Proof. destruct H. destruct r; cbn [resolver_directive option_map]; try reflexivity; f_equal; now apply tell_to. Qed.
  Lemma ok_resolver r d : resolver_directive W r = Some d -> dir_ok d.
  Proof.
    intros E. destruct H. destruct r; cbn [resolver_directive] in E; try discriminate; injection E as <-; (eapply ok_to; [eassumption|reflexivity]).
  Qed.
  Lemma tell_resolvers l : flat_map (fun r => opt_list (resolver_directive R r)) l = map tell_dir (flat_map (fun r => opt_list (resolver_directive W r)) l).
  Proof. induction l as [|r l IH]; [reflexivity|]. cbn [flat_map]. rewrite map_app, IH, tell_resolver. f_equal. now destruct (resolver_directive W r). Qed.
  Lemma ok_resolvers l : dirs_ok (flat_map (fun r => opt_list (resolver_directive W r)) l).
  Proof.
    apply Forall_forall. intros d I. apply in_flat_map in I as (r & _ & I). destruct (resolver_directive W r) as [d'|] eqn:E; [|destruct I]. destruct I as [<-|[]]. exact (ok_resolver r d' E).
  Qed.
  Lemma tell_into l : into_directives R l = map tell_dir (into_directives W l).
  Proof.
    destruct H. unfold into_directives. rewrite map_map. apply map_ext. intros d. unfold tell_dir, as_dir, dir_told. cbn. rewrite w_other_name. f_equal. destruct (w_other d) as [_ E]. now rewrite E.
  Qed.
  Lemma federation_names n : In n FEDERATION_DIRECTIVES -> is_name n.
  Proof. intros I. unfold FEDERATION_DIRECTIVES in I. repeat (destruct I as [<-|I]; [reflexivity|]). destruct I. Qed.
  Lemma ok_into l : Forall (kept_directive R) l -> dirs_ok (into_directives W l).
  Proof.
    destruct H. intros F. unfold into_directives. apply Forall_forall. intros d I. apply in_map_iff in I as (x & <- & I). split; cbn; [|apply (w_other x)].
    rewrite w_other_name. apply federation_names. rewrite Forall_forall in F. exact (F x I).
  Qed.
  Lemma tell_omit (b : bool) : (if b then [to_directive "Omit" (k_omit R) tt] else []) = map tell_dir (if b then [to_directive "Omit" (k_omit W) tt] else []).
  Proof. destruct b; [|reflexivity]. cbn [map]. f_equal. apply tell_to, H. Qed.
  Lemma tell_field_directives f : field_directives R f = map tell_dir (field_directives W f).
  Proof.
    unfold field_directives. rewrite !map_app, tell_resolvers, tell_into, tell_omit. destruct H.
    rewrite (tell_opt "Modify" _ _ _ w_modify), (tell_opt "Cache" _ _ _ w_cache), (tell_opt "Protected" _ _ _ w_protected). reflexivity.
  Qed.
  Lemma dirs_app l l' : dirs_ok l -> dirs_ok l' -> dirs_ok (l ++ l').
  Proof. intros A B. apply Forall_app. auto. Qed.
  Lemma ok_field_directives f : Forall (kept_directive R) (f_directives f) -> dirs_ok (field_directives W f).
  Proof.
    intros F. unfold field_directives. pose proof H as H'. destruct H'. repeat apply dirs_app; [apply ok_resolvers|eapply ok_opt; [eassumption|reflexivity]| |eapply ok_opt; [eassumption|reflexivity]|eapply ok_opt; [eassumption|reflexivity]|now apply ok_into].
    destruct (f_omit f); [|constructor]. constructor; [|constructor]. eapply ok_to; [eassumption|reflexivity].
  Qed.
  Lemma tell_added l : map (to_directive "AddField" (k_add_field R)) l = map tell_dir (map (to_directive "AddField" (k_add_field W)) l).
  Proof. rewrite map_map. apply map_ext. intros a. apply tell_to, H. Qed.
  Lemma tell_type_directives t : type_directives R t = map tell_dir (type_directives W t).
  Proof.
    unfold type_directives. rewrite !map_app, tell_resolvers, tell_into, tell_added. destruct H.
    rewrite (tell_opt "Cache" _ _ _ w_cache), (tell_opt "Protected" _ _ _ w_protected). reflexivity.
  Qed.
  Lemma ok_type_directives t : Forall (kept_directive R) (t_directives t) -> dirs_ok (type_directives W t).
  Proof.
    intros F. unfold type_directives. pose proof H as H'. destruct H'. repeat apply dirs_app; [|eapply ok_opt; [eassumption|reflexivity]|eapply ok_opt; [eassumption|reflexivity]|apply ok_resolvers|now apply ok_into].
    apply Forall_forall. intros d I. apply in_map_iff in I as (a & <- & _). eapply ok_to; [eassumption|reflexivity].
  Qed.
  Lemma tell_interface_field nf : interface_field R nf = tell_field (interface_field W nf).
  Proof. unfold interface_field, tell_field. cbn. now rewrite tell_field_directives. Qed.
  Lemma tell_input_field nf : input_field R nf = tell_input (input_field W nf).
  Proof. unfold input_field, tell_input. cbn. now rewrite tell_field_directives. Qed.
  Lemma tell_argument na : @argument TArgs na = tell_input (@argument Args na).
  Proof. reflexivity. Qed.
  Lemma tell_object_field nf : object_field R nf = tell_field (object_field W nf).
  Proof. unfold object_field, tell_field. cbn. rewrite tell_field_directives, map_map. reflexivity. Qed.
  Lemma tell_kind_of is ins n t : kind_of R is ins n t = tell_kind (kind_of W is ins n t).
  Proof.
    unfold kind_of. destruct (smem n is); [cbn; rewrite map_map; f_equal; apply map_ext, tell_interface_field|].
    destruct (smem n ins); [cbn; rewrite map_map; f_equal; apply map_ext, tell_input_field|].
    destruct (t_fields t) as [|nf fs]; [reflexivity|]. cbn [tell_kind]. rewrite map_map. f_equal. apply map_ext, tell_object_field.
  Qed.
  Lemma tell_type_definition is ins nt : type_definition R is ins nt = tell_type (type_definition W is ins nt).
  Proof. unfold type_definition, tell_type. cbn. now rewrite tell_type_directives, tell_kind_of. Qed.
  Lemma tell_enum_definition ne : enum_definition R ne = tell_type (enum_definition W ne).
  Proof.
    unfold enum_definition, tell_type. cbn. rewrite map_map. do 2 f_equal. apply map_ext. intros [v [a|]]; unfold enum_value; cbn; [|reflexivity]. do 2 f_equal. apply tell_to, H.
  Qed.
  Lemma tell_schema_of c : schema_of R c = tell_schema (schema_of W c).
  Proof.
    unfold schema_of, tell_schema. cbn. destruct H. rewrite (tell_to "Server" _ _ _ w_server), (tell_to "Upstream" _ _ _ w_upstream), map_map. do 3 f_equal. apply map_ext. intros a. now apply tell_to.
  Qed.
  Lemma ok_schema_of c : dirs_ok (sd_dirs (schema_of W c)).
  Proof.
    pose proof H as H'. destruct H'. constructor; [eapply ok_to; [eassumption|reflexivity]|]. constructor; [eapply ok_to; [eassumption|reflexivity]|].
    apply Forall_forall. intros d I. apply in_map_iff in I as (a & <- & _). eapply ok_to; [eassumption|reflexivity].
  Qed.
  Lemma tell_document fuel c doc : config_document W fuel c = Some doc -> config_document R fuel c = Some (map tell_def doc).
  Proof.
    unfold config_document. destruct (interfaces_types_map fuel c) as [m|]; [|discriminate]. destruct (input_types fuel c) as [ins|]; [|discriminate]. intros E. injection E as <-.
    cbn [map tell_def]. rewrite tell_schema_of, !map_app, !map_map. do 2 f_equal. f_equal; [|f_equal]; apply map_ext; intros x; cbn; f_equal; [apply tell_type_definition|apply tell_enum_definition].
  Qed.
End Write.
