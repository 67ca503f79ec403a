(** The check of [@grpc] fields: values with the schema of a type fit it, and the method that is found. *)
From Coq Require Import String Ascii ZArith NArith Bool Arith List Lia.
From Verif Require Import Base BaseFacts StringFacts Ordered OrderedFacts JsonModel SchemaModel SchemaSpec SchemaProofs TypeModel ConfigModel BuilderModel UrlModel PgModel PgSpec PgProofs GsModel GsSpec GsProofs.
From Verif Require RequestProofs Pg3Proofs Pg4Proofs.
Import ListNotations.
Open Scope string_scope.
Open Scope list_scope.

(** ** Types *)
Section Types.
  Variable c : config.

  Lemma scalar_fits n b v : oget scmp n (c_types c) = None -> oget scmp n (c_enums c) = None -> conforms (from_scalar_type n) v -> fits c (TNamed n b) v.
  Proof.
    intros T E. unfold from_scalar_type. destruct (String.eqb_spec n "String") as [->|N1]; [intros C; inversion C; now constructor|]. destruct (String.eqb_spec n "Int") as [->|N2]; [intros C; inversion C; now constructor|].
    destruct (String.eqb_spec n "Boolean") as [->|N3]; [intros C; inversion C; now constructor|]. destruct (String.eqb_spec n "Empty") as [->|N4]; [intros C; inversion C; now constructor|].
    intros _. apply Fi_other; auto. cbn. intuition congruence.
  Qed.
  Lemma typ_fits rec : (forall ty s v n b, oget scmp n (c_types c) = Some ty -> rec ty = Some s -> conforms s v -> fits c (TNamed n b) v) ->
    forall t s v, typ_schema c rec t = Some s -> conforms s v -> fits c t v.
  Proof.
    intros R. induction t as [n b|t IH b]; intros s v E C; cbn in E.
    - assert (X : forall s0 v, (match find_type c n with Some ty => rec ty | None => match ConfigModel.find_enum c n with Some e => Some (SEnum (string_set (map fst (e_variants e)))) | None => Some (from_scalar_type n) end end) = Some s0 -> conforms s0 v -> fits c (TNamed n b) v).
      { unfold find_type, ConfigModel.find_enum. intros s0 w E0 C0. destruct (oget scmp n (c_types c)) as [ty|] eqn:T; [now apply (R ty s0)|]. destruct (oget scmp n (c_enums c)) as [e|] eqn:En; injection E0 as <-; [|now apply scalar_fits].
        inversion C0 as [| | | | | |vs x I|vs x I| | | |]; subst; apply (proj1 (string_set_in _ _)) in I; apply (Fi_enum c n b e x); auto. }
      destruct (match find_type c n with Some ty => rec ty | None => _ end) as [s0|]; [|discriminate]. cbn in E. injection E as <-. destruct b; [now apply (X s0)|]. inversion C; subst; [constructor|now apply (X s0)].
    - destruct (typ_schema c rec t) as [s0|]; [|discriminate]. cbn in E. injection E as <-. assert (X : forall w, conforms (SArr s0) w -> fits c (TList t b) w).
      { intros w Cw. inversion Cw as [| | | | | | | |s' l F| | |]; subst. constructor. rewrite Forall_forall in *. intros x I. apply (IH s0 x eq_refl). now apply F. }
      destruct b; [now apply X|]. inversion C; subst; [constructor|now apply X].
  Qed.
  Lemma optional_typ rec t s : typ_schema c rec t = Some (SOpt s) -> (forall ty s', rec ty = Some s' -> is_optional s' = false) -> (exists n, t = TNamed n false) \/ exists t', t = TList t' false.
  Proof.
    intros E R. destruct t as [n [|]|t [|]]; cbn in E; eauto; exfalso.
    - destruct (find_type c n) as [ty|]; [|destruct (ConfigModel.find_enum c n); [discriminate|]].
      + destruct (rec ty) eqn:Er; [|discriminate]. cbn in E. injection E as ->. apply R in Er. discriminate.
      + injection E as E. unfold from_scalar_type in E. repeat destruct (String.eqb _ _); discriminate.
    - destruct (typ_schema c rec t); discriminate.
  Qed.
  Lemma object_not_optional n ty s : object_type_schema c n ty = Some s -> is_optional s = false.
  Proof. destruct n; cbn; [discriminate|]. destruct (traverse _ _); [|discriminate]. intros E. now injection E as <-. Qed.
  Lemma object_fits n : forall ty s v name b, oget scmp name (c_types c) = Some ty -> object_type_schema c n ty = Some s -> conforms s v -> fits c (TNamed name b) v.
  Proof.
    induction n as [|n IH]; intros ty s v name b T E C; [discriminate|]. cbn [object_type_schema] in E. destruct (traverse _ _) as [l|] eqn:Tr; [|discriminate]. cbn in E. injection E as <-. inversion C as [| | | | | | | | | | |fs kvs F]; subst.
    apply (Fi_object c name b ty kvs T). intros k f I R. destruct (traverse_in _ _ _ Tr) as [T1 _]. destruct (T1 (k, f)) as ([k' s] & E & J); [apply filter_In; split; [exact I|cbn; now rewrite R]|]. cbn [fst snd] in E.
    destruct (typ_schema c (object_type_schema c n) (f_type f)) as [s'|] eqn:Ef; [|discriminate]. cbn in E. injection E as <- <-. destruct (F k s' J) as [(v & A & Cv)|(A & s0 & ->)].
    - left. exists v. split; [exact A|]. eapply (typ_fits (object_type_schema c n)); [|exact Ef|exact Cv]. intros. eapply IH; eassumption.
    - right. split; [exact A|]. apply (optional_typ _ _ _ Ef). intros ty' s'. apply object_not_optional.
  Qed.
  Lemma schema_fits n t s v : to_json_schema c n t = Some s -> conforms s v -> fits c t v.
  Proof. apply typ_fits. intros. eapply object_fits; eassumption. Qed.

  Hypothesis NL : no_loose c.
  Lemma scalar_no_any n : no_any_field (from_scalar_type n).
  Proof. unfold from_scalar_type. repeat destruct (String.eqb _ _); constructor. Qed.
  Lemma typ_no_any rec : (forall n ty s, oget scmp n (c_types c) = Some ty -> rec ty = Some s -> no_any_field s) -> forall t s, typ_schema c rec t = Some s -> no_any_field s.
  Proof.
    intros R. induction t as [n b|t IH b]; intros s E; cbn in E.
    - unfold find_type, ConfigModel.find_enum in E. assert (X : forall s0, (match oget scmp n (c_types c) with Some ty => rec ty | None => match oget scmp n (c_enums c) with Some e => Some (SEnum (string_set (map fst (e_variants e)))) | None => Some (from_scalar_type n) end end) = Some s0 -> no_any_field s0).
      { intros s0 E0. destruct (oget scmp n (c_types c)) as [ty|] eqn:T; [now apply (R n ty)|]. destruct (oget scmp n (c_enums c)); injection E0 as <-; [constructor|apply scalar_no_any]. }
      destruct (match oget scmp n (c_types c) with Some ty => rec ty | None => _ end) as [s0|]; [|discriminate]. cbn in E. injection E as <-. destruct b; [|constructor]; now apply X.
    - destruct (typ_schema c rec t) as [s0|]; [|discriminate]. cbn in E. injection E as <-. destruct b; repeat constructor; now apply IH.
  Qed.
  Lemma object_no_any n : forall name ty s, oget scmp name (c_types c) = Some ty -> object_type_schema c n ty = Some s -> no_any_field s /\ s <> SAny.
  Proof.
    induction n as [|n IH]; intros name ty s T E; [discriminate|]. cbn [object_type_schema] in E. destruct (traverse _ _) as [l|] eqn:Tr; [|discriminate]. cbn in E. injection E as <-. split; [|discriminate]. constructor. rewrite Forall_forall. intros [k s] I. cbn [snd].
    destruct (traverse_in _ _ _ Tr) as [_ T2]. destruct (T2 _ I) as ([k' f] & J & E). apply filter_In in J. destruct J as [J R]. cbn [fst snd] in *. destruct (f_resolvers f) eqn:Fr; [|discriminate].
    destruct (typ_schema c (object_type_schema c n) (f_type f)) as [s'|] eqn:Ef; [|discriminate]. cbn in E. injection E as <- <-. split.
    - intros ->. destruct (f_type f) as [m b|t b] eqn:Ft; cbn in Ef; unfold find_type, ConfigModel.find_enum in Ef; [|destruct (typ_schema _ _ t); [destruct b|]; discriminate].
      destruct (oget scmp m (c_types c)) as [ty'|] eqn:Tm.
      + destruct (object_type_schema c n ty') as [s'|] eqn:Eo; [|discriminate]. cbn in Ef. destruct b; [|discriminate]. injection Ef as ->. now apply (IH m ty' SAny Tm).
      + destruct (oget scmp m (c_enums c)) eqn:Em; cbn in Ef; (destruct b; [|discriminate]); [discriminate|]. pose proof (NL name ty k' f m T J Fr Ft Tm Em) as K. cbn in K. destruct K as [<-|[<-|[<-|[<-|[]]]]]; discriminate.
    - eapply (typ_no_any (object_type_schema c n)); [|exact Ef]. intros nm ty0 s0 T0 E0. now apply (IH nm ty0 s0 T0 E0).
  Qed.
  Lemma schema_no_any n t s : to_json_schema c n t = Some s -> no_any_field s.
  Proof. apply typ_no_any. intros nm ty s0 T E. now apply (object_no_any n nm ty s0 T E). Qed.
End Types.

(** ** The method that is found *)
Lemma split_join sep s : String.concat (String sep "") (split_on sep s) = s.
Proof.
  induction s as [|a s IH]; [reflexivity|]. cbn. destruct (Ascii.eqb_spec a sep) as [->|N].
  - destruct (split_on sep s) eqn:E; [exfalso; destruct s as [|b s]; cbn in E; [discriminate|destruct (Ascii.eqb b sep); [discriminate|destruct (split_on sep s); discriminate]]|]. cbn. cbn in IH. now rewrite IH.
  - destruct (split_on sep s) as [|x l] eqn:E; [exfalso; destruct s as [|b s]; cbn in E; [discriminate|destruct (Ascii.eqb b sep); [discriminate|destruct (split_on sep s); discriminate]]|]. destruct l; cbn in *; now rewrite IH.
Qed.
Lemma grpc_method_text s package service name : grpc_method s = Some (package, service, name) -> s = (package ++ "." ++ service ++ "." ++ name)%string.
Proof.
  unfold grpc_method. intros E. rewrite <- (split_join "." s). destruct (rev (split_on "." s)) as [|n [|sv [|a l]]] eqn:R; try discriminate. injection E as <- <- <-.
  rewrite <- (rev_involutive (split_on "." s)), R. cbn [rev]. rewrite <- app_assoc. cbn [app]. destruct (rev l ++ [a]) as [|b bs] eqn:B; [destruct (rev l); discriminate|]. clear. revert b. induction bs as [|b' bs IH]; intros b.
  - cbn. reflexivity.
  - cbn [app]. rewrite !concat_cons2. cbn [app] in IH. rewrite IH. now rewrite !str_app_assoc.
Qed.
Lemma found files method package service name d : well_formed files -> grpc_method method = Some (package, service, name) -> to_operation files package service name = Ok d ->
  exists q, q <> [] /\ method_at files (q ++ [service; name]) d /\ method = String.concat "." (q ++ [service; name]) /\ package = String.concat "." q.
Proof.
  intros WF G O. unfold to_operation, find_service in O. destruct (find _ _) as [[full s]|] eqn:F; [|discriminate]. cbn in O. destruct (find _ (ps_methods s)) as [d'|] eqn:Fd; [|discriminate]. injection O as <-.
  apply find_some in F, Fd. destruct F as [I E], Fd as [J D]. cbn in E. apply String.eqb_eq in E, D. apply in_flat_map in I. destruct I as (f & If & I). apply in_map_iff in I. destruct I as (s' & Es & I). injection Es as Ef ->. rewrite E in Ef.
  destruct (wf_packages _ WF f If) as (q & P). assert (M : method_at files (q ++ [ps_name s; pd_name d']) d') by (exists f, q, s; auto). pose proof (wf_methods _ WF _ _ M) as W. destruct P as [P Pw].
  assert (T : method = (String.concat "." (q ++ [ps_name s; pd_name d']))%string /\ q <> []).
  { rewrite (grpc_method_text _ _ _ _ G). rewrite D. destruct q as [|a q].
    - exfalso. cbn in P. rewrite P in Ef. cbn in Ef. inversion W as [|? ? W1 _]; subst. apply word_lacks in W1. rewrite Ef in W1. clear -W1. rewrite RequestProofs.lacks_app in W1. cbn in W1. tauto.
    - split; [|discriminate]. destruct (String.eqb_spec (pl_package f) "") as [Z|_]; [exfalso; rewrite P in Z; inversion Pw as [|? ? [Wa _] _]; subst; destruct q; cbn in Z; [congruence|]; destruct a; discriminate|].
      rewrite P in Ef. replace ((a :: q) ++ [ps_name s; name]) with (((a :: q) ++ [ps_name s]) ++ [name]) by now rewrite <- app_assoc. rewrite concat_last. assert (Y : String.concat "." ((a :: q) ++ [ps_name s]) = (package ++ "." ++ service)%string) by (rewrite concat_last; exact Ef). rewrite Y. destruct ((a :: q) ++ [ps_name s]) as [|x l] eqn:X; [discriminate|]. now rewrite !str_app_assoc. }
  destruct T as [T N]. rewrite T in G. rewrite (Pg4Proofs.method_parts q (ps_name s) (pd_name d') N W) in G. injection G as <- <- <-. exists q. auto.
Qed.
Lemma undeclared camel json files c fuel validate url p keys t : well_formed files -> p <> [] -> Forall word p ->
  (forall d, ~ method_at files p d) ->
  exists e, compile_grpc camel json files c fuel validate {| g_url := url; g_method := String.concat "." p; g_batch_key := keys |} t = Some (Err e).
Proof.
  intros WF Np W N. unfold compile_grpc. cbn [g_method]. destruct (grpc_method _) as [[[a b] n]|] eqn:G; [|eauto]. destruct files as [|f fs] eqn:F; [eauto|]. rewrite <- F in *. clear F f fs.
  destruct (to_operation files a b n) as [d|e] eqn:O; [|eauto]. exfalso. destruct (found files _ _ _ _ d WF G O) as (q & Nq & M & E & _). apply (N d). pose proof (wf_methods _ WF _ _ M) as W'.
  assert (X : split_on "." (String.concat "." p) = split_on "." (String.concat "." (q ++ [b; n]))) by now rewrite E. rewrite !PgProofs.split_words in X; auto; [now rewrite X|now destruct q].
Qed.
Lemma malformed camel json files c fuel validate url p keys t : p <> [] -> Forall word p ->
  (length p < 3 -> compile_grpc camel json files c fuel validate {| g_url := url; g_method := String.concat "." p; g_batch_key := keys |} t = Some (Err InvalidMethod)) /\
  (3 <= length p -> compile_grpc camel json [] c fuel validate {| g_url := url; g_method := String.concat "." p; g_batch_key := keys |} t = Some (Err NoProtoFiles)).
Proof.
  intros Np W. unfold compile_grpc, grpc_method. cbn [g_method]. rewrite PgProofs.split_words by assumption. pose proof (rev_length p) as L. destruct (rev p) as [|x [|y [|z l]]]; cbn in L; split; intros H; try reflexivity; lia.
Qed.
Lemma trimmed s : without_slashes s (trim_slashes s).
Proof.
  split.
  - induction s as [|a s (tail & E & H)]; [exists ""; split; [reflexivity|intros c []]|]. cbn. destruct (trim_slashes s) as [|b t] eqn:T.
    + destruct (Ascii.eqb_spec a "/") as [->|N]; [exists (String "/" tail)|exists tail]; cbn in *; subst s; (split; [reflexivity|]); [|exact H]. intros c [<-|I]; [reflexivity|now apply H].
    + exists tail. cbn. rewrite E. split; [reflexivity|exact H].
  - induction s as [|a s IH]; intros b E; [destruct b; discriminate|]. cbn in E. destruct (trim_slashes s) as [|x t] eqn:T.
    + destruct (Ascii.eqb_spec a "/") as [->|N]; [destruct b; discriminate|]. destruct b as [|y b]; cbn in E; [congruence|]. injection E as _ E. destruct b; discriminate.
    + destruct b as [|y b]; cbn in E; [discriminate|]. injection E as _ E. now apply (IH b).
Qed.

(** ** The check *)
Lemma in_pool_message files r m : well_formed files -> message_of files r = Some m -> exists p, refers r p /\ message_at files p m.
Proof.
  intros WF E. unfold message_of in E. destruct (aget r (pool files)) as [[m'|]|] eqn:A; try discriminate. injection E as ->. apply aget_In in A. apply (pool_in files WF) in A. destruct A as (p & -> & N & M). exists p. split; [now apply refers_dots|exact M].
Qed.
Lemma sound camel json files c fuel url method t u d b : well_formed files -> ordinary json files camel -> no_loose c ->
  compile_grpc camel json files c fuel true {| g_url := url; g_method := method; g_batch_key := [] |} t = Some (Ok (u, d, b)) ->
  b = false /\ exists q s n base, method_at files (q ++ [s; n]) d /\ method = String.concat "." (q ++ [s; n]) /\ without_slashes url base /\ u = (base ++ "/" ++ String.concat "." (q ++ [s]) ++ "/" ++ n)%string /\
  exists p m, refers (pd_output d) p /\ message_at files p m /\ (is_map_entry m = false -> forall v, answer json files p m v -> fits c t v).
Proof.
  intros WF OR NL E. unfold compile_grpc in E. cbn [g_url g_method g_batch_key] in E. destruct (grpc_method method) as [[[pk sv] nm]|] eqn:G; [|discriminate]. destruct files as [|f0 fs] eqn:Ef; [discriminate|]. rewrite <- Ef in *. clear Ef f0 fs.
  destruct (to_operation files pk sv nm) as [d'|] eqn:O; [|discriminate]. destruct (validate_schema camel files c fuel d' t) as [[[]|]|] eqn:V; try discriminate. cbn in E. injection E as <- <- <-. split; [reflexivity|].
  destruct (found files method pk sv nm d' WF G O) as (q & N & M & T & P). exists q, sv, nm, (trim_slashes url). split; [exact M|]. split; [exact T|]. split; [apply trimmed|]. split.
  - unfold to_url. rewrite concat_last, P. destruct q; [contradiction|]. now rewrite !str_app_assoc.
  - unfold validate_schema in V. destruct (message_of files (pd_input d')) as [m0|]; [|discriminate]. destruct (message_of files (pd_output d')) as [m|] eqn:Mo; [|discriminate].
    destruct (message_schema camel files fuel m0); [|discriminate]. destruct (message_schema camel files fuel m) as [sub|] eqn:Es; [|discriminate]. destruct (to_json_schema c fuel t) as [super|] eqn:Et; [|discriminate]. destruct (is_a sub super) eqn:A; [|discriminate].
    destruct (in_pool_message files _ m WF Mo) as (p & R & Ma). exists p, m. split; [exact R|]. split; [exact Ma|]. intros Nm v An. apply (schema_fits c fuel t super v Et). apply (is_a_sound super sub v); [now apply (schema_no_any c NL fuel t)|exact A|].
    now apply (answer_conforms camel json files WF OR fuel p m sub v).
Qed.
Lemma fold_last {A B} (g : A -> B) l : forall z, fold_left (fun _ k => g k) l z = match rev l with [] => z | k :: _ => g k end.
Proof. induction l as [|a l IH] using rev_ind; intros z; [reflexivity|]. rewrite fold_left_app, rev_app_distr. reflexivity. Qed.
Lemma batched camel json files c fuel url method keys t u d b : well_formed files -> keys <> [] ->
  compile_grpc camel json files c fuel true {| g_url := url; g_method := method; g_batch_key := keys |} t = Some (Ok (u, d, b)) ->
  b = true /\ (exists q s n, method_at files (q ++ [s; n]) d /\ method = String.concat "." (q ++ [s; n])) /\
  exists ks k last p m f, keys = ks ++ [k; last] /\ refers (pd_output d) p /\ message_at files p m /\ In f (message_fields m) /\ json f = k.
Proof.
  intros WF Nk E. unfold compile_grpc in E. cbn [g_url g_method g_batch_key] in E. destruct (grpc_method method) as [[[pk sv] nm]|] eqn:G; [|discriminate]. destruct files as [|f0 fs] eqn:Ef; [discriminate|]. rewrite <- Ef in *. clear Ef f0 fs.
  destruct (to_operation files pk sv nm) as [d'|] eqn:O; [|discriminate]. assert (V : validate_group_by camel json files c fuel d' t keys = Some (Ok tt) /\ d' = d /\ b = true).
  { destruct keys as [|k0 keys]; [contradiction|]. destruct (validate_group_by camel json files c fuel d' t (k0 :: keys)) as [[[]|]|]; try discriminate. cbn in E. injection E as _ <- <-. auto. }
  destruct V as (V & -> & ->). split; [reflexivity|]. split; [destruct (found files method pk sv nm d WF G O) as (q & _ & M & T & _); eauto|].
  unfold validate_group_by in V. destruct (message_of files (pd_input d)) as [i|]; [|discriminate]. destruct (message_of files (pd_output d)) as [m|] eqn:Mo; [|discriminate]. destruct (message_schema camel files fuel i); [|discriminate].
  rewrite fold_last in V. destruct (rev (removelast keys)) as [|k l] eqn:R; [discriminate|]. destruct (by_json_name json m k) as [f|] eqn:B; [|discriminate].
  destruct keys as [|lst keys _] using rev_ind; [contradiction|]. rewrite removelast_last in R. destruct (in_pool_message files _ m WF Mo) as (p & Rp & Ma). exists (rev l), k, lst, p, m, f. split.
  - rewrite <- (rev_involutive keys), R. cbn [rev]. now rewrite <- app_assoc.
  - split; [exact Rp|]. split; [exact Ma|]. destruct m as [n0 b0 e0 ns0 o0 fs0]. cbn in B. apply find_some in B. destruct B as [I J]. split; [exact I|now apply String.eqb_eq].
Qed.
