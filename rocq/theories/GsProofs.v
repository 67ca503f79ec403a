(** The check of [@grpc] fields: the pool of descriptors, answers and schemas. *)
From Coq Require Import String Ascii ZArith NArith Bool Arith List Lia.
From Verif Require Import Base BaseFacts StringFacts Ordered OrderedFacts JsonModel SchemaModel SchemaSpec SchemaProofs TypeModel ConfigModel BuilderModel UrlModel PgModel PgSpec PgProofs GsModel GsSpec.
From Verif Require Pg3Proofs Pg4Proofs.
Import ListNotations.
Open Scope string_scope.
Open Scope list_scope.

(** ** The pool *)
Definition dots (q : list string) : string := String.concat "" (map (fun w => "." ++ w)%string q).
Lemma dots_cons w q : dots (w :: q) = ("." ++ w ++ dots q)%string.
Proof. unfold dots. cbn [map]. destruct q; cbn; [now rewrite str_app_nil_r|reflexivity]. Qed.
Lemma dots_app p q : dots (p ++ q) = (dots p ++ dots q)%string.
Proof. induction p as [|w p IH]; [reflexivity|]. cbn [app]. rewrite !dots_cons, IH. cbn. now rewrite str_app_assoc. Qed.
Lemma dots_last p n : dots (p ++ [n]) = (dots p ++ "." ++ n)%string.
Proof. now rewrite dots_app, dots_cons, str_app_nil_r. Qed.
Lemma dots_is q : q <> [] -> dots q = ("." ++ String.concat "." q)%string.
Proof. induction q as [|w q IH]; intros N; [contradiction|]. rewrite dots_cons. destruct q as [|v q]; [cbn; now rewrite str_app_nil_r|]. rewrite IH by discriminate. now rewrite concat_cons2. Qed.
Lemma refers_dots r q : q <> [] -> (refers r q <-> r = dots q).
Proof. intros N. unfold refers. now rewrite dots_is. Qed.
Lemma dots_inj p q : Forall word p -> Forall word q -> p <> [] -> q <> [] -> dots p = dots q -> p = q.
Proof. intros P Q Np Nq. rewrite !dots_is by assumption. intros E. injection E as E. now apply dotted_inj. Qed.

Definition placed (p : list string) (m : message) (r : string) (d : descriptor) (q : list string) : Prop :=
  d = DMessage m /\ r = dots (q ++ p) \/ is_map_entry m = false /\ exists e, In e (message_enums m) /\ d = DEnum e /\ r = dots (q ++ p ++ [pe_name e]).
Lemma message_pool_in m : forall q r d, In (r, d) (message_pool (dots q) m) <-> exists p m', In (p, m') (Pg4Proofs.all_in m) /\ placed p m' r d q.
Proof.
  induction m as [n b es nested o fs IH] using Pg3Proofs.message_nested_ind. intros q r d. rewrite Forall_forall in IH. cbn [message_pool Pg4Proofs.all_in message_name].
  set (m := Message n b es nested o fs). rewrite <- dots_last. split.
  - intros [I|I]; [injection I as <- <-; exists [n], m; split; [now left|now left]|]. destruct b; [destruct I|]. apply in_app_iff in I. destruct I as [I|I].
    + apply in_map_iff in I. destruct I as (e & E & I). injection E as <- <-. exists [n], m. split; [now left|]. right. split; [reflexivity|]. exists e. split; [exact I|]. split; [reflexivity|]. rewrite app_assoc, (dots_last (q ++ [n])). reflexivity.
    + apply in_flat_map in I. destruct I as (m1 & J & I). apply (IH m1 J) in I. destruct I as (p & m' & I & P). exists (n :: p), m'. split.
      * right. apply in_flat_map. exists m1. split; [exact J|]. apply in_map_iff. now exists (p, m').
      * destruct P as [[-> ->]|(N & e & K & -> & ->)]; [left|right; split; [exact N|exists e]]; now rewrite <- !app_assoc.
  - intros (p & m' & [I|I] & P).
    + injection I as <- <-. destruct P as [[-> ->]|(N & e & K & -> & ->)]; [now left|]. right. cbn in N. subst b. apply in_app_iff. left. apply in_map_iff. exists e. rewrite app_assoc, (dots_last (q ++ [n])). auto.
    + destruct b; [destruct I|]. apply in_flat_map in I. destruct I as (m1 & J & I). apply in_map_iff in I. destruct I as ([p1 m2] & E & I). cbn in E. injection E as <- <-. right. apply in_app_iff. right. apply in_flat_map. exists m1. split; [exact J|].
      apply (IH m1 J). exists p1, m2. split; [exact I|]. destruct P as [[-> ->]|(N & e & K & -> & ->)]; [left|right; split; [exact N|exists e]]; now rewrite <- !app_assoc.
Qed.
Lemma scope_dots f q : in_package f q -> file_scope f = dots q.
Proof.
  intros [E W]. unfold file_scope. rewrite E. destruct q as [|a q]; [reflexivity|]. rewrite dots_is by discriminate. destruct (String.eqb_spec (String.concat "." (a :: q)) "") as [Z|]; [|reflexivity].
  exfalso. inversion W as [|? ? [Wa _] _]; subst. destruct q; cbn in Z; [congruence|]. destruct a; discriminate.
Qed.

Section Files.
  Variable files : list pfile.
  Hypothesis WF : well_formed files.

  Lemma pool_in r d : In (r, d) (pool files) <-> exists p, r = dots p /\ p <> [] /\ match d with DMessage m => message_at files p m | DEnum e => enum_at files p e end.
  Proof.
    unfold pool. rewrite in_flat_map. split.
    - intros (f & If & I). destruct (wf_packages _ WF f If) as (q & P). unfold file_pool in I. rewrite (scope_dots f q P) in I. apply in_app_iff in I. destruct I as [I|I].
      + apply in_map_iff in I. destruct I as (e & E & I). injection E as <- <-. exists (q ++ [pe_name e]). rewrite dots_last. split; [reflexivity|]. split; [now destruct q|]. left. exists f, q. auto.
      + apply in_flat_map in I. destruct I as (m0 & J & I). apply message_pool_in in I. destruct I as (p & m & I & Pl). pose proof (Pg4Proofs.all_in_sound m0 (pl_messages f) J p m I) as D.
        assert (Np : p <> []) by (inversion D; discriminate). assert (M : message_at files (q ++ p) m) by (exists f, q, p; auto).
        destruct Pl as [[-> ->]|(N & e & K & -> & ->)]; [exists (q ++ p)|exists (q ++ p ++ [pe_name e])]; (split; [reflexivity|]); (split; [intros E; apply app_eq_nil in E; destruct E as [_ E]; now destruct p|]); [exact M|].
        right. exists (q ++ p), m. now rewrite <- app_assoc.
    - intros (p & -> & Np & D). assert (X : forall f q r0 m e, In f files -> in_package f q -> declares (pl_messages f) r0 m -> (d = DMessage m /\ p = q ++ r0 \/ is_map_entry m = false /\ In e (message_enums m) /\ d = DEnum e /\ p = q ++ r0 ++ [pe_name e]) -> exists f', In f' files /\ In (dots p, d) (file_pool f')).
      { intros f q r0 m e If P De C. exists f. split; [exact If|]. unfold file_pool. rewrite (scope_dots f q P). apply in_app_iff. right. apply Pg4Proofs.all_in_complete in De. apply in_flat_map in De. destruct De as (m0 & J & De). apply in_flat_map. exists m0. split; [exact J|].
        apply message_pool_in. exists r0, m. split; [exact De|]. destruct C as [[-> ->]|(N & K & -> & ->)]; [now left|]. right. split; [exact N|]. exists e. auto. }
      destruct d as [m|e].
      + destruct D as (f & q & r & If & P & De & ->). apply (X f q r m {| pe_name := ""; pe_values := [] |}); auto.
      + destruct D as [(f & q & If & P & J & ->)|(q & m & (f & q0 & r0 & If & P & De & ->) & N & J & ->)].
        * exists f. split; [exact If|]. unfold file_pool. rewrite (scope_dots f q P). apply in_app_iff. left. apply in_map_iff. exists e. now rewrite dots_last.
        * apply (X f q0 r0 m e); auto. right. rewrite <- app_assoc. auto.
  Qed.
  Lemma message_words p m : message_at files p m -> Forall word p /\ p <> [].
  Proof. intros M. split; [now apply (wf_messages _ WF p m)|]. destruct M as (f & q & r & _ & _ & D & ->). intros E. apply app_eq_nil in E. destruct E as [_ ->]. inversion D. Qed.
  Lemma enum_words p e : enum_at files p e -> Forall word p /\ p <> [].
  Proof. intros M. split; [now apply (wf_enums _ WF p e)|]. destruct M as [(f & q & _ & _ & _ & ->)|(q & m & _ & _ & _ & ->)]; now destruct q. Qed.
  Lemma find_message p m : message_at files p m -> aget ("." ++ String.concat "." p)%string (pool files) = Some (DMessage m).
  Proof.
    intros M. destruct (message_words p m M) as [W N]. rewrite <- dots_is by exact N. assert (I : In (dots p, DMessage m) (pool files)) by (apply pool_in; exists p; auto).
    destruct (aget (dots p) (pool files)) as [d|] eqn:A.
    - apply aget_In in A. apply pool_in in A. destruct A as (p' & E & N' & D). destruct d as [m'|e].
      + destruct (message_words p' m' D) as [W' _]. apply dots_inj in E; auto. subst p'. now rewrite (wf_unique _ WF p m' m D M).
      + exfalso. destruct (enum_words p' e D) as [W' _]. apply dots_inj in E; auto. subst p'. exact (wf_kinds _ WF p m e M D).
    - exfalso. apply aget_None in A. apply A. change (dots p) with (fst (dots p, DMessage m)). now apply in_map.
  Qed.
  Lemma find_enum p e : enum_at files p e -> aget ("." ++ String.concat "." p)%string (pool files) = Some (DEnum e).
  Proof.
    intros M. destruct (enum_words p e M) as [W N]. rewrite <- dots_is by exact N. assert (I : In (dots p, DEnum e) (pool files)) by (apply pool_in; exists p; auto).
    destruct (aget (dots p) (pool files)) as [d|] eqn:A.
    - apply aget_In in A. apply pool_in in A. destruct A as (p' & E & N' & D). destruct d as [m'|e'].
      + exfalso. destruct (message_words p' m' D) as [W' _]. apply dots_inj in E; auto. subst p'. exact (wf_kinds _ WF p m' e D M).
      + destruct (enum_words p' e' D) as [W' _]. apply dots_inj in E; auto. subst p'. now rewrite (wf_unique_enums _ WF p e' e D M).
    - exfalso. apply aget_None in A. apply A. change (dots p) with (fst (dots p, DEnum e)). now apply in_map.
  Qed.
End Files.

(** ** Lists *)
Lemma traverse_in {A B} (f : A -> option B) l : forall r, traverse f l = Some r -> (forall a, In a l -> exists b, f a = Some b /\ In b r) /\ (forall b, In b r -> exists a, In a l /\ f a = Some b).
Proof.
  induction l as [|a l IH]; intros r E; cbn in E; [injection E as <-; split; intros ? []|]. destruct (f a) as [b|] eqn:F; [|discriminate]. destruct (traverse f l) as [bs|] eqn:T; [|discriminate]. injection E as <-. destruct (IH bs eq_refl) as [X Y]. split.
  - intros a' [<-|I]; [exists b; split; [exact F|now left]|]. destruct (X a' I) as (b' & ? & ?). exists b'. split; [assumption|now right].
  - intros b' [<-|I]; [exists a; split; [now left|exact F]|]. destruct (Y b' I) as (a' & ? & ?). exists a'. split; [now right|assumption].
Qed.
Lemma string_set_in l v : In v (string_set l) <-> In v l.
Proof.
  unfold string_set. assert (X : forall a, In v (fold_left (fun s v => sins scmp v s) l a) <-> In v l \/ In v a); [|rewrite X; cbn; tauto].
  induction l as [|b l IH]; intros a; cbn [fold_left]; [cbn; tauto|]. rewrite IH, (sins_in scmp scmp_order). cbn. intuition congruence.
Qed.
Lemma string_set_sorted l : ssorted scmp (string_set l).
Proof.
  unfold string_set. assert (X : forall a, ssorted scmp a -> ssorted scmp (fold_left (fun s v => sins scmp v s) l a)); [|apply X; constructor].
  induction l as [|b l IH]; intros a H; cbn [fold_left]; [exact H|]. apply IH. now apply (ssorted_sins scmp scmp_order).
Qed.
Lemma string_set_eq l l' : (forall v, In v l <-> In v l') -> string_set l = string_set l'.
Proof. intros H. apply (ssorted_ext scmp scmp_order); try apply string_set_sorted. intros k. now rewrite !string_set_in. Qed.

(** ** Answers have the schema of their message *)
Lemma declares_nested ms p m m' : declares ms p m -> is_map_entry m = false -> In m' (message_nested m) -> declares ms (p ++ [message_name m']) m'.
Proof. induction 1 as [ms m I|ms m p m1 I N D IH]; intros E J; cbn [app]; (eapply Inside; [exact I|assumption|]); [now constructor|now apply IH]. Qed.
Lemma nested_at files p m m' : message_at files p m -> is_map_entry m = false -> In m' (message_nested m) -> message_at files (p ++ [message_name m']) m'.
Proof. intros (f & q & r & If & P & D & ->) E J. exists f, q, (r ++ [message_name m']). split; [exact If|]. split; [exact P|]. split; [now apply (declares_nested _ _ m)|now rewrite app_assoc]. Qed.
Lemma inserted_in (l : list (string * schema)) k s : In (k, s) (fold_left (fun fs ks => oins scmp (fst ks) (snd ks) fs) l []) -> In (k, s) l.
Proof.
  assert (X : forall a, In (k, s) (fold_left (fun fs ks => oins scmp (fst ks) (snd ks) fs) l a) -> In (k, s) l \/ In (k, s) a); [|intros H; destruct (X [] H) as [|[]]; assumption].
  induction l as [|[k' s'] l IH]; intros a H; cbn [fold_left fst snd] in H; [now right|]. destruct (IH _ H) as [I|I]; [left; now right|]. apply (oins_in scmp scmp_order) in I. destruct I as [[-> ->]|I]; [left; now left|now right].
Qed.

Section Messages.
  Variable camel : string -> string.
  Variable json : pfield -> string.
  Variable files : list pfile.
  Hypothesis WF : well_formed files.
  Hypothesis OR : ordinary json files camel.
  Notation message_schema := (message_schema camel files).
  Notation field_schema := (field_schema files).

  Lemma written_conforms p v : as_number p -> written p v -> conforms (scalar_schema p) v.
  Proof. destruct p; cbn; intros []; try (intros (z & -> & _)); try (intros (z & ->)); constructor. Qed.

  Lemma answer_conforms n : forall p m s v, message_at files p m -> is_map_entry m = false -> message_schema n m = Some s -> answer json files p m v -> conforms s v.
  Proof.
    induction n as [|n IH]; intros p m s v M N E A; [discriminate|]. inversion A as [p' m' v' P K|p' m' kvs K Ks Rq]; subst; [rewrite (or_known _ _ _ OR p m M) in K; discriminate|].
    destruct m as [name entry enums nested oneofs fields]. cbn in N. subst entry. set (m := Message name false enums nested oneofs fields) in *. cbn [GsModel.message_schema m] in E.
    destruct (traverse _ fields) as [l|] eqn:T; [|discriminate]. cbn in E. injection E as <-. destruct (traverse_in _ _ _ T) as [_ T2].
    assert (Fs : forall k s, In (k, s) l -> exists f, In f fields /\ k = camel (pf_name f) /\ field_schema (message_schema n) f = Some s).
    { intros k s I. destruct (T2 _ I) as (f & J & F). exists f. split; [exact J|]. destruct (field_schema (message_schema n) f) as [s'|]; [|discriminate]. cbn in F. injection F as <- <-. auto. }
    assert (Sg : forall f v s0, In f fields -> single json files f v ->
      match pf_type_name f with None => Some (scalar_schema (pf_type f), false) | Some r => match aget r (pool files) with Some (DMessage (Message _ entry _ _ _ _ as m')) => option_map (fun s => (s, entry)) (message_schema n m') | Some (DEnum e) => Some (enum_schema e, false) | None => None end end = Some s0 ->
      conforms (fst s0) v /\ snd s0 = false).
    { intros f v s0 J H. inversion H as [f' v' Tn W|f' q e x Tn Ea I|f' q m' v' Tn Ma Nm An]; subst; rewrite Tn.
      - intros E. injection E as <-. split; [|reflexivity]. apply written_conforms; [|exact W]. now apply (or_numbers _ _ _ OR p m f).
      - rewrite (find_enum files WF q e Ea). intros E. injection E as <-. split; [|reflexivity]. constructor. now apply string_set_in.
      - rewrite (find_message files WF q m' Ma). destruct m' as [n' b' e' ns' o' f']. cbn in Nm. subst b'. destruct (message_schema n (Message n' false e' ns' o' f')) as [s1|] eqn:E1; cbn; [|discriminate]. intros E. injection E as <-. split; [|reflexivity]. cbn. now apply (IH q _ s1 v Ma eq_refl E1). }
    assert (Hd : forall f v s, In f fields -> held json files p m f v -> field_schema (message_schema n) f = Some s -> conforms s v).
    { intros f v s J H E. unfold GsModel.field_schema in E. inversion H as [p' m' f' m1 v' I1 E1 Tn|p' m' f' v' L Si|p' m' f' vs L Si]; subst.
      - rewrite Tn, (find_message files WF _ m1 (nested_at files p m m1 M eq_refl I1)) in E. destruct m1 as [n1 b1 e1 ns1 o1 f1]. cbn in E1. subst b1. destruct n as [|n]; [discriminate|]. cbn in E. injection E as <-. destruct (pf_label f); try apply conf_opt; constructor.
      - match type of E with option_map ?g ?k = _ => destruct k as [[s0 b0]|] eqn:Ek; [|discriminate] end. destruct (Sg f v (s0, b0) J Si Ek) as [C B]. cbn in C, B, E. subst b0. destruct (pf_label f); [injection E as <-; now apply conf_opt|injection E as <-; exact C|contradiction].
      - match type of E with option_map ?g ?k = _ => destruct k as [[s0 b0]|] eqn:Ek; [|discriminate] end. cbn in E. rewrite L in E. destruct b0.
        + injection E as <-. destruct (pf_type_name f) as [r|]; [|discriminate]. destruct (aget r (pool files)) as [[[n1 b1 e1 ns1 o1 f1]|e]|]; try discriminate. destruct n as [|n]; [discriminate|]. destruct (message_schema (S n) (Message n1 b1 e1 ns1 o1 f1)) eqn:E1; [|discriminate]. cbn in Ek. injection Ek as -> ->. cbn in E1. injection E1 as <-. constructor.
        + injection E as <-. apply conf_opt. constructor. rewrite Forall_forall in *. intros x I. now apply (Sg f x (s0, false) J (Si x I) Ek). }
    unfold object_schema. destruct (fold_left _ l []) as [|ks0 fs0] eqn:Fo.
    - destruct l as [|[k0 s0] l]; [|exfalso; assert (X : In k0 (map fst (fold_left (fun fs (ks : string * schema) => oins scmp (fst ks) (snd ks) fs) ((k0, s0) :: l) []))); [|now rewrite Fo in X]].
      + destruct fields as [|f fields]; [|cbn in T; destruct (field_schema (message_schema n) f); cbn in T; [destruct (traverse _ fields); discriminate|discriminate]]. destruct kvs as [|[k v] kvs]; [constructor|]. destruct (Ks k v (or_introl eq_refl)) as (f & [] & _).
      + cbn [fold_left fst snd]. assert (Y : forall (l : list (string * schema)) a, In k0 (map fst a) -> In k0 (map fst (fold_left (fun fs ks => oins scmp (fst ks) (snd ks) fs) l a))) by (clear; induction l as [|x l IH]; intros a H; cbn; [exact H|]; apply IH, oins_keys; now left). apply Y. now left.
    - rewrite <- Fo. constructor. intros k s I. apply inserted_in in I. destruct (Fs k s I) as (f & J & -> & Ef). destruct (aget (camel (pf_name f)) kvs) as [v|] eqn:A'.
      + left. exists v. split; [reflexivity|]. apply aget_In in A'. destruct (Ks _ _ A') as (f' & J' & Eq & H). rewrite (or_names _ _ _ OR p m f' M eq_refl J') in Eq. apply (or_camel _ _ _ OR p m f f' M eq_refl J J') in Eq. subst f'. now apply (Hd f).
      + right. split; [reflexivity|]. assert (L : pf_label f = LOptional).
        { destruct (pf_label f) eqn:L; [reflexivity|exfalso..]; apply aget_None in A'; apply A'; rewrite <- (or_names _ _ _ OR p m f M eq_refl J); apply Rq; try exact J; rewrite L; discriminate. }
        unfold GsModel.field_schema in Ef. match type of Ef with option_map ?g ?k = _ => destruct k as [[s0 b0]|] eqn:Ek; [|discriminate] end. cbn in Ef. rewrite L in Ef. injection Ef as <-. eauto.
  Qed.
End Messages.
