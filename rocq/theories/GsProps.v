(** C80: [@grpc] fields are checked against the proto files. *)
From Coq Require Import String Ascii ZArith NArith Bool Arith List Lia.
From Verif Require Import Base Ordered JsonModel SchemaModel TypeModel ConfigModel BuilderModel PgModel PgSpec PgProofs Pg4Proofs GsModel GsSpec GsProofs Gs2Proofs Gs3Proofs PgProps.
Import ListNotations.
Open Scope string_scope.
Open Scope list_scope.

(** ** What is accepted *)
(** The method is declared, the address is that of the method, and whatever the server answers fits the type of the field.
    What is missing: numbers that JSON writes as texts, messages with a JSON form of their own, other names in JSON, required
    fields of other scalars; see the theorems below.  Fields with a batch key: [C80_batch_partial]. *)
Theorem C80_sound_partial : forall camel json files c fuel url method t u d b, well_formed files -> ordinary json files camel -> no_loose c ->
  compile_grpc camel json files c fuel true {| g_url := url; g_method := method; g_batch_key := [] |} t = Some (Ok (u, d, b)) ->
  b = false /\ exists q s n base, method_at files (q ++ [s; n]) d /\ method = String.concat "." (q ++ [s; n]) /\
  without_slashes url base /\ u = (base ++ "/" ++ String.concat "." (q ++ [s]) ++ "/" ++ n)%string /\
  exists p m, refers (pd_output d) p /\ message_at files p m /\ (is_map_entry m = false -> forall v, answer json files p m v -> fits c t v).
Proof. exact sound. Qed.
Print Assumptions C80_sound_partial.

(** A method that is not declared is refused, whatever else the field asks for; a name with fewer than three parts before
    anything else, and any other one if there are no proto files. *)
Theorem C80_undeclared : forall camel json files c fuel validate url p keys t, well_formed files -> p <> [] -> Forall word p ->
  (forall d, ~ method_at files p d) ->
  exists e, compile_grpc camel json files c fuel validate {| g_url := url; g_method := String.concat "." p; g_batch_key := keys |} t = Some (Err e).
Proof. exact undeclared. Qed.
Print Assumptions C80_undeclared.
Theorem C80_malformed : forall camel json files c fuel validate url p keys t, p <> [] -> Forall word p ->
  (length p < 3 -> compile_grpc camel json files c fuel validate {| g_url := url; g_method := String.concat "." p; g_batch_key := keys |} t = Some (Err InvalidMethod)) /\
  (3 <= length p -> compile_grpc camel json [] c fuel validate {| g_url := url; g_method := String.concat "." p; g_batch_key := keys |} t = Some (Err NoProtoFiles)).
Proof. exact malformed. Qed.
Print Assumptions C80_malformed.

Definition with_table (ts : list (string * gtype)) (es : list (string * genum)) : config :=
  {| c_server := c_server empty_config; c_upstream := c_upstream empty_config; c_schema := c_schema empty_config; c_types := ts; c_unions := []; c_enums := es; c_links := []; c_telemetry := c_telemetry empty_config |}.
Definition field_of (t : typ) : field := plain_field t [] None [].
Definition object (fs : list (string * typ)) : gtype := plain_type (map (fun nt => (fst nt, field_of (snd nt))) fs) None [].
Definition ask (m : string) (k : list string) : grpc := {| g_url := "http://h//"; g_method := m; g_batch_key := k |}.

(** A message with a list of messages, an enum and a map. *)
Definition news : message := Message "News" false [{| pe_name := "Kind"; pe_values := ["LONG"; "SHORT"] |}] [] 0 [scalar_field "id" PInt32; named_field "kind" LOptional ".news.News.Kind"].
Definition news_list : message := Message "NewsList" false [] [] 0 [named_field "news" LRepeated ".news.News"].
Definition method_to (n i o : string) : pmethod := {| pd_name := n; pd_input := i; pd_output := o |}.
Definition news_file : pfile :=
  {| pl_package := "news"; pl_enums := []; pl_messages := [news; news_list]; pl_comments := None;
     pl_services := [{| ps_name := "Service"; ps_methods := [method_to "All" ".news.News" ".news.NewsList"] |}] |}.
Definition news_config : config :=
  with_table [("News", object [("id", TNamed "Int" false); ("kind", TNamed "Kind" false)]); ("Page", object [("news", TList (TNamed "News" false) false)])]
    [("Kind", {| e_variants := [("LONG", None); ("SHORT", None)]; e_doc := None |})].
Example C80_example_well_formed : well_formed [news_file].
Proof. apply checked_well. vm_compute. reflexivity. Qed.
Example C80_example_undeclared : forall d, ~ method_at [news_file] ["news"; "Service"; "Gone"] d.
Proof.
  intros d (f & q & s & [<-|[]] & _ & [<-|[]] & [<-|[]] & E). change ["news"; "Service"; "Gone"] with (["news"; "Service"] ++ ["Gone"]) in E. change (q ++ _) with (q ++ ["Service"] ++ ["All"]) in E.
  rewrite app_assoc in E. apply app_inj_tail in E. destruct E as [_ E]. discriminate.
Qed.
Example C80_example_ordinary : ordinary pf_name [news_file] as_is /\ no_loose news_config.
Proof.
  assert (P : packaged [news_file] = true) by (vm_compute; reflexivity). split; [split|].
  - intros p m f M _ I T. apply messages_at in M; [|exact P]. cbn in M. destruct M as [M|[M|[]]]; injection M as <- <-; cbn in I; repeat (destruct I as [<-|I]; [now cbn in *|]); destruct I.
  - intros p m M. apply messages_at in M; [|exact P]. cbn in M. destruct M as [M|[M|[]]]; injection M as <- <-; reflexivity.
  - reflexivity.
  - intros p m f f' M _ I J E. apply messages_at in M; [|exact P]. cbn in M. destruct M as [M|[M|[]]]; injection M as <- <-; cbn in I, J; repeat (destruct I as [<-|I]; [repeat (destruct J as [<-|J]; [try reflexivity; discriminate E|]); destruct J|]); destruct I.
  - intros n ty k f s T I R Ty. apply (OrderedFacts.oget_in scmp OrderedFacts.scmp_order) in T. cbn in T. destruct T as [T|[T|[]]]; injection T as <- <-; cbn in I; repeat (destruct I as [I|I]; [injection I as <- <-; cbn in Ty; discriminate|]); destruct I.
Qed.
Example C80_example_accepted : compile_grpc as_is pf_name [news_file] news_config 5 true (ask "news.Service.All" []) (TNamed "Page" true) = Some (Ok ("http://h/news.Service/All", method_to "All" ".news.News" ".news.NewsList", false)) /\
  answer pf_name [news_file] ["news"; "NewsList"] news_list (VObj [("news", VList [VObj [("id", VNum (NInt 7)); ("kind", VStr "LONG")]; VObj []])]) /\
  compile_grpc as_is pf_name [news_file] news_config 5 true (ask "news.Service.All" []) (TNamed "News" true) = Some (Err NotAssignable).
Proof.
  assert (P : packaged [news_file] = true) by (vm_compute; reflexivity). split; [vm_compute; reflexivity|]. split; [|vm_compute; reflexivity].
  assert (Mn : message_at [news_file] ["news"; "News"] news) by (apply messages_at; [exact P|vm_compute; now left]).
  assert (Ek : enum_at [news_file] ["news"; "News"; "Kind"] {| pe_name := "Kind"; pe_values := ["LONG"; "SHORT"] |}) by (apply enums_at; [exact P|vm_compute; now left]).
  apply An_object; [reflexivity| |].
  - intros k v [E|[]]. injection E as <- <-. eexists. split; [now left|]. split; [reflexivity|]. apply He_many; [reflexivity|]. constructor; [|constructor; [|constructor]]; apply (Si_message pf_name [news_file] _ ["news"; "News"] news); try reflexivity; try exact Mn; (apply An_object; [reflexivity| |intros f [<-|[<-|[]]] L; now destruct L]).
    + intros k v [E|[E|[]]]; injection E as <- <-; eexists.
      * split; [now left|]. split; [reflexivity|]. apply He_one; [discriminate|]. apply Si_scalar; [reflexivity|]. exists 7%Z. split; [reflexivity|]. vm_compute. split; congruence.
      * split; [right; now left|]. split; [reflexivity|]. apply He_one; [discriminate|]. apply (Si_enum pf_name [news_file] (named_field "kind" LOptional ".news.News.Kind") ["news"; "News"; "Kind"] _ _ eq_refl Ek). now left.
    + intros k v [].
  - intros f [<-|[]] _. now left.
Qed.

(** ** What is generated from the files is accepted *)
(** What is missing: messages that contain themselves ([C80_recursive_refuted]), messages without fields
    ([C80_fieldless_refuted]), enums with comments ([C79_enums_refuted]), files without a package ([C79_calls_refuted]). *)
Theorem C80_generated_partial : forall camel grpc_text json query url files x c q s n d t f fuel k k' qi mi qo mo,
  well_formed files -> names_apart query files -> tame camel query files ->
  from_proto camel grpc_text query url files = Ok x -> c_types c = x_types x -> c_enums c = x_enums x ->
  q <> [] -> method_at files (q ++ [s; n]) d -> oget scmp query (c_types c) = Some t -> oget scmp (method_title (q ++ [s; n])) (t_fields t) = Some f ->
  refers (pd_input d) qi -> message_at files qi mi -> nests files k mi -> refers (pd_output d) qo -> message_at files qo mo -> nests files k' mo -> k + 2 <= fuel -> k' + 2 <= fuel ->
  exists u, compile_grpc camel json files c fuel true {| g_url := url; g_method := String.concat "." (q ++ [s; n]); g_batch_key := [] |} (f_type f) = Some (Ok (u, d, false)).
Proof. exact generated_accepted. Qed.
Print Assumptions C80_generated_partial.

Definition empty_file : pfile := {| pl_package := "google.protobuf"; pl_enums := []; pl_messages := [Message "Empty" false [] [] 0 []]; pl_services := []; pl_comments := None |}.
Definition three : list pfile := [empty_file; shop; calls].
Example C80_example_three : well_formed three /\ names_apart "Query" three.
Proof.
  assert (P : packaged three = true) by (vm_compute; reflexivity). assert (W : well_formed three) by (apply checked_well; vm_compute; reflexivity). split; [exact W|].
  assert (T : forall p, forallb (fun w => no_under w && negb (String.eqb w "")) p = true -> Forall tidy p).
  { intros p H. apply Forall_forall. intros w I. rewrite forallb_forall in H. specialize (H w I). apply andb_true_iff in H. destruct H as [A B]. apply no_under_tidy; [|exact A]. intros ->. discriminate. }
  apply C79_apart; [exact W|now apply no_under_tidy|reflexivity| | |].
  - intros p m M N. apply messages_at in M; [|exact P]. cbn in M.
    destruct M as [M|[M|[M|[M|[]]]]]; injection M as <- <-; try discriminate N; (split; [apply T; reflexivity|]); intros [E|(b & E)]; discriminate.
  - intros p e M. apply enums_at in M; [|exact P]. cbn in M. destruct M as [M|[M|[]]]; injection M as <- <-; (split; [apply T; reflexivity|]); intros [E|(b & E)]; discriminate.
  - intros p d M. apply methods_at in M; [|exact P]. cbn in M. destruct M as [M|[M|[]]]; injection M as <- <-; apply T; reflexivity.
Qed.
Example C80_example_tame : tame as_is "Query" three.
Proof.
  assert (P : packaged three = true) by (vm_compute; reflexivity).
  assert (X : forall p m, message_at three p m -> (p, m) = (["google"; "protobuf"; "Empty"], Message "Empty" false [] [] 0 []) \/ (p, m) = (["shop"; "v1"; "Item"], item) \/ (p, m) = (["shop"; "v1"; "Item"; "TagsEntry"], tags) \/ (p, m) = (["shop"; "v1"; "Item"; "Part"], part)).
  { intros p m M. apply messages_at in M; [|exact P]. cbn in M. intuition. }
  split.
  - intros f f' s s' I J K L _. cbn in I, J. destruct I as [<-|[<-|[<-|[]]]], J as [<-|[<-|[<-|[]]]]; cbn in K, L; try contradiction. destruct K as [<-|[]], L as [<-|[]]. reflexivity.
  - intros p m f f' M N I J E. apply X in M. destruct M as [M|[M|[M|M]]]; injection M as -> ->; try discriminate N; cbn in I, J; repeat (destruct I as [<-|I]; [repeat (destruct J as [<-|J]; [try reflexivity; discriminate E|]); destruct J|]); destruct I.
  - intros p m f q m' M N I T M' N' E. apply X in M, M'. destruct M' as [M'|[M'|[M'|M']]]; injection M' as -> ->; try discriminate E. destruct M as [M|[M|[M|M]]]; injection M as -> ->; cbn in I; repeat (destruct I as [<-|I]; [discriminate T|]); destruct I.
  - intros p d q m M Em R M' E. apply X in M'. destruct M' as [M'|[M'|[M'|M']]]; injection M' as -> ->; try discriminate E. unfold refers in R. apply Em. exact R.
  - intros p m M R. apply X in M. destruct M as [M|[M|[M|M]]]; injection M as -> ->; try discriminate R. split; reflexivity.
  - intros p m M. apply X in M. destruct M as [M|[M|[M|M]]]; injection M as -> ->; reflexivity.
  - intros p e M. apply enums_at in M; [|exact P]. cbn in M. destruct M as [M|[M|[]]]; injection M as <- <-; reflexivity.
  - reflexivity.
  - intros f [<-|[<-|[<-|[]]]]; reflexivity.
Qed.
Example C80_example_generated : exists x t f, run three = Ok x /\ oget scmp "Query" (x_types x) = Some t /\ oget scmp "GEN__shop__v1__calls__Items__Get" (t_fields t) = Some f /\
  nests three 1 item /\
  compile_grpc as_is pf_name three (with_table (x_types x) (x_enums x)) 3 true (ask "shop.v1.calls.Items.Get" []) (f_type f) = Some (Ok ("http://h/shop.v1.calls.Items/Get", method_to "Get" ".shop.v1.Item" ".shop.v1.Item", false)) /\
  compile_grpc as_is pf_name three (with_table (x_types x) (x_enums x)) 3 true (ask "shop.v1.calls.Items.Ping" []) (TNamed "Empty" false) = Some (Ok ("http://h/shop.v1.calls.Items/Ping", method_to "Ping" empty_message empty_message, false)).
Proof.
  assert (P : packaged three = true) by (vm_compute; reflexivity). eexists _, _, _. do 3 (split; [vm_compute; reflexivity|]). split; [|split; vm_compute; reflexivity].
  constructor. intros f q m' I T M' N'. exists 0. split; [lia|]. apply messages_at in M'; [|exact P]. cbn in M'. destruct M' as [M'|[M'|[M'|[M'|[]]]]]; injection M' as <- <-; try discriminate N'.
  - constructor. intros ? ? ? [].
  - cbn in I. repeat (destruct I as [<-|I]; [discriminate T|]). destruct I.
  - constructor. intros f' q' m' [<-|[]] T'. discriminate T'.
Qed.

Lemma fuel_none {A} (f : A) : forall r : option (result unit gs_error), r = None -> option_map (fun r => match r with Ok tt => Ok f | Err e => Err e end) r = None.
Proof. intros r ->. reflexivity. Qed.
Definition one_file (package : string) (ms : list message) (i o : string) : pfile :=
  {| pl_package := package; pl_enums := []; pl_messages := ms; pl_comments := None; pl_services := [{| ps_name := "S"; ps_methods := [method_to "Get" i o] |}] |}.
(** A message that contains itself: there is no end, whatever the type of the field is. *)
Definition node : message := Message "Node" false [] [] 0 [named_field "next" LOptional ".p.Node"; scalar_field "value" PInt32].
Lemma node_endless camel files : aget ".p.Node" (pool files) = Some (DMessage node) -> forall n, message_schema camel files n node = None.
Proof. intros A. unfold node in *. induction n as [|n IH]; [reflexivity|]. cbn -[pool]. unfold field_schema. cbn -[pool]. rewrite A, IH. reflexivity. Qed.
Theorem C80_recursive_refuted : exists files, well_formed files /\
  forall camel json c t fuel, compile_grpc camel json files c fuel true (ask "p.S.Get" []) t = None.
Proof.
  exists [one_file "p" [node] ".p.Node" ".p.Node"]. split; [apply checked_well; vm_compute; reflexivity|]. intros camel json c t fuel.
  pose proof (node_endless camel [one_file "p" [node] ".p.Node" ".p.Node"] eq_refl fuel) as X. unfold compile_grpc. cbn -[validate_schema]. apply fuel_none. unfold validate_schema. change (message_of _ _) with (Some node). cbv iota. now rewrite X.
Qed.
Print Assumptions C80_recursive_refuted.

(** A message without fields: what is generated for it is refused. *)
Definition nothing : message := Message "Nothing" false [] [] 0 [].
Theorem C80_fieldless_refuted : exists files x t f, well_formed files /\ names_apart "Query" files /\ run files = Ok x /\
  oget scmp "Query" (x_types x) = Some t /\ oget scmp (method_title ["p"; "S"; "Get"]) (t_fields t) = Some f /\ f_resolvers f = [RGrpc [] (told "http://h" (Some "{{.args.Nothing}}") "p.S.Get")] /\
  compile_grpc as_is pf_name files (with_table (x_types x) (x_enums x)) 3 true (ask "p.S.Get" []) (f_type f) = Some (Err NotAssignable).
Proof.
  set (files := [one_file "p" [nothing] ".p.Nothing" ".p.Nothing"]). assert (W : well_formed files) by (apply checked_well; vm_compute; reflexivity). assert (P : packaged files = true) by (vm_compute; reflexivity).
  exists files. eexists _, _, _. split; [exact W|]. split; [|do 4 (split; [vm_compute; reflexivity|]); vm_compute; reflexivity].
  assert (T : forall p, forallb (fun w => no_under w && negb (String.eqb w "")) p = true -> Forall tidy p).
  { intros p H. apply Forall_forall. intros w I. rewrite forallb_forall in H. specialize (H w I). apply andb_true_iff in H. destruct H as [A B]. apply no_under_tidy; [|exact A]. intros ->. discriminate. }
  apply C79_apart; [exact W|now apply no_under_tidy|reflexivity| | |].
  - intros p m M N. apply messages_at in M; [|exact P]. cbn in M. destruct M as [M|[]]; injection M as <- <-. split; [apply T; reflexivity|]. intros [E|(b & E)]; discriminate.
  - intros p e M. apply enums_at in M; [|exact P]. destruct M.
  - intros p d M. apply methods_at in M; [|exact P]. cbn in M. destruct M as [M|[]]; injection M as <- <-; apply T; reflexivity.
Qed.
Print Assumptions C80_fieldless_refuted.

(** ** What is accepted and does not fit *)
Definition got (kvs : list (string * value)) (json : pfield -> string) (files : list pfile) (m : message) : Prop := answer json files ["p"; "M"] m (VObj kvs).
Lemma scalar_answer json files m kvs : (forall k v, In (k, v) kvs -> exists f, In f (message_fields m) /\ k = json f /\ pf_label f <> LRepeated /\ pf_type_name f = None /\ written (pf_type f) v) ->
  (forall f, In f (message_fields m) -> pf_label f <> LOptional -> In (json f) (map fst kvs)) -> got kvs json files m.
Proof.
  intros H R. apply An_object; [reflexivity| |exact R]. intros k v I. destruct (H k v I) as (f & J & E & L & T & W). exists f. split; [exact J|]. split; [exact E|]. apply He_one; [exact L|]. now apply Si_scalar.
Qed.
Lemma object_fits_inv c n b kvs ty k f : fits c (TNamed n b) (VObj kvs) -> oget scmp n (c_types c) = Some ty -> In (k, f) (t_fields ty) -> f_resolvers f = [] ->
  (exists v, aget k kvs = Some v /\ fits c (f_type f) v) \/ (aget k kvs = None /\ ((exists t, f_type f = TNamed t false) \/ exists t, f_type f = TList t false)).
Proof.
  intros F T I R. inversion F as [| | |n' b' ty' kvs' T' H|n' b' e s v T' E' I' [V|V]| | | |b' T'| |n' b' v T']; subst; try discriminate; try congruence. rewrite T in T'. injection T' as <-. now apply (H k f).
Qed.

(** A number of 64 bits is accepted for an Int, and answered as a text. *)
Definition big : message := Message "M" false [] [] 0 [scalar_field "n" PInt64].
Theorem C80_int64_refuted : exists files c u d v, well_formed files /\ no_loose c /\
  compile_grpc as_is pf_name files c 3 true (ask "p.S.Get" []) (TNamed "T" true) = Some (Ok (u, d, false)) /\
  answer pf_name files ["p"; "M"] big v /\ message_at files ["p"; "M"] big /\ refers (pd_output d) ["p"; "M"] /\ ~ fits c (TNamed "T" true) v.
Proof.
  set (files := [one_file "p" [big] ".p.M" ".p.M"]). exists files, (with_table [("T", object [("n", TNamed "Int" false)])] []). eexists _, _. exists (VObj [("n", VStr "5")]).
  split; [apply checked_well; vm_compute; reflexivity|]. split; [intros n ty k f s T I R Ty; apply (OrderedFacts.oget_in scmp OrderedFacts.scmp_order) in T; cbn in T; destruct T as [T|[]]; injection T as <- <-; cbn in I; destruct I as [I|[]]; injection I as <- <-; cbn in Ty; discriminate|].
  split; [vm_compute; reflexivity|]. split; [|split; [apply messages_at; [vm_compute; reflexivity|vm_compute; now left]|split; [reflexivity|]]].
  - apply scalar_answer; [|intros f [<-|[]] L; now destruct L]. intros k v [E|[]]. injection E as <- <-. eexists. split; [now left|]. split; [reflexivity|]. split; [discriminate|]. split; [reflexivity|]. exists "5", 5%Z. split; [reflexivity|]. split; [left; apply (ScalarSpec.nat_digit "5" 5); cbn; tauto|vm_compute; split; congruence].
  - intros F. pose proof (object_fits_inv _ _ _ _ _ "n" (field_of (TNamed "Int" false)) F eq_refl (or_introl eq_refl) eq_refl) as F'. clear F. destruct F' as [(v & A & F)|(A & _)]; [|discriminate A]. cbn in A. injection A as <-. cbn in F. inversion F as [| | | |n' b' e s v T' E' I' V| | | | | |n' b' v T' E' N]; subst; try discriminate. apply N. cbn. tauto.
Qed.
Print Assumptions C80_int64_refuted.

(** A required field of another scalar is accepted for an optional field of any kind. *)
Definition small : message := Message "M" false [] [] 0 [scalar_field "name" PString].
Lemma small_ordinary : ordinary pf_name [one_file "p" [small] ".p.M" ".p.M"] as_is.
Proof.
  assert (P : packaged [one_file "p" [small] ".p.M" ".p.M"] = true) by (vm_compute; reflexivity).
  assert (X : forall p m, message_at [one_file "p" [small] ".p.M" ".p.M"] p m -> p = ["p"; "M"] /\ m = small) by (intros p m M; apply messages_at in M; [|exact P]; cbn in M; destruct M as [M|[]]; injection M as <- <-; auto).
  split.
  - intros p m f M _ I _. apply X in M. destruct M as [-> ->]. destruct I as [<-|[]]. exact I.
  - intros p m M. apply X in M. now destruct M as [-> _].
  - reflexivity.
  - intros p m f f' M _ I J _. apply X in M. destruct M as [-> ->]. destruct I as [<-|[]], J as [<-|[]]. reflexivity.
Qed.
Theorem C80_loose_refuted : exists files c u d v, well_formed files /\ ordinary pf_name files as_is /\
  compile_grpc as_is pf_name files c 3 true (ask "p.S.Get" []) (TNamed "T" true) = Some (Ok (u, d, false)) /\
  answer pf_name files ["p"; "M"] small v /\ message_at files ["p"; "M"] small /\ refers (pd_output d) ["p"; "M"] /\ ~ fits c (TNamed "T" true) v.
Proof.
  exists [one_file "p" [small] ".p.M" ".p.M"], (with_table [("T", object [("name", TNamed "Float" true)])] []). eexists _, _. exists (VObj []).
  split; [apply checked_well; vm_compute; reflexivity|]. split; [exact small_ordinary|]. split; [vm_compute; reflexivity|]. split; [|split; [apply messages_at; [vm_compute; reflexivity|vm_compute; now left]|split; [reflexivity|]]].
  - apply scalar_answer; [intros k v []|intros f [<-|[]] L; now destruct L].
  - intros F. pose proof (object_fits_inv _ _ _ _ _ "name" (field_of (TNamed "Float" true)) F eq_refl (or_introl eq_refl) eq_refl) as F'. destruct F' as [(v & A & _)|(_ & [(t & E)|(t & E)])]; discriminate.
Qed.
Print Assumptions C80_loose_refuted.

(** A field with a name of its own in JSON is looked for under another name. *)
Definition renamed : message := Message "M" false [] [] 0 [{| pf_name := "name"; pf_label := LRequired; pf_type := PString; pf_type_name := None; pf_oneof := None |}].
Theorem C80_names_refuted : exists json files c u d v, well_formed files /\ no_loose c /\
  compile_grpc as_is json files c 3 true (ask "p.S.Get" []) (TNamed "T" true) = Some (Ok (u, d, false)) /\
  answer json files ["p"; "M"] renamed v /\ message_at files ["p"; "M"] renamed /\ refers (pd_output d) ["p"; "M"] /\ ~ fits c (TNamed "T" true) v.
Proof.
  exists (fun f => ("x_" ++ pf_name f)%string), [one_file "p" [renamed] ".p.M" ".p.M"], (with_table [("T", object [("name", TNamed "String" true)])] []). eexists _, _. exists (VObj [("x_name", VStr "a")]).
  split; [apply checked_well; vm_compute; reflexivity|]. split; [intros n ty k f s T I R Ty Ns _; apply (OrderedFacts.oget_in scmp OrderedFacts.scmp_order) in T; cbn in T; destruct T as [T|[]]; injection T as <- <-; cbn in I; destruct I as [I|[]]; injection I as <- <-; cbn in Ty; injection Ty as <-; now left|].
  split; [vm_compute; reflexivity|]. split; [|split; [apply messages_at; [vm_compute; reflexivity|vm_compute; now left]|split; [reflexivity|]]].
  - apply scalar_answer; [|intros f [<-|[]] L; now left]. intros k v [E|[]]. injection E as <- <-. eexists. split; [now left|]. split; [reflexivity|]. split; [discriminate|]. split; [reflexivity|]. now exists "a".
  - intros F. pose proof (object_fits_inv _ _ _ _ _ "name" (field_of (TNamed "String" true)) F eq_refl (or_introl eq_refl) eq_refl) as F'. destruct F' as [(v & A & _)|(_ & [(t & E)|(t & E)])]; discriminate.
Qed.
Print Assumptions C80_names_refuted.

(** ** Batch keys *)
(** What is missing: that the items of the list fit the type of the field; see [C80_batch_refuted]. *)
Theorem C80_batch_partial : forall camel json files c fuel url method keys t u d b, well_formed files -> keys <> [] ->
  compile_grpc camel json files c fuel true {| g_url := url; g_method := method; g_batch_key := keys |} t = Some (Ok (u, d, b)) ->
  b = true /\ (exists q s n, method_at files (q ++ [s; n]) d /\ method = String.concat "." (q ++ [s; n])) /\
  exists ks k last p m f, keys = ks ++ [k; last] /\ refers (pd_output d) p /\ message_at files p m /\ In f (message_fields m) /\ json f = k.
Proof. exact batched. Qed.
Print Assumptions C80_batch_partial.
Definition with_news (fs : list (string * typ)) : config := with_table [("News", object fs)] [("Kind", {| e_variants := [("LONG", None); ("SHORT", None)]; e_doc := None |})].
Example C80_example_batch : exists u d, compile_grpc as_is pf_name [news_file] (with_news [("id", TNamed "Int" false); ("kind", TNamed "Kind" false)]) 5 true (ask "news.Service.All" ["news"; "id"]) (TNamed "News" true) = Some (Ok (u, d, true)).
Proof. eexists _, _. vm_compute. reflexivity. Qed.

(** A key of one name is never accepted. *)
Theorem C80_single_key_refuted : forall camel json files c fuel url method k t u d b, well_formed files ->
  compile_grpc camel json files c fuel true {| g_url := url; g_method := method; g_batch_key := [k] |} t <> Some (Ok (u, d, b)).
Proof.
  intros camel json files c fuel url method k t u d b WF E. apply batched in E; [|exact WF|discriminate]. destruct E as (_ & _ & ks & k' & l & _ & _ & _ & E & _). destruct ks as [|a [|b' ks]]; discriminate.
Qed.
Print Assumptions C80_single_key_refuted.

(** The check is the wrong way round: a type that asks for more than there is is accepted, one that asks for less is refused.
    And the last name of the key is not looked at. *)
Theorem C80_batch_refuted :
  (exists c u d, compile_grpc as_is pf_name [news_file] c 5 true (ask "news.Service.All" ["news"; "none"]) (TNamed "News" true) = Some (Ok (u, d, true)) /\
     refers (pd_output d) ["news"; "NewsList"] /\ (forall v, answer pf_name [news_file] ["news"; "News"] news v -> ~ fits c (TNamed "News" true) v) /\ forall f, In f (message_fields news) -> pf_name f <> "none") /\
  compile_grpc as_is pf_name [news_file] (with_news [("id", TNamed "Int" false)]) 5 true (ask "news.Service.All" ["news"; "id"]) (TNamed "News" true) = Some (Err NotAssignable).
Proof.
  split; [|vm_compute; reflexivity]. exists (with_news [("id", TNamed "Int" false); ("kind", TNamed "Kind" false); ("title", TNamed "String" true)]). eexists _, _. split; [vm_compute; reflexivity|]. split; [reflexivity|]. split.
  - intros v A F. inversion A as [p m v' P K|p m kvs K Ks _]; subst; [discriminate|].
    pose proof (object_fits_inv _ _ _ _ _ "title" (field_of (TNamed "String" true)) F eq_refl (or_intror (or_intror (or_introl eq_refl))) eq_refl) as F'. destruct F' as [(v & Ag & _)|(_ & [(t & E)|(t & E)])]; try discriminate.
    apply BaseFacts.aget_In in Ag. destruct (Ks _ _ Ag) as (f & [<-|[<-|[]]] & E & _); discriminate.
  - intros f [<-|[<-|[]]]; discriminate.
Qed.
Print Assumptions C80_batch_refuted.
