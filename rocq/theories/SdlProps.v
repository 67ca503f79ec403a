(** C85: a configuration written as a text in GraphQL and read again is the same. *)
From Coq Require Import String Ascii ZArith NArith Bool Arith Lia List Permutation.
From Verif Require Import Base Ordered OrderedFacts JsonModel TypeModel BuilderModel ConfigModel MergeSpec FedModel AmbModel AmbSpec AmbProofs DocModel DocSpec DocProofs DocRound DocProps
  PrModel PrSpec PrProps SdlModel SdlSpec SdlProofs Sdl2Proofs SdlCodecs.
Import ConfigModel.
Import ListNotations.
Open Scope string_scope.
Open Scope list_scope.

(** A configuration whose settings a document and its text can say is written as a text from which the same configuration is read. *)
Theorem C85_text_is_read_back_partial :
  forall (W : codecs Args) (R : codecs TArgs) text_of c fuel text,
    lawful_codecs R -> writes_all W R -> tidy c -> stored R c -> sayable c -> printable text_of c ->
    to_sdl W fuel c = Some text -> from_sdl text_of R text = Ok c.
Proof.
  intros W R text_of c fuel text L H T St Sa Pr E. unfold to_sdl in E.
  destruct (config_document W fuel c) as [doc|] eqn:D; [|discriminate]. injection E as <-. pose proof D as D'. unfold config_document in D.
  destruct (interfaces_types_map fuel c) as [m|] eqn:Em; [|discriminate]. destruct (input_types fuel c) as [ins|] eqn:Ei; [|discriminate]. clear D.
  rewrite (written W c fuel m ins Em Ei) in D'. injection D' as <-. exact (text_read W R text_of H c T St Sa Pr fuel m ins Em Ei L).
Qed.
Print Assumptions C85_text_is_read_back_partial.

(** So a text that was read, written and read again means the same. *)
Theorem C85_text_keeps_its_meaning :
  forall (W : codecs Args) (R : codecs TArgs) text_of c fuel text text',
    lawful_codecs R -> writes_all W R -> from_sdl text_of R text = Ok c -> tidy c -> sayable c -> printable text_of c ->
    to_sdl W fuel c = Some text' -> from_sdl text_of R text' = Ok c.
Proof.
  intros W R text_of c fuel text text' L H E T Sa Pr E'. apply (C85_text_is_read_back_partial W R text_of c fuel text' L H T); auto.
  unfold from_sdl in E. destruct (parse_schema text_of text) as [doc|]; [|discriminate]. exact (C50_what_is_read_is_stored _ R doc c L E).
Qed.
Print Assumptions C85_text_keeps_its_meaning.

(** Different configurations have different texts. *)
Theorem C85_different_texts :
  forall (W : codecs Args) (R : codecs TArgs) text_of c c' fuel fuel' text,
    lawful_codecs R -> writes_all W R -> tidy c -> stored R c -> sayable c -> printable text_of c ->
    tidy c' -> stored R c' -> sayable c' -> printable text_of c' ->
    to_sdl W fuel c = Some text -> to_sdl W fuel' c' = Some text -> c = c'.
Proof.
  intros W R text_of c c' fuel fuel' text L H T St Sa Pr T' St' Sa' Pr' E E'.
  apply (C85_text_is_read_back_partial W R text_of c fuel text L H T St Sa Pr) in E. apply (C85_text_is_read_back_partial W R text_of c' fuel' text L H T' St' Sa' Pr') in E'. congruence.
Qed.
Print Assumptions C85_different_texts.

(** ** A concrete configuration *)
(** the JSON of the defaults used here *)
Definition text85 (l : list token) : string := match l with [Text raw] => (quote ++ raw ++ quote)%string | [Word w] => w | _ => "" end.
Definition bare50 (n : string) (t : ptype) (d : option string) (ds : list (dir args50)) : input_value args50 :=
  {| iv_doc := None; iv_name := n; iv_type := t; iv_default := d; iv_dirs := ds |}.
Definition query85 : definition args50 :=
  type50 "Query" (Some "the root") []
    (KObject [] [ field50 "users" [bare50 "where" (named50 "Where" false) None []; bare50 "after" (named50 "Date" true) (Some """2024""") []] (list50 (named50 "User" false))
                    [dir50 "http" (AHttp (["id"], "/users")); dir50 "cache" (ACache 60); dir50 "expr" (AExpr "{}")];
                  field50 "find" [] (named50 "Found" true) [dir50 "graphQL" (AGraphql (true, "find"))] ]).
Definition node85 : definition args50 := type50 "Node" None [] (KInterface [] [field50 "id" [] (named50 "ID" false) []]).
Definition doc85 : document args50 :=
  [ schema50 [dir50 "link" (ALink "a.proto"); dir50 "server" (AServer empty_server); dir50 "link" (ALink "b.proto")];
    query85; where50; user50; node85; date50; kind50; found50 ].
Definition app85 : config := read50 doc85.
Example app85_read : from_document codecs50 doc85 = Ok app85.
Proof. vm_compute. reflexivity. Qed.
Example app85_tidy : tidy app85.
Proof.
  split.
  - apply (osortedb_ok scmp scmp_order). vm_compute. reflexivity.
  - intros n H. unfold find_union in H. destruct (oget scmp n (c_unions app85)) as [u|] eqn:E; [|contradiction]. apply (oget_in scmp scmp_order) in E. vm_compute in E. destruct E as [E|[]]. injection E as <- _. vm_compute. auto.
  - intros n H. unfold find_enum in H. destruct (oget scmp n (c_enums app85)) as [u|] eqn:E; [|contradiction]. apply (oget_in scmp scmp_order) in E. vm_compute in E. destruct E as [E|[]]. injection E as <- _. reflexivity.
  - intros n u m E I. unfold find_union in E. apply (oget_in scmp scmp_order) in E. vm_compute in E. destruct E as [E|[]]. injection E as <- <-.
    destruct I as [<- | [<- | []]]; reflexivity.
Qed.
Example app85_stored : stored R85 app85.
Proof. destruct (C50_what_is_read_is_stored _ _ _ _ codecs50_lawful app85_read) as [A B C]. split; [exact A|exact B|exact C]. Qed.
Lemma app85_inputs n t : In (n, t) (c_types app85) -> t_fields t <> [] -> InputUse app85 n -> n = "Where".
Proof.
  intros I F U. destruct (input_types_ok app85 app85_tidy 50 ["Kind"; "Where"]) as [_ H]; [vm_compute; reflexivity|].
  destruct (H n) as [<- | [<- | []]]; [|exact U| |reflexivity].
  - left. exists t. split; [|exact F]. apply (in_oget scmp scmp_order); [apply app85_tidy|exact I].
  - exfalso. vm_compute in I. repeat (destruct I as [I|I]; [discriminate I|]). destruct I.
Qed.
Lemma app85_interfaces n : Implemented app85 n <-> n = "Node".
Proof.
  rewrite <- implementors_key. change (implementors app85) with [("Node", ["User"])]. cbn. destruct (scmp n "Node") eqn:E.
  - apply (to_eq _ scmp_order) in E. split; [auto|discriminate].
  - split; [congruence|]. intros ->. discriminate.
  - split; [congruence|]. intros ->. discriminate.
Qed.
Lemma app85_where : InputUse app85 "Where".
Proof. destruct (input_types_ok app85 app85_tidy 50 ["Kind"; "Where"]) as [H _]; [vm_compute; reflexivity|]. apply (H "Where"). right. now left. Qed.
Lemma app85_usages n t u : In (n, t) (c_types app85) -> usage app85 n t u ->
  (n = "Node" /\ u = AsInterface) \/ (n = "Where" /\ u = AsInput) \/ (n = "Date" /\ (u = AsScalar \/ u = AsInput)) \/ ((n = "Query" \/ n = "User") /\ u = AsObject).
Proof.
  intros I U. assert (A := app85_inputs n t I). assert (B := app85_interfaces n). assert (C := app85_where).
  vm_compute in I. repeat (destruct I as [I|I]; [injection I as <- <-|]); try destruct I;
    inversion U as [P|P Q|P Q|P Q R]; subst;
    try (apply B in P; discriminate P); try (exfalso; apply P, B; reflexivity);
    try discriminate Q; try (exfalso; apply R; reflexivity);
    try (assert (Z := A ltac:(discriminate) Q); discriminate Z);
    try (exfalso; exact (Q C)); tauto.
Qed.
Example app85_sayable : sayable app85.
Proof.
  split; [vm_compute; reflexivity|]. split; [repeat constructor|]. intros n t u I U.
  assert (A := app85_usages n t u I U). vm_compute in I.
  repeat (destruct I as [I|I]; [injection I as <- <-|]); try destruct I;
    destruct A as [[A ->]|[[A ->]|[[A [-> | ->]]|[[A|A] ->]]]]; try discriminate A; (split; [|split]; cbn; repeat constructor).
Qed.
Lemma text85_default s : s = "2024" \/ s = "x" -> kept_default text85 (Some (quote ++ s ++ quote)%string).
Proof. intros [-> | ->]; (split; [eexists [Text _]; split|]; vm_compute; reflexivity). Qed.
Ltac easy85 := repeat match goal with
  | |- printable_type _ _ _ => unfold printable_type; cbn [fst snd t_implements t_fields t_doc t_added t_cache t_protected t_resolvers t_directives]
  | |- printable_field _ _ _ => unfold printable_field; cbn [fst snd f_type f_args f_doc f_default]
  | |- printable_arg _ _ => unfold printable_arg; cbn [fst snd arg_type arg_doc arg_default]
  | |- kept_default _ None => exact Logic.I | |- kept_default _ (Some """x""") => exact (text85_default "x" (or_intror eq_refl)) | |- kept_default _ (Some _) => exact (text85_default "2024" (or_introl eq_refl))
  | |- short_doc None => exact Logic.I | |- short_doc (Some _) => split; [vm_compute|cbn; lia]
  | |- doc_ok _ => vm_compute
  | |- named _ => vm_compute | |- is_name _ => vm_compute
  | |- _ /\ _ => split | |- True => exact Logic.I | |- Forall _ _ => constructor | |- _ = _ => reflexivity | |- _ <> _ => discriminate
  | |- _ \/ _ => first [left; reflexivity|right; unfold bare] end.
Example app85_printable : printable text85 app85.
Proof.
  split.
  - intros n t u I U. assert (A := app85_usages n t u I U). vm_compute in I.
    repeat (destruct I as [I|I]; [injection I as <- <-|]); try destruct I;
      destruct A as [[A ->]|[[A ->]|[[A [-> | ->]]|[[A|A] ->]]]]; try discriminate A.
    all: easy85.
  - split; [|split; [|split; [left; discriminate|split; [reflexivity|split; exact Logic.I]]]].
    + apply Forall_forall. intros nu I. vm_compute in I. destruct I as [<-|[]]. split; [reflexivity|]. split; [split; [discriminate|repeat constructor]|].
      intros n t [<- | [<- | []]] I; vm_compute in I; repeat (destruct I as [I|I]; [try discriminate I; injection I as <-; discriminate|]); destruct I.
    + apply Forall_forall. intros ne I. vm_compute in I. destruct I as [<-|[]]. split; [reflexivity|]. split; [vm_compute; repeat split|].
      split; [discriminate|]. repeat constructor.
Qed.
Example app85_written : exists text, to_sdl W85 50 app85 = Some text /\ from_sdl text85 R85 text = Ok app85.
Proof. eexists. split; [vm_compute; reflexivity|vm_compute; reflexivity]. Qed.

(** ** What is not so *)
(** A configuration that a document says, and whose text cannot be read: a field of an input has a default and a directive. *)
Definition broken85 : document args50 :=
  [ schema50 []; query85; type50 "Where" None [] (KInput [bare50 "kind" (named50 "Kind" true) (Some "1") [dir50 "omit" AOmit]]); user50; node85; date50; kind50; found50 ].
Theorem C85_texts_can_be_read_refuted : exists doc c text,
  from_document codecs50 doc = Ok c /\ (exists t, reread codecs50 c t) /\ to_sdl W85 50 c = Some text /\ from_sdl text85 R85 text = Err ["cannot be parsed"].
Proof.
  exists broken85. do 2 eexists. split; [vm_compute; reflexivity|]. split; [eexists; exists 50; eexists; split; [vm_compute; reflexivity|vm_compute; reflexivity]|].
  split; [vm_compute; reflexivity|vm_compute; reflexivity].
Qed.
Print Assumptions C85_texts_can_be_read_refuted.
(** Documentation of interfaces and of arguments is lost, although the document of the configuration has it. *)
Theorem C85_documentation_is_kept_refuted : exists text c',
  reread codecs50 app50 app50 /\ to_sdl W85 50 app50 = Some text /\ from_sdl text85 R85 text = Ok c' /\
  option_map t_doc (find_type app50 "Node") = Some (Some "has an id") /\ option_map t_doc (find_type c' "Node") = Some None.
Proof.
  do 2 eexists. split; [exists 50; eexists; split; [vm_compute; reflexivity|vm_compute; reflexivity]|]. split; [vm_compute; reflexivity|]. split; [vm_compute; reflexivity|]. split; vm_compute; reflexivity.
Qed.
Print Assumptions C85_documentation_is_kept_refuted.
(** The settings of a server are lost where there is neither a query nor a mutation. *)
Theorem C85_settings_are_kept_refuted : exists c text c',
  reread codecs50 c c /\ to_sdl W85 50 c = Some text /\ from_sdl text85 R85 text = Ok c' /\ c_links c = ["a.proto"] /\ c_links c' = [].
Proof.
  exists (read50 [ DSchema {| sd_dirs := [dir50 "link" (ALink "a.proto")]; sd_query := None; sd_mutation := None; sd_subscription := None |}; date50; kind50 ]).
  do 2 eexists. split; [exists 50; eexists; split; [vm_compute; reflexivity|vm_compute; reflexivity]|]. split; [vm_compute; reflexivity|]. split; [vm_compute; reflexivity|]. split; vm_compute; reflexivity.
Qed.
Print Assumptions C85_settings_are_kept_refuted.
