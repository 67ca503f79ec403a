(** C50: a configuration written as a GraphQL document and read again; C51: the types
    behind an interface. *)
From Coq Require Import String Ascii ZArith NArith Bool Arith List.
From Verif Require Import Base Ordered OrderedFacts JsonModel TypeModel BuilderModel ConfigModel MergeSpec FedModel AmbModel AmbSpec AmbProofs DocModel DocSpec DocProofs DocRound.
Import ListNotations.
Open Scope string_scope.
Open Scope list_scope.

(** Writing ends for every configuration in which no type implements itself. *)
Theorem C50_writing_ends :
  forall Args (K : codecs Args) c, tidy c -> acyclic_implements c ->
    exists enough, forall fuel, enough <= fuel -> exists doc, config_document K fuel c = Some doc.
Proof.
  intros Args K c T Ac. exists (walk_fuel c + S (List.length (implementors c))). intros fuel Le.
  apply writing_ends; [exact T|exact Ac|exact (Nat.le_trans _ _ _ (Nat.le_add_r _ _) Le)|exact (Nat.le_trans _ _ _ (Nat.le_add_l _ _) Le)].
Qed.
Print Assumptions C50_writing_ends.

(** What is written is read again without an error, and exactly this comes back of it. *)
Theorem C50_what_comes_back :
  forall Args (K : codecs Args) c fuel doc, lawful_codecs K -> tidy c -> stored K c ->
    config_document K fuel c = Some doc ->
    exists c', from_document K doc = Ok c' /\ comes_back c c'.
Proof.
  intros Args K c fuel doc L T St E. unfold config_document in E.
  destruct (interfaces_types_map fuel c) as [m|] eqn:Em; [|discriminate]. destruct (input_types fuel c) as [inputs|] eqn:Ei; [|discriminate].
  apply (config_comes_back K L c T St fuel m inputs Em Ei). unfold config_document. now rewrite Em, Ei.
Qed.
Print Assumptions C50_what_comes_back.

(** A configuration that uses nothing a document cannot say comes back whole. *)
Theorem C50_written_configuration_is_read_back :
  forall Args (K : codecs Args) c fuel doc, lawful_codecs K -> tidy c -> stored K c -> sayable c ->
    config_document K fuel c = Some doc -> from_document K doc = Ok c.
Proof.
  intros Args K c fuel doc L T St Sa E. destruct (C50_what_comes_back Args K c fuel doc L T St E) as (c' & R & B).
  now rewrite <- (config_said c c' Sa B).
Qed.
Print Assumptions C50_written_configuration_is_read_back.

(** Whatever is read from a document has the invariants asked for above. *)
Theorem C50_what_is_read_is_stored :
  forall Args (K : codecs Args) doc c, lawful_codecs K -> from_document K doc = Ok c -> stored K c.
Proof. intros Args K doc c L. exact (read_stored K L doc c). Qed.
Print Assumptions C50_what_is_read_is_stored.

(** A document read, written and read again means the same. *)
Theorem C50_document_keeps_its_meaning :
  forall Args (K : codecs Args) doc c fuel doc', lawful_codecs K -> from_document K doc = Ok c -> tidy c -> sayable c ->
    config_document K fuel c = Some doc' -> from_document K doc' = Ok c.
Proof.
  intros Args K doc c fuel doc' L E T Sa W. exact (C50_written_configuration_is_read_back Args K c fuel doc' L T (read_stored K L doc c E) Sa W).
Qed.
Print Assumptions C50_document_keeps_its_meaning.

(** Codecs that are lawful: the arguments of a directive are its settings. *)
Inductive args50 :=
| AServer (x : server) | AUpstream (x : upstream) | ALink (x : string) | ATelemetry (x : telemetry)
| AHttp (x : list string * string) | AGrpc (x : list string * string) | AGraphql (x : bool * string)
| ACall (x : string) | AJs (x : string) | AExpr (x : string)
| AModify (x : modify) | AOmit | ACache (x : Z) | AProtected (x : protected)
| ADiscriminate (x : option string) | AAddField (x : string) | AAlias (x : list string) | AOther.
Definition bad50 {A} : valid A := Err ["unknown argument"].
Definition codecs50 : codecs args50 := {|
  k_server := {| enc := AServer; dec := fun a => match a with AServer x => Ok x | _ => bad50 end |};
  k_upstream := {| enc := AUpstream; dec := fun a => match a with AUpstream x => Ok x | _ => bad50 end |};
  k_link := {| enc := ALink; dec := fun a => match a with ALink x => Ok x | _ => bad50 end |};
  k_telemetry := {| enc := ATelemetry; dec := fun a => match a with ATelemetry x => Ok x | _ => bad50 end |};
  k_http := {| enc := AHttp; dec := fun a => match a with AHttp x => Ok x | _ => bad50 end |};
  k_grpc := {| enc := AGrpc; dec := fun a => match a with AGrpc x => Ok x | _ => bad50 end |};
  k_graphql := {| enc := AGraphql; dec := fun a => match a with AGraphql x => Ok x | _ => bad50 end |};
  k_call := {| enc := ACall; dec := fun a => match a with ACall x => Ok x | _ => bad50 end |};
  k_js := {| enc := AJs; dec := fun a => match a with AJs x => Ok x | _ => bad50 end |};
  k_expr := {| enc := AExpr; dec := fun a => match a with AExpr x => Ok x | _ => bad50 end |};
  k_modify := {| enc := AModify; dec := fun a => match a with AModify x => Ok x | _ => bad50 end |};
  k_omit := {| enc := fun _ => AOmit; dec := fun a => match a with AOmit => Ok tt | _ => bad50 end |};
  k_cache := {| enc := ACache; dec := fun a => match a with ACache x => Ok x | _ => bad50 end |};
  k_protected := {| enc := AProtected; dec := fun a => match a with AProtected x => Ok x | _ => bad50 end |};
  k_discriminate := {| enc := ADiscriminate; dec := fun a => match a with ADiscriminate x => Ok x | _ => bad50 end |};
  k_add_field := {| enc := AAddField; dec := fun a => match a with AAddField x => Ok x | _ => bad50 end |};
  k_alias := {| enc := AAlias; dec := fun a => match a with AAlias x => Ok x | _ => bad50 end |};
  k_other_name := fun d => d; k_other_args := fun _ => AOther; k_other_of := fun n _ => Ok n |}.
Example codecs50_lawful : lawful_codecs codecs50.
Proof.
  split; try (intros a; reflexivity).
  - intros []. reflexivity.
  - intros n a d E. now injection E as <-.
Qed.

(** A document with an interface, an input, a scalar, an enum, a union and resolvers. *)
Definition dir50 (n : string) (a : args50) : dir args50 := {| d_name := n; d_args := a |}.
Definition named50 (n : string) (nullable : bool) : ptype := PType (PNamed n) nullable.
Definition list50 (t : ptype) : ptype := PType (PList t) true.
Definition input50 (n : string) (t : ptype) (d : option string) (ds : list (dir args50)) : input_value args50 :=
  {| iv_doc := Some n; iv_name := n; iv_type := t; iv_default := d; iv_dirs := ds |}.
Definition field50 (n : string) (args : list (input_value args50)) (t : ptype) (ds : list (dir args50)) : field_def args50 :=
  {| fd_doc := None; fd_name := n; fd_args := args; fd_type := t; fd_dirs := ds |}.
Definition type50 (n : string) (doc : option string) (ds : list (dir args50)) (k : kind args50) : definition args50 :=
  DType {| td_doc := doc; td_name := n; td_dirs := ds; td_kind := k |}.
Definition schema50 (ds : list (dir args50)) : definition args50 :=
  DSchema {| sd_dirs := ds; sd_query := Some "Query"; sd_mutation := None; sd_subscription := None |}.
Definition query50 : definition args50 :=
  type50 "Query" (Some "the root") []
    (KObject [] [ field50 "users" [input50 "where" (named50 "Where" false) None []; input50 "after" (named50 "Date" true) (Some """2024""") []] (list50 (named50 "User" false))
                    [dir50 "http" (AHttp (["id"], "/users")); dir50 "cache" (ACache 60); dir50 "expr" (AExpr "{}")];
                  field50 "find" [] (named50 "Found" true) [dir50 "graphQL" (AGraphql (true, "find"))] ]).
Definition where50 : definition args50 :=
  type50 "Where" (Some "a filter") [] (KInput [input50 "name" (named50 "String" true) (Some """x""") []; input50 "kind" (named50 "Kind" true) None []]).
Definition user50 : definition args50 :=
  type50 "User" None [dir50 "addField" (AAddField "street"); dir50 "key" AOther; dir50 "protected" (AProtected {| prot_id := Some ["a"] |})]
    (KObject ["Node"] [ field50 "id" [] (named50 "ID" false) []; field50 "kind" [] (named50 "Kind" true) [dir50 "modify" (AModify {| mod_name := Some "type"; mod_omit := None |})];
                        field50 "secret" [] (named50 "String" true) [dir50 "omit" AOmit; dir50 "external" AOther; dir50 "unknown" AOther] ]).
Definition node50 : definition args50 := type50 "Node" (Some "has an id") [] (KInterface [] [field50 "id" [] (named50 "ID" false) []]).
Definition date50 : definition args50 := type50 "Date" None [] KScalar.
Definition kind50 : definition args50 := type50 "Kind" (Some "kinds") [] (KEnum [("OLD", [dir50 "alias" (AAlias ["old"])]); ("NEW", [])]).
Definition found50 : definition args50 := type50 "Found" None [] (KUnion ["User"; "Query"]).
Definition doc50 : document args50 :=
  [ DDirective; schema50 [dir50 "link" (ALink "a.proto"); dir50 "server" (AServer empty_server); dir50 "link" (ALink "b.proto")];
    query50; where50; user50; node50; date50; kind50; found50 ].
Definition read50 (doc : document args50) : config := match from_document codecs50 doc with Ok c => c | Err _ => empty_config end.
Definition app50 : config := read50 doc50.
Example app50_read : from_document codecs50 doc50 = Ok app50.
Proof. vm_compute. reflexivity. Qed.
Example app50_content :
  map fst (c_types app50) = ["Date"; "Node"; "Query"; "User"; "Where"] /\ c_links app50 = ["a.proto"; "b.proto"] /\
  option_map (fun t => (t_implements t, t_added t, t_directives t, map fst (t_fields t))) (find_type app50 "User") =
    Some (["Node"], ["street"], ["key"], ["id"; "kind"; "secret"]) /\
  option_map u_types (find_union app50 "Found") = Some ["Query"; "User"] /\
  option_map e_variants (find_enum app50 "Kind") = Some [("NEW", None); ("OLD", Some ["old"])].
Proof. vm_compute. repeat split. Qed.
Example app50_tidy : tidy app50.
Proof.
  split.
  - apply (osortedb_ok scmp scmp_order). vm_compute. reflexivity.
  - intros n H. unfold find_union in H. destruct (oget scmp n (c_unions app50)) as [u|] eqn:E; [|contradiction]. apply (oget_in scmp scmp_order) in E. vm_compute in E. destruct E as [E|[]]. injection E as <- _. vm_compute. auto.
  - intros n H. unfold find_enum in H. destruct (oget scmp n (c_enums app50)) as [u|] eqn:E; [|contradiction]. apply (oget_in scmp scmp_order) in E. vm_compute in E. destruct E as [E|[]]. injection E as <- _. reflexivity.
  - intros n u m E I. unfold find_union in E. apply (oget_in scmp scmp_order) in E. vm_compute in E. destruct E as [E|[]]. injection E as <- <-.
    destruct I as [<- | [<- | []]]; reflexivity.
Qed.
Example app50_written : exists doc, config_document codecs50 50 app50 = Some doc /\ from_document codecs50 doc = Ok app50 /\ doc <> doc50.
Proof.
  destruct (config_document codecs50 50 app50) as [doc|] eqn:E; [|vm_compute in E; discriminate]. exists doc.
  vm_compute in E. injection E as <-. split; [reflexivity|]. split; [vm_compute; reflexivity|discriminate].
Qed.
Example app50_stored : stored codecs50 app50.
Proof. exact (C50_what_is_read_is_stored _ _ _ _ codecs50_lawful app50_read). Qed.
Lemma app50_inputs n t : In (n, t) (c_types app50) -> t_fields t <> [] -> InputUse app50 n -> n = "Where".
Proof.
  intros I F U. destruct (input_types_ok app50 app50_tidy 50 ["Kind"; "Where"]) as [_ H]; [vm_compute; reflexivity|].
  destruct (H n) as [<- | [<- | []]]; [|exact U| |reflexivity].
  - left. exists t. split; [|exact F]. apply (in_oget scmp scmp_order); [apply app50_tidy|exact I].
  - exfalso. vm_compute in I. repeat (destruct I as [I|I]; [discriminate I|]). destruct I.
Qed.
Lemma app50_interfaces n : Implemented app50 n <-> n = "Node".
Proof.
  rewrite <- implementors_key. change (implementors app50) with [("Node", ["User"])]. cbn. destruct (scmp n "Node") eqn:E.
  - apply (to_eq _ scmp_order) in E. split; [auto|discriminate].
  - split; [congruence|]. intros ->. discriminate.
  - split; [congruence|]. intros ->. discriminate.
Qed.
Example app50_sayable : sayable app50.
Proof.
  split; [vm_compute; reflexivity|]. split; [repeat constructor|]. intros n t u I U.
  assert (A := app50_inputs n t I). assert (B := app50_interfaces n).
  vm_compute in I. repeat (destruct I as [I|I]; [injection I as <- <-|]); try destruct I;
    inversion U as [P|P Q|P Q|P Q R]; subst;
    try (apply B in P; discriminate P); try (exfalso; apply P, B; reflexivity);
    try discriminate Q; try (exfalso; apply R; reflexivity);
    try (assert (Z := A ltac:(discriminate) Q); discriminate Z);
    try (split; [|split]; cbn; repeat constructor; fail).
  exfalso. apply Q. destruct (input_types_ok app50 app50_tidy 50 ["Kind"; "Where"]) as [H _]; [vm_compute; reflexivity|].
  apply (H "Where"). right. now left.
Qed.

(** Documents whose types are as in [doc50], with one definition in another way. *)
Definition with50 (schema : list (dir args50)) (query node found : definition args50) : document args50 :=
  [ schema50 schema; query; where50; user50; node; kind50; date50; found ].

(** Settings a document can say that are not written: the telemetry, *)
Theorem C50_telemetry_is_kept_refuted :
  exists doc c c', from_document codecs50 doc = Ok c /\ reread codecs50 c c' /\
    c_telemetry c <> empty_telemetry /\ c_telemetry c' = empty_telemetry.
Proof.
  exists (with50 [dir50 "telemetry" (ATelemetry {| te_export := Some "stdout"; te_headers := [] |})] query50 node50 found50).
  do 2 eexists. split; [vm_compute; reflexivity|]. split; [exists 50; eexists; split; [vm_compute; reflexivity|vm_compute; reflexivity]|]. split; [discriminate|reflexivity].
Qed.
Print Assumptions C50_telemetry_is_kept_refuted.
(** what tells the members of a union apart, *)
Theorem C50_discriminator_is_kept_refuted :
  exists doc c c' q q' f f', from_document codecs50 doc = Ok c /\ reread codecs50 c c' /\
    find_type c "Query" = Some q /\ find_type c' "Query" = Some q' /\ aget "find" (t_fields q) = Some f /\ aget "find" (t_fields q') = Some f' /\
    f_discriminate f = Some (Some "kind") /\ f_discriminate f' = None.
Proof.
  exists (with50 [] (type50 "Query" None [] (KObject [] [field50 "find" [] (named50 "Found" true) [dir50 "discriminate" (ADiscriminate (Some "kind"))]])) node50 found50).
  do 6 eexists. split; [vm_compute; reflexivity|]. split; [exists 50; eexists; split; [vm_compute; reflexivity|vm_compute; reflexivity]|]. repeat split; vm_compute; reflexivity.
Qed.
Print Assumptions C50_discriminator_is_kept_refuted.
(** changes to arguments, *)
Theorem C50_argument_modification_is_kept_refuted :
  exists doc c c' q q' f f' a a', from_document codecs50 doc = Ok c /\ reread codecs50 c c' /\
    find_type c "Query" = Some q /\ find_type c' "Query" = Some q' /\ aget "find" (t_fields q) = Some f /\ aget "find" (t_fields q') = Some f' /\
    aget "id" (f_args f) = Some a /\ aget "id" (f_args f') = Some a' /\
    arg_modify a = Some {| mod_name := Some "key"; mod_omit := None |} /\ arg_modify a' = None.
Proof.
  exists (with50 [] (type50 "Query" None [] (KObject [] [field50 "find" [input50 "id" (named50 "ID" true) None [dir50 "modify" (AModify {| mod_name := Some "key"; mod_omit := None |})]]
                                              (named50 "Found" true) []])) node50 found50).
  do 8 eexists. split; [vm_compute; reflexivity|]. split; [exists 50; eexists; split; [vm_compute; reflexivity|vm_compute; reflexivity]|]. repeat split; vm_compute; reflexivity.
Qed.
Print Assumptions C50_argument_modification_is_kept_refuted.
(** the arguments of the fields of interfaces, *)
Definition posts50 : definition args50 :=
  type50 "Node" None [] (KInterface [] [field50 "posts" [input50 "last" (named50 "Last" false) None []] (named50 "String" true) []]).
Theorem C50_interface_arguments_are_kept_refuted :
  exists doc c c' n n' f f' a, from_document codecs50 doc = Ok c /\ reread codecs50 c c' /\
    find_type c "Node" = Some n /\ find_type c' "Node" = Some n' /\ aget "posts" (t_fields n) = Some f /\ aget "posts" (t_fields n') = Some f' /\
    aget "last" (f_args f) = Some a /\ f_args f' = [].
Proof.
  exists (with50 [] query50 posts50 found50).
  do 7 eexists. split; [vm_compute; reflexivity|]. split; [exists 50; eexists; split; [vm_compute; reflexivity|vm_compute; reflexivity]|]. repeat split; vm_compute; reflexivity.
Qed.
Print Assumptions C50_interface_arguments_are_kept_refuted.
(** the documentation of unions, *)
Theorem C50_union_documentation_is_kept_refuted :
  exists doc c c' u u', from_document codecs50 doc = Ok c /\ reread codecs50 c c' /\
    find_union c "Found" = Some u /\ find_union c' "Found" = Some u' /\ u_doc u = Some "what is found" /\ u_doc u' = None.
Proof.
  exists (with50 [] query50 node50 (type50 "Found" (Some "what is found") [] (KUnion ["User"]))).
  do 4 eexists. split; [vm_compute; reflexivity|]. split; [exists 50; eexists; split; [vm_compute; reflexivity|vm_compute; reflexivity]|]. repeat split; vm_compute; reflexivity.
Qed.
Print Assumptions C50_union_documentation_is_kept_refuted.
(** and, of a type that is also used by an argument, all but its fields. *)
Theorem C50_type_used_as_input_is_kept_refuted :
  exists doc c c' t t', from_document codecs50 doc = Ok c /\ reread codecs50 c c' /\
    find_type c "User" = Some t /\ find_type c' "User" = Some t' /\ t_implements t = ["Node"] /\ t_added t = ["street"] /\
    t_implements t' = [] /\ t_added t' = [].
Proof.
  exists (with50 [] (type50 "Query" None [] (KObject [] [field50 "find" [input50 "like" (named50 "User" true) None []] (named50 "User" true) []])) node50 found50).
  do 4 eexists. split; [vm_compute; reflexivity|]. split; [exists 50; eexists; split; [vm_compute; reflexivity|vm_compute; reflexivity]|]. repeat split; vm_compute; reflexivity.
Qed.
Print Assumptions C50_type_used_as_input_is_kept_refuted.
(** Each round can lose more: an input type only the interface's argument refers to is
    written as an input the first time, as an object the second, and then loses its
    default values. *)
Theorem C50_second_round_loses_nothing_refuted :
  exists doc c c1 c2, from_document codecs50 doc = Ok c /\ reread codecs50 c c1 /\ reread codecs50 c1 c2 /\
    exists t1 t2 f1 f2, find_type c1 "Last" = Some t1 /\ find_type c2 "Last" = Some t2 /\
      aget "n" (t_fields t1) = Some f1 /\ aget "n" (t_fields t2) = Some f2 /\ f_default f1 = Some "10" /\ f_default f2 = None.
Proof.
  exists (with50 [] query50 posts50 found50 ++ [type50 "Last" None [] (KInput [input50 "n" (named50 "Int" true) (Some "10") []])]).
  do 3 eexists. split; [vm_compute; reflexivity|]. split; [exists 50; eexists; split; [vm_compute; reflexivity|vm_compute; reflexivity]|].
  split; [exists 50; eexists; split; [vm_compute; reflexivity|vm_compute; reflexivity]|]. do 4 eexists. repeat split; vm_compute; reflexivity.
Qed.
Print Assumptions C50_second_round_loses_nothing_refuted.

(** ** C51 *)
(** The map lists exactly the types that some type implements; behind each are exactly the
    types that implement it, directly or through other interfaces, and are not
    interfaces themselves. *)
Theorem C51_types_behind_an_interface :
  forall fuel c m, interfaces_types_map fuel c = Some m ->
    (forall i, (exists s, oget scmp i m = Some s) <-> Implemented c i) /\
    (forall i s, oget scmp i m = Some s -> forall n, In n s <-> Implements c n i /\ ~ Implemented c n).
Proof.
  intros fuel c m E. destruct (interfaces_map_ok fuel c m E) as (A & B & _). split; [|exact A].
  intros i. rewrite <- B. destruct (oget scmp i m) as [s|]; [split; [discriminate|eauto]|split; [intros (s & Q); discriminate|congruence]].
Qed.
Print Assumptions C51_types_behind_an_interface.
(** The map is found if and only if no type implements itself. *)
Theorem C51_found_exactly_without_cycles :
  forall c, acyclic_implements c <-> exists fuel m, interfaces_types_map fuel c = Some m.
Proof.
  intros c. split.
  - intros Ac. exists (S (List.length (implementors c))). apply (interfaces_map_end c _ Ac). constructor.
  - intros (fuel & m & E). exact (interfaces_map_acyclic c fuel m E).
Qed.
Print Assumptions C51_found_exactly_without_cycles.
(** A document in which a type implements itself is read without an error, and then the
    recursion never ends. *)
Theorem C51_every_document_has_its_map_refuted :
  exists doc c, from_document codecs50 doc = Ok c /\ forall fuel, interfaces_types_map fuel c = None /\ config_document codecs50 fuel c = None.
Proof.
  exists [type50 "Query" None [] (KObject [] [field50 "a" [] (named50 "A" true) []]); type50 "A" None [] (KInterface ["B"] [field50 "x" [] (named50 "ID" true) []]);
          type50 "B" None [] (KInterface ["A"] [field50 "x" [] (named50 "ID" true) []])].
  eexists. split; [vm_compute; reflexivity|]. intros fuel. unfold config_document.
  destruct (interfaces_types_map fuel _) as [m|] eqn:E; [exfalso|split; reflexivity].
  apply (interfaces_map_acyclic _ _ _ E "A"). apply I_through with "B"; [|apply I_direct]; (eexists; split; [cbn; auto|cbn; auto]).
Qed.
Print Assumptions C51_every_document_has_its_map_refuted.

(** Interfaces behind interfaces. *)
Definition layers51 : config := read50
  [ type50 "Query" None [] (KObject [] [field50 "x" [] (named50 "Top" true) []]);
    type50 "Top" None [] (KInterface [] [field50 "x" [] (named50 "ID" true) []]);
    type50 "Mid" None [] (KInterface ["Top"] [field50 "x" [] (named50 "ID" true) []]);
    type50 "One" None [] (KObject ["Mid"; "Top"] [field50 "x" [] (named50 "ID" true) []]);
    type50 "Two" None [] (KObject ["Mid"] [field50 "x" [] (named50 "ID" true) []]) ].
Example layers51_map : interfaces_types_map 5 layers51 = Some [("Mid", ["One"; "Two"]); ("Top", ["One"; "Two"])].
Proof. vm_compute. reflexivity. Qed.
Example layers51_acyclic : acyclic_implements layers51.
Proof. exact (interfaces_map_acyclic _ _ _ layers51_map). Qed.
Example app50_acyclic : acyclic_implements app50.
Proof. apply C51_found_exactly_without_cycles. exists 5. eexists. vm_compute. reflexivity. Qed.
