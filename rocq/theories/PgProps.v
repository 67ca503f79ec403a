(** C79: a configuration generated from proto files has what they declare. *)
From Coq Require Import String Ascii ZArith NArith Bool Arith List Lia.
From Verif Require Import Base Ordered JsonModel ScalarModel ScalarSpec ScalarProofs TypeModel ConfigModel BuilderModel PgModel PgSpec PgProofs Pg2Proofs Pg3Proofs Pg4Proofs.
Import ListNotations.
Open Scope string_scope.
Open Scope list_scope.

(** ** Two files: nested messages and enums, a map, a oneof, methods *)
Definition scalar_field (n : string) (t : primitive) : pfield := {| pf_name := n; pf_label := LOptional; pf_type := t; pf_type_name := None; pf_oneof := None |}.
Definition named_field (n : string) (l : label) (r : string) : pfield := {| pf_name := n; pf_label := l; pf_type := PBytes; pf_type_name := Some r; pf_oneof := None |}.
Definition choice_field (n : string) (t : primitive) (i : nat) : pfield := {| pf_name := n; pf_label := LOptional; pf_type := t; pf_type_name := None; pf_oneof := Some i |}.
Definition tags : message := Message "TagsEntry" true [] [] 0 [scalar_field "key" PString; scalar_field "value" PString].
Definition part : message := Message "Part" false [] [] 0 [scalar_field "count" PUInt32].
Definition item : message :=
  Message "Item" false [{| pe_name := "Color"; pe_values := ["RED"; "GREEN"] |}] [tags; part] 2
    [scalar_field "item_name" PString; named_field "parts" LRepeated ".shop.v1.Item.Part"; named_field "tags" LRepeated ".shop.v1.Item.TagsEntry";
     named_field "color" LRequired ".shop.v1.Item.Color"; choice_field "cents" PInt64 0; choice_field "text" PString 0; choice_field "note" PString 1].
Definition shop : pfile := {| pl_package := "shop.v1"; pl_enums := [{| pe_name := "Status"; pe_values := ["OK"; "GONE"] |}]; pl_messages := [item]; pl_services := []; pl_comments := None |}.
Definition calls : pfile :=
  {| pl_package := "shop.v1.calls"; pl_enums := []; pl_messages := [];
     pl_services := [{| ps_name := "Items"; ps_methods := [{| pd_name := "Get"; pd_input := ".shop.v1.Item"; pd_output := ".shop.v1.Item" |}; {| pd_name := "Ping"; pd_input := empty_message; pd_output := empty_message |}] |}];
     pl_comments := None |}.
Definition as_is (s : string) : string := s.
Definition told (url : string) (body : option string) (method : string) : string := (url ++ " " ++ match body with Some b => b | None => "-" end ++ " " ++ method)%string.
Definition run (files : list pfile) : result context pg_error := from_proto as_is told "Query" "http://h" files.

(** ** Nothing fails, and whatever is named is defined *)
Theorem C79_defined : forall camel grpc_text query url files, well_formed files ->
  exists x, from_proto camel grpc_text query url files = Ok x /\ all_defined x.
Proof. intros camel grpc_text query url files WF. destruct (generated camel grpc_text query url files WF) as (x & E & A & _). eauto. Qed.
Print Assumptions C79_defined.

(** ** Messages, methods and enums *)
Theorem C79_messages : forall camel grpc_text query url files x, well_formed files -> names_apart query files ->
  from_proto camel grpc_text query url files = Ok x ->
  forall p m, message_at files p m -> is_map_entry m = false -> holds_message camel files x p m.
Proof. intros camel grpc_text query url files x WF Ap E. destruct (generated camel grpc_text query url files WF) as (x' & E' & _ & H). replace x with x' by congruence. now apply H. Qed.
Print Assumptions C79_messages.

Theorem C79_methods : forall camel grpc_text query url files x, well_formed files -> names_apart query files ->
  from_proto camel grpc_text query url files = Ok x ->
  forall p d, method_at files p d -> holds_method camel grpc_text query url x p d.
Proof. intros camel grpc_text query url files x WF Ap E. destruct (generated camel grpc_text query url files WF) as (x' & E' & _ & H). replace x with x' by congruence. now apply H. Qed.
Print Assumptions C79_methods.

(** What is missing: enums in files with comments; see [C79_enums_refuted]. *)
Theorem C79_enums_partial : forall camel grpc_text query url files x, well_formed files -> names_apart query files ->
  (forall f, In f files -> pl_comments f = None) ->
  from_proto camel grpc_text query url files = Ok x ->
  forall p e, enum_at files p e -> holds_enum x p e.
Proof. intros camel grpc_text query url files x WF Ap Pl E. destruct (generated camel grpc_text query url files WF) as (x' & E' & _ & H). replace x with x' by congruence. now apply H. Qed.
Print Assumptions C79_enums_partial.

(** And it has nothing else. *)
Theorem C79_nothing_else : forall camel grpc_text query url files x, well_formed files -> names_apart query files ->
  from_proto camel grpc_text query url files = Ok x -> nothing_else query files x.
Proof. intros camel grpc_text query url files x WF Ap E. destruct (generated camel grpc_text query url files WF) as (x' & E' & _ & H). replace x with x' by congruence. now apply H. Qed.
Print Assumptions C79_nothing_else.

(** ** Which names are told apart *)
Theorem C79_apart : forall query files, well_formed files -> tidy query -> is_predefined query = false ->
  (forall p m, message_at files p m -> is_map_entry m = false -> Forall tidy p /\ ~ made_up (last p "")) ->
  (forall p e, enum_at files p e -> Forall tidy p /\ ~ made_up (last p "")) -> (forall p d, method_at files p d -> Forall tidy p) -> names_apart query files.
Proof. exact apart. Qed.
Print Assumptions C79_apart.

Example C79_example_well_formed : well_formed [shop; calls].
Proof. apply checked_well. vm_compute. reflexivity. Qed.
Example C79_example_apart : names_apart "Query" [shop; calls].
Proof.
  assert (P : packaged [shop; calls] = true) by (vm_compute; reflexivity).
  assert (T : forall p, forallb (fun w => no_under w && negb (String.eqb w "")) p = true -> Forall tidy p).
  { intros p H. apply Forall_forall. intros w I. rewrite forallb_forall in H. specialize (H w I). apply andb_true_iff in H. destruct H as [A B]. apply no_under_tidy; [|exact A]. intros ->. discriminate. }
  apply C79_apart; [exact C79_example_well_formed|now apply no_under_tidy|reflexivity| | |].
  - intros p m M N. apply messages_at in M; [|exact P]. cbn in M.
    destruct M as [M|[M|[M|[]]]]; injection M as <- <-; try discriminate N; (split; [apply T; reflexivity|]); intros [E|(b & E)]; discriminate.
  - intros p e M. apply enums_at in M; [|exact P]. cbn in M. destruct M as [M|[M|[]]]; injection M as <- <-; (split; [apply T; reflexivity|]); intros [E|(b & E)]; discriminate.
  - intros p d M. apply methods_at in M; [|exact P]. cbn in M. destruct M as [M|[M|[]]]; injection M as <- <-; apply T; reflexivity.
Qed.
Example C79_example_messages : exists x u v q, run [shop; calls] = Ok x /\
  oget scmp "GEN__shop__v1__Item" (x_unions x) = Some u /\ u_types u = ["GEN__shop__v1__Item__Var0__Var"; "GEN__shop__v1__Item__Var1__Var"; "GEN__shop__v1__Item__Var__Var"] /\
  oget scmp "GEN__shop__v1__Item__Var0__Var" (x_types x) = Some v /\ t_implements v = ["GEN__shop__v1__Item__Interface"] /\
  map (fun nf => (fst nf, f_type (snd nf))) (t_fields v) =
    [("cents", TNamed "Int64" true); ("color", TNamed "GEN__shop__v1__Item__Color" true); ("item_name", TNamed "String" false); ("note", TNamed "String" false);
     ("parts", TList (TNamed "GEN__shop__v1__Item__Part" false) false); ("tags", TNamed "JSON" false)] /\
  x_root x = Some "Query" /\ oget scmp "Query" (x_types x) = Some q /\
  map (fun nf => (fst nf, f_type (snd nf), f_resolvers (snd nf))) (t_fields q) =
    [("GEN__shop__v1__calls__Items__Get", TNamed "GEN__shop__v1__Item" false, [RGrpc [] "http://h {{.args.Item}} shop.v1.calls.Items.Get"]);
     ("GEN__shop__v1__calls__Items__Ping", TNamed "Empty" false, [RGrpc [] "http://h - shop.v1.calls.Items.Ping"])] /\
  map fst (x_enums x) = ["GEN__shop__v1__Item__Color"; "GEN__shop__v1__Status"].
Proof. eexists _, _, _, _. do 9 (split; [vm_compute; reflexivity|]). vm_compute. reflexivity. Qed.

(** Two messages may get one name: then the type of one of them is lost. *)
Definition clash : pfile :=
  {| pl_package := "p"; pl_enums := []; pl_services := []; pl_comments := None;
     pl_messages := [Message "M" false [] [Message "Interface" false [] [] 0 [scalar_field "c" PInt32]] 1 [choice_field "a" PInt32 0; choice_field "b" PInt32 0]] |}.
Theorem C79_messages_refuted : exists files x p m, well_formed files /\ run files = Ok x /\ message_at files p m /\ is_map_entry m = false /\ ~ holds_message as_is files x p m.
Proof.
  exists [clash]. eexists. exists ["p"; "M"; "Interface"], (Message "Interface" false [] [] 0 [scalar_field "c" PInt32]).
  split; [apply checked_well; vm_compute; reflexivity|]. split; [vm_compute; reflexivity|]. split; [apply messages_at; [vm_compute; reflexivity|]; vm_compute; auto|]. split; [reflexivity|].
  intros (base & gs & (F & L & _) & A & _). cbn in F, L. destruct gs; [|discriminate]. inversion F as [|f b fs l En _ E1 E2]; subst. destruct (A (Forall_nil _)) as (t & G & (_ & K) & _). vm_compute in G. injection G as <-.
  destruct En as (Ek & _). specialize (K (fst b)). rewrite Ek in K. cbn in K. now apply K; left.
Qed.
Print Assumptions C79_messages_refuted.
Example C79_example_underscores : title ["p"; "A_"; "B"] = title ["p"; "A"; "_B"] /\ ~ tidy "A_".
Proof. split; [reflexivity|]. intros (_ & _ & H). now apply (H "A"). Qed.

(** The comment of a value of an enum becomes part of its name. *)
Definition remarked : pfile :=
  {| pl_package := "p"; pl_enums := [{| pe_name := "Status"; pe_values := ["OK"] |}]; pl_services := []; pl_messages := [];
     pl_comments := Some (fun path => if list_eq_dec Nat.eq_dec path [5; 0; 2; 0] then Some "fine" else None) |}.
Theorem C79_enums_refuted : exists files x p e, well_formed files /\ names_apart "Query" files /\ run files = Ok x /\ enum_at files p e /\ ~ holds_enum x p e /\
  exists ge v, oget scmp (title p) (x_enums x) = Some ge /\ In (v, None) (e_variants ge) /\ ~ word v.
Proof.
  exists [remarked]. eexists. exists ["p"; "Status"], {| pe_name := "Status"; pe_values := ["OK"] |}.
  assert (P : packaged [remarked] = true) by (vm_compute; reflexivity). assert (W : well_formed [remarked]) by (apply checked_well; vm_compute; reflexivity).
  split; [exact W|]. split.
  { apply C79_apart; [exact W|now apply no_under_tidy|reflexivity| | |].
    - intros p m M. apply messages_at in M; [|exact P]. destruct M.
    - intros p e M. apply enums_at in M; [|exact P]. destruct M as [M|[]]. injection M as <- <-. split; [constructor; [now apply no_under_tidy|]; constructor; [now apply no_under_tidy|constructor]|]. intros [E|(b & E)]; discriminate.
    - intros p d M. apply methods_at in M; [|exact P]. destruct M. }
  split; [vm_compute; reflexivity|]. split; [apply enums_at; [exact P|now left]|]. split.
  - intros (ge & G & V). vm_compute in G. injection G as <-. destruct (V ("OK", None)) as [_ V']. destruct (V' (conj eq_refl (or_introl eq_refl))) as [E|[]]. discriminate.
  - eexists _, _. split; [vm_compute; reflexivity|]. split; [now left|]. intros [_ C]. specialize (C """"%char (or_introl eq_refl)). unfold word_char in C. cbn in C. lia.
Qed.
Print Assumptions C79_enums_refuted.

(** A file without comments gets those of the file before it. *)
Definition silent : pfile :=
  {| pl_package := "q"; pl_enums := []; pl_services := []; pl_comments := None; pl_messages := [Message "N" false [] [] 0 [scalar_field "c" PInt32]] |}.
Definition loud : pfile :=
  {| pl_package := "p"; pl_enums := []; pl_services := []; pl_messages := [Message "M" false [] [] 0 [scalar_field "c" PInt32]];
     pl_comments := Some (fun path => if list_eq_dec Nat.eq_dec path [4; 0] then Some "about M" else None) |}.
Theorem C79_comments_refuted : exists files x t, well_formed files /\ run files = Ok x /\ In silent files /\ pl_comments silent = None /\
  oget scmp (title ["q"; "N"]) (x_types x) = Some t /\ t_doc t = Some "about M".
Proof.
  exists [loud; silent]. eexists _, _. split; [apply checked_well; vm_compute; reflexivity|]. split; [vm_compute; reflexivity|]. split; [right; now left|]. split; [reflexivity|]. split; vm_compute; reflexivity.
Qed.
Print Assumptions C79_comments_refuted.

(** A message with nothing but a oneof becomes a union of which one member has no fields: it is no object type. *)
Definition only_choice : pfile :=
  {| pl_package := "p"; pl_enums := []; pl_services := []; pl_comments := None; pl_messages := [Message "M" false [] [] 1 [choice_field "a" PInt32 0; choice_field "b" PInt32 0]] |}.
Theorem C79_members_refuted : exists files x u n t, well_formed files /\ run files = Ok x /\
  oget scmp (title ["p"; "M"]) (x_unions x) = Some u /\ In n (u_types u) /\ oget scmp n (x_types x) = Some t /\ t_fields t = [].
Proof.
  exists [only_choice]. eexists _, _, "GEN__p__M__Var", _. split; [apply checked_well; vm_compute; reflexivity|]. split; [vm_compute; reflexivity|]. split; [vm_compute; reflexivity|]. split; [cbn; auto|]. split; vm_compute; reflexivity.
Qed.
Print Assumptions C79_members_refuted.

(** ** The method that is called *)
(** What is missing: files without a package; see [C79_calls_refuted]. *)
Theorem C79_calls_partial : forall files f q s d, well_formed files -> In f files -> in_package f q -> q <> [] -> In s (pl_services f) -> In d (ps_methods s) ->
  grpc_method (String.concat "." (q ++ [ps_name s; pd_name d])) = Some (pl_package f, ps_name s, pd_name d).
Proof.
  intros files f q s d WF I P N J K. rewrite method_parts; [destruct P as [-> _]; reflexivity|exact N|]. apply (wf_methods _ WF _ d). exists f, q, s. auto.
Qed.
Print Assumptions C79_calls_partial.
Theorem C79_calls_refuted : forall files f s d, well_formed files -> In f files -> pl_package f = "" -> In s (pl_services f) -> In d (ps_methods s) ->
  grpc_method (String.concat "." [ps_name s; pd_name d]) = None.
Proof.
  intros files f s d WF I P J K. assert (M : method_at files [ps_name s; pd_name d] d) by (exists f, [], s; repeat split; auto).
  pose proof (wf_methods _ WF _ _ M) as W. inversion W as [|? ? W1 W2]; subst. inversion W2 as [|? ? W3 _]; subst. now apply method_alone.
Qed.
Print Assumptions C79_calls_refuted.
Definition bare : pfile :=
  {| pl_package := ""; pl_enums := []; pl_messages := []; pl_services := [{| ps_name := "Items"; ps_methods := [{| pd_name := "Ping"; pd_input := empty_message; pd_output := empty_message |}] |}]; pl_comments := None |}.
Example C79_example_calls : grpc_method "shop.v1.calls.Items.Get" = Some ("shop.v1.calls", "Items", "Get") /\ well_formed [bare] /\ grpc_method "Items.Ping" = None.
Proof. split; [reflexivity|]. split; [apply checked_well; vm_compute; reflexivity|reflexivity]. Qed.

(** ** The values of the fields *)
(** What is missing: [fixed64]; see [C79_scalars_refuted]. *)
Theorem C79_scalars_partial : forall email phone rfc3339 url p v, p <> PFixed64 -> written p v ->
  validate_named email phone rfc3339 url (convert_primitive_type p) v = true.
Proof. exact scalars. Qed.
Print Assumptions C79_scalars_partial.
Theorem C79_scalars_refuted : (exists v, written PFixed64 v /\ forall email phone rfc3339 url, validate_named email phone rfc3339 url (convert_primitive_type PFixed64) v = false) /\
  (exists z, written PFixed32 (VNum (NInt z)) /\ convert_primitive_type PFixed32 = "Int" /\ ~ signed 32 z).
Proof.
  split.
  - exists (VStr "9223372036854775808"). split; [|reflexivity]. exists "9223372036854775808", 9223372036854775808%Z. split; [reflexivity|]. split; [|split; [lia|reflexivity]].
    apply natural_iff. reflexivity.
  - exists 3000000000%Z. split; [exists 3000000000%Z; split; [reflexivity|split; [lia|reflexivity]]|]. split; [reflexivity|]. unfold signed. intros [_ H]. revert H. apply Z.le_ngt. discriminate.
Qed.
Print Assumptions C79_scalars_refuted.
Example C79_example_scalars : written PInt64 (VStr "-12") /\ written PUInt32 (VNum (NInt 7)) /\ convert_primitive_type PUInt64 = "UInt64".
Proof.
  split; [|split; [exists 7%Z; split; [reflexivity|split; [lia|reflexivity]]|reflexivity]]. exists "-12", (-12)%Z. split; [reflexivity|]. split; [|split; [discriminate|reflexivity]]. right. exists "12". split; [reflexivity|].
  change "12" with ("1" ++ String "2" "")%string. change (- -12)%Z with (10 * 1 + 2)%Z. constructor; [constructor|]; cbn; tauto.
Qed.
