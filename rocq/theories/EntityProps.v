(** Theorems about types as entities of a federation (C66). *)
From Coq Require Import String Ascii ZArith NArith Arith Bool Lia List.
From Verif Require Import Base Ordered OrderedFacts JsonModel TypeModel ConfigModel MustacheModel MustacheSpec MustacheProofs ComposeModel CtxModel
  RequestModel FieldSpec EntityModel EntitySpec EntityProofs Entity2Proofs.
Import ListNotations.
Open Scope string_scope.
Open Scope list_scope.

(** The key of a type names what its resolver uses of a representation, in full: a path is in
    it exactly if the resolver uses it and nothing below it. *)
Theorem C66_key_names_what_is_used_partial : forall json_text d key,
  readable d -> extract_keys json_text d = Ok key -> its_key json_text d key.
Proof. intros json_text d key R H. exact (proj1 (key_exact json_text d key R H)). Qed.
Print Assumptions C66_key_names_what_is_used_partial.

(** A resolver of a type is refused exactly if it uses arguments. *)
Theorem C66_arguments_are_refused : forall json_text d, readable d ->
  ((exists key, extract_keys json_text d = Ok key) <-> forall s, text_of json_text s d -> ~ uses_args s).
Proof.
  intros json_text d R. split.
  - intros [key H]. exact (proj2 (key_exact json_text d key R H)).
  - intros N. destruct (extract_keys json_text d) as [key|es] eqn:E; [eauto|].
    destruct (key_fails json_text d es R E) as (s & T & U). now elim (N s T).
Qed.
Print Assumptions C66_arguments_are_refused.

(** The key is enough to make the call: two representations with the same values at its paths
    lead to the same HTTP request, if the resolver does not use the whole representation, nor a
    value and a part of it. *)
Theorem C66_the_key_is_enough_partial :
  forall json_text url body hs query key paths rx hd c v1 v2 parse_base form_text t,
  let d := DHttp url body hs query in
  extract_keys json_text d = Ok key -> key_paths key paths ->
  (forall p, In p paths <-> p <> [] /\ used json_text d p /\ forall q, used json_text d (p ++ q) -> q = []) ->
  made_of json_text url body hs query t ->
  ~ used json_text d [] -> (forall p q, used json_text d p -> used json_text d (p ++ q) -> q = []) ->
  (forall p x, In p paths -> found v1 p x <-> found v2 p x) ->
  to_request parse_base form_text t {| e_ext := rx; e_ctx := with_value v1 c; e_headers := hd |} =
  to_request parse_base form_text t {| e_ext := rx; e_ctx := with_value v2 c; e_headers := hd |}.
Proof.
  intros json_text url body hs query key paths rx hd c v1 v2 parse_base form_text t d A B C D E G H.
  exact (key_enough json_text url body hs query key paths rx hd c v1 v2 parse_base form_text t A B C D E G H).
Qed.
Print Assumptions C66_the_key_is_enough_partial.

(** Without federation nothing is changed. *)
Theorem C66_off : forall json_text details_of key_directive c, ~ federated c ->
  subgraph json_text details_of key_directive c = Ok c.
Proof. exact off. Qed.
Print Assumptions C66_off.

(** With it, a configuration is accepted exactly if every type with a resolver has one only,
    that uses no arguments and, in the address and the query parameters, only fields that
    exist. *)
Theorem C66_accepted_exactly_partial : forall json_text details_of key_directive c,
  known details_of c -> federated c ->
  ((exists c', subgraph json_text details_of key_directive c = Ok c') <->
   forall n t, In (n, t) (c_types c) -> can_be_entity json_text details_of c n t).
Proof. exact subgraph_some. Qed.
Print Assumptions C66_accepted_exactly_partial.

(** Every type but the query type keeps everything it has and gets the directive with its key;
    no other types are added but two of reserved names. *)
Theorem C66_types_keep_what_they_have_partial : forall json_text details_of key_directive c c' q n,
  known details_of c -> federated c -> own_query c q -> subgraph json_text details_of key_directive c = Ok c' ->
  ~ reserved n -> n <> q ->
  match find_type c n, find_type c' n with
  | Some t, Some t' => as_entity json_text details_of key_directive t t'
  | None, None => True
  | _, _ => False
  end.
Proof. exact type_out. Qed.
Print Assumptions C66_types_keep_what_they_have_partial.

(** The query type gets the two fields of a federation, the one for entities if there are any;
    exactly the types with a resolver can be asked for, each with its own resolver. *)
Theorem C66_entities_can_be_asked_for_partial : forall json_text details_of key_directive c c' q,
  osorted scmp (c_types c) -> known details_of c -> federated c -> own_query c q -> ~ reserved q ->
  subgraph json_text details_of key_directive c = Ok c' ->
  r_query (c_schema c') = Some q /\
  exists entries, lists_entities c entries /\
  exists t t' tq,
    (find_type c q = Some t \/ find_type c q = None /\ t = empty_gtype) /\
    as_entity json_text details_of key_directive t t' /\ find_type c' q = Some tq /\ same_but_fields t' tq /\
    (forall k, k <> "_service" -> k <> "_entities" -> oget scmp k (t_fields tq) = oget scmp k (t_fields t)) /\
    (exists f, oget scmp "_service" (t_fields tq) = Some f /\ f_resolvers f = [RService] /\ f_type f = TNamed "_Service" true /\ f_args f = [] /\ unadorned f) /\
    (entries = [] -> oget scmp "_entities" (t_fields tq) = oget scmp "_entities" (t_fields t) /\ c_unions c' = c_unions c) /\
    (entries <> [] ->
       (exists f, oget scmp "_entities" (t_fields tq) = Some f /\
          f_resolvers f = [REntity entries] /\ f_type f = TList (TNamed "_Entity" false) true /\
          (exists a, f_args f = [("representations", a)] /\ arg_type a = TList (TNamed "_Any" true) true /\ arg_modify a = None /\ arg_default a = None) /\ unadorned f) /\
       find_union c' "_Entity" = Some {| u_types := map fst entries; u_doc := None |} /\
       forall n, n <> "_Entity" -> find_union c' n = find_union c n).
Proof.
  intros json_text details_of key_directive c c' q A B C D E G. split.
  - exact (schema_out json_text details_of key_directive c c' q B C D G).
  - exact (entities_out json_text details_of key_directive c c' q A B C D E G).
Qed.
Print Assumptions C66_entities_can_be_asked_for_partial.

(** The rest of the configuration stays. *)
Theorem C66_the_rest_stays : forall json_text details_of key_directive c c',
  known details_of c -> subgraph json_text details_of key_directive c = Ok c' ->
  c_enums c' = c_enums c /\ c_server c' = c_server c /\ c_upstream c' = c_upstream c /\ c_links c' = c_links c /\ c_telemetry c' = c_telemetry c /\
  r_mutation (c_schema c') = r_mutation (c_schema c) /\ r_subscription (c_schema c') = r_subscription (c_schema c).
Proof. exact rest_out. Qed.
Print Assumptions C66_the_rest_stays.

(** * A concrete configuration *)
Definition zjson (v : value) : string := match v with VStr s => s | _ => "{}" end.
Definition zf (t : string) : field :=
  {| f_type := TNamed t false; f_args := []; f_doc := None; f_modify := None; f_omit := false; f_cache := None; f_default := None;
     f_protected := None; f_discriminate := None; f_resolvers := []; f_directives := [] |}.
Definition zt (fs : list (string * field)) (r : list resolver) : gtype :=
  {| t_fields := fs; t_added := []; t_doc := None; t_implements := []; t_cache := None; t_protected := None; t_resolvers := r; t_directives := [] |}.
Definition zdetails (r : resolver) : details :=
  match r with
  | RHttp _ "user" => DHttp "http://api/{{.value.org.id}}/users/{{.value.id}}" None [("x-name", "{{.value.name}}")] [("deep", "{{.value.org.region}}")]
  | RHttp _ u => DHttp u None [] []
  | _ => DOther
  end.
Definition zkey (text : string) : string := ("@key(fields: " ++ text ++ ")")%string.
Definition zserver : server :=
  {| s_enable_jit := None; s_apollo_tracing := None; s_batch_requests := None;
     s_headers := None; s_timeout := None; s_hostname := None; s_introspection := None;
     s_federation := Some true; s_pipeline_flush := None; s_port := None;
     s_query_validation := None; s_response_validation := None; s_script := None;
     s_showcase := None; s_vars := []; s_version := None; s_workers := None; s_routes := None |}.
Definition zc (types : list (string * gtype)) : config :=
  {| c_server := zserver; c_upstream := empty_upstream;
     c_schema := {| r_query := Some "Query"; r_mutation := None; r_subscription := None |};
     c_types := types; c_unions := []; c_enums := []; c_links := []; c_telemetry := empty_telemetry |}.
Definition zorg : gtype := zt [("id", zf "Int"); ("region", zf "String")] [].
Definition zuser : gtype := zt [("id", zf "Int"); ("name", zf "String"); ("org", zf "Org")] [RHttp [] "user"].
Definition zquery : gtype := zt [("me", zf "User")] [].
Definition z66 : config := zc [("Org", zorg); ("Query", zquery); ("User", zuser)].
Definition zd : details := zdetails (RHttp [] "user").

Lemma zuses s p : uses s p <-> In (Expression ("value" :: p)) (parse s).
Proof. rewrite in_parse. reflexivity. Qed.
Lemma zused p : used zjson zd p -> In p [["org"; "id"]; ["id"]; ["name"]; ["org"; "region"]].
Proof.
  intros (s & T & U). apply zuses in U. inversion T as [url body hs query H| | | |]; subst.
  destruct H as [-> | [(v & E & _) | [(k & v & [E | []] & [-> | ->]) | (k & v & [E | []] & [-> | ->])]]]; try discriminate;
    try (injection E as <- <-); vm_compute in U; intuition (try discriminate); try (injection H as <-; cbn; auto); try (injection H0 as <-; cbn; auto).
Qed.

(** The key of a type whose resolver uses four values. *)
Example C66_key_witness :
  readable zd /\ extract_keys zjson zd = Ok (Some "id name org { id region }") /\
  key_paths (Some "id name org { id region }") [["id"]; ["name"]; ["org"; "id"]; ["org"; "region"]].
Proof.
  split; [exact Logic.I|]. split; [vm_compute; reflexivity|]. split; [discriminate|].
  change (words "id name org { id region }") with ["id"; "name"; "org"; "{"; "id"; "region"; "}"].
  assert (N : forall c s, is_alpha c = true -> forallb is_word (list_ascii_of_string s) = true -> name (String c s)).
  { intros c s A W. constructor; [exact A|]. clear A. induction s as [|x s IH]; [constructor|]. cbn in W. apply andb_true_iff in W.
    destruct W. constructor; auto. }
  apply Sel_name; [apply N; reflexivity|]. apply Sel_name; [apply N; reflexivity|].
  apply (Sel_sub "org" ["id"; "region"] [["id"]; ["region"]] [] []); [apply N; reflexivity|discriminate| |constructor].
  apply Sel_name; [apply N; reflexivity|]. apply Sel_name; [apply N; reflexivity|]. constructor.
Qed.
(** The premises of [C66_the_key_is_enough_partial] hold for it. *)
Example C66_enough_witness :
  ~ used zjson zd [] /\ (forall p q, used zjson zd p -> used zjson zd (p ++ q) -> q = []) /\
  exists v1 v2, v1 <> v2 /\ forall p x, In p [["id"]; ["name"]; ["org"; "id"]; ["org"; "region"]] -> found v1 p x <-> found v2 p x.
Proof.
  split; [intros H; apply zused in H; cbn in H; intuition discriminate|]. split.
  - intros p q A B. apply zused in A. apply zused in B. cbn in A.
    destruct A as [<- | [<- | [<- | [<- | []]]]]; cbn in B; intuition congruence.
  - exists (VObj [("id", VNum (NInt 1)); ("seen", VBool true)]), (VObj [("id", VNum (NInt 1)); ("seen", VBool false)]).
    split; [intros E; discriminate|]. intros p x I. rewrite <- !found_get.
    cbn in I. destruct I as [<- | [<- | [<- | [<- | []]]]]; reflexivity.
Qed.
Example C66_subgraph_witness :
  known zdetails z66 /\ federated z66 /\ own_query z66 "Query" /\ osorted scmp (c_types z66) /\
  exists c', subgraph zjson zdetails zkey z66 = Ok c' /\
    find_type c' "Org" = Some zorg /\
    option_map t_directives (find_type c' "User") = Some ["@key(fields: id name org { id region })"] /\
    option_map (fun t => map fst (t_fields t)) (find_type c' "Query") = Some ["_entities"; "_service"; "me"].
Proof.
  split; [|split; [reflexivity|split; [left; reflexivity|split]]].
  - intros n t r [I | [I | [I | []]]] J; injection I as <- <-; cbn in J; intuition subst. right. exact Logic.I.
  - apply (osortedb_ok scmp scmp_order). reflexivity.
  - eexists. split; [vm_compute; reflexivity|]. split; [reflexivity|]. split; reflexivity.
Qed.
(** A field that does not exist, arguments, two resolvers. *)
Example C66_refusals :
  (exists es, subgraph zjson zdetails zkey (zc [("Query", zquery); ("User", zt [("id", zf "Int")] [RHttp [] "http://api/{{.value.nope}}"])]) = Err es) /\
  (exists es, subgraph zjson zdetails zkey (zc [("Query", zquery); ("User", zt [("id", zf "Int")] [RHttp [] "http://api/{{.args.id}}"])]) = Err es) /\
  (exists es, subgraph zjson zdetails zkey (zc [("Query", zquery); ("User", zt [("id", zf "Int")] [RHttp [] "http://a"; RHttp [] "http://b"])]) = Err es).
Proof. split; [|split]; eexists; vm_compute; reflexivity. Qed.

(** * Findings *)

(** A resolver that uses the whole representation gets no key. *)
Theorem C66_whole_representation_refuted : exists d,
  used zjson d [] /\ extract_keys zjson d = Ok None.
Proof.
  exists (DHttp "http://api/find" (Some (VStr "{{.value}}")) [] []). split; [|vm_compute; reflexivity].
  exists "{{.value}}". split; [constructor; right; left; exists (VStr "{{.value}}"); auto|]. apply zuses. vm_compute. auto.
Qed.
Print Assumptions C66_whole_representation_refuted.

(** A resolver that uses a value and a part of it gets a key with the part only, and two
    representations that agree on the key lead to different requests. *)
Theorem C66_value_and_part_refuted : exists url key paths v1 v2,
  extract_keys zjson (DHttp url None [] []) = Ok key /\ key_paths key paths /\
  (forall p x, In p paths -> found v1 p x <-> found v2 p x) /\
  exists t rx c, made_of zjson url None [] [] t /\
    to_request (fun s => Some s) (fun _ => None) t {| e_ext := rx; e_ctx := with_value v1 c; e_headers := [] |} <>
    to_request (fun s => Some s) (fun _ => None) t {| e_ext := rx; e_ctx := with_value v2 c; e_headers := [] |}.
Proof.
  exists "http://api/{{.value.org.id}}/{{.value.org}}", (Some "org { id }"), [["org"; "id"]],
    (VObj [("org", VObj [("id", VStr "1"); ("region", VStr "eu")])]), (VObj [("org", VObj [("id", VStr "1")])]).
  split; [vm_compute; reflexivity|]. split.
  { split; [discriminate|]. change (words "org { id }") with ["org"; "{"; "id"; "}"].
    assert (N : name "org" /\ name "id") by (split; constructor; try reflexivity; repeat (constructor; try reflexivity)).
    apply (Sel_sub "org" ["id"] [["id"]] [] []); [apply N|discriminate| |constructor]. apply Sel_name; [apply N|constructor]. }
  split.
  { intros p x [<- | []]. rewrite <- !found_get. reflexivity. }
  exists {| t_root := parse "http://api/{{.value.org.id}}/{{.value.org}}"; t_query := []; t_method := "GET"; t_headers := []; t_body := None;
            t_form := false; t_encoder := RepeatedKey |},
    {| x_header := fun _ => None; x_var := fun _ => None; x_env := fun _ => None; x_vars_json := "{}";
       x_json_text := fun v => match v with VObj (_ :: _ :: _) => "two" | _ => "one" end; x_graphql_text := fun _ => ""; x_parse := fun _ => None |},
    {| c_value := None; c_args := None; c_over_value := None; c_over_args := None; c_is_query := true |}.
  split; [repeat split|]. vm_compute. discriminate.
Qed.
Print Assumptions C66_value_and_part_refuted.

(** Of a resolver that calls fields only the first step is looked at: what the second one uses
    is not in the key, nor are its arguments refused. *)
Theorem C66_later_steps_refuted : exists steps,
  used zjson (DCall steps) ["city"] /\ extract_keys zjson (DCall steps) = Ok (Some "id").
Proof.
  exists [[("id", VStr "{{.value.id}}")]; [("city", VStr "{{.value.city}}")]]. split; [|vm_compute; reflexivity].
  exists "{{.value.city}}". split; [|apply zuses; vm_compute; auto].
  eapply (TO_call zjson _ _ [("city", VStr "{{.value.city}}")] "city" (VStr "{{.value.city}}")); [cbn; auto|cbn; auto|right; constructor].
Qed.
Print Assumptions C66_later_steps_refuted.

(** A header may use a field that does not exist: the key then names it. *)
Theorem C66_headers_are_not_checked_refuted : exists details_of c c' t,
  federated c /\ find_type c "User" = Some t /\ ~ declared c "User" ["nope"] /\
  subgraph zjson details_of zkey c = Ok c' /\
  option_map t_directives (find_type c' "User") = Some ["@key(fields: nope)"].
Proof.
  exists (fun _ => DHttp "http://api/me" None [("x-id", "{{.value.nope}}")] []), (zc [("Query", zquery); ("User", zt [("id", zf "Int")] [RHttp [] "user"])]).
  eexists. eexists. split; [reflexivity|]. split; [reflexivity|]. split.
  - intros H. inversion H as [|n t k f p T F D]; subst. cbn in T. injection T as <-. discriminate.
  - split; [vm_compute; reflexivity|reflexivity].
Qed.
Print Assumptions C66_headers_are_not_checked_refuted.
