(** C48 (the fields asked of an upstream GraphQL server), for the selections of a plan. *)
From Coq Require Import String Ascii ZArith NArith Bool List Permutation.
From Verif Require Import Base JsonModel TypeModel AuthModel CtxModel MustacheModel MustacheSpec HeadersModel UrlModel RequestModel RequestSpec GqlModel IrModel BuilderModel
  UpstreamModel UpstreamSpec RequestProofs UpstreamProofs RequestProps.
Import ListNotations.
Open Scope list_scope.
Open Scope string_scope.

(** Every GraphQL call of a planned operation, merged members left out, asks its upstream
    for exactly the paths the client selected below the field and the upstream serves, with
    the client's arguments and directives, as text that can stand inside a JSON string. *)
Theorem C48_calls_ask_for_what_is_wanted_partial :
  forall number_text quoted (O : Type) vars interfaces shuffle (plan : list (bfield (ir (call O)))),
  (forall l m, Permutation (shuffle l m) m) ->
  forall f', Within (map (fun f => resolve_selections number_text quoted vars
                                     (plan_selections number_text quoted escape_default interfaces shuffle f)) plan) f' ->
  exists f, Within plan f /\ b_output f' = b_output f /\ b_args f' = b_args f /\
  forall e', b_ir f' = Some e' -> exists e, b_ir f = Some e /\
  forall c', Calls e' c' -> exists c, Calls e c /\
  match c with
  | OtherCall _ => c' = c
  | GraphqlCall t s =>
      forall interface : bool, (interface = true <-> interface_typed interfaces f) ->
      (forall g, In g (b_sel f) -> tame number_text quoted vars g) ->
      ((exists p, Wants number_text quoted interfaces vars interface (b_sel f) p) ->
       exists text asks, c' = GraphqlCall t (Some (Resolved text)) /\ json_chars text (asks_text asks) /\
         forall p, Asked asks p <-> Wants number_text quoted interfaces vars interface (b_sel f) p) /\
      (s = None -> (forall p, ~ Wants number_text quoted interfaces vars interface (b_sel f) p) -> c' = GraphqlCall t None)
  end.
Proof.
  intros nt qt O vars ifs sh plan Sh f' W. destruct (planned_field nt qt vars ifs sh plan f' W) as (f & Wf & ->).
  exists f. split; [exact Wf|]. split; [now destruct f|]. split; [now destruct f|].
  intros e' E. destruct (planned_calls nt qt vars ifs sh f e' E) as (e & Ee & H). exists e. split; [exact Ee|].
  intros c' K. apply H in K as (c & K & ->). exists c. split; [exact K|]. destruct c as [t s|o]; [|reflexivity].
  intros b Hb T. destruct (planned_call nt qt vars ifs sh Sh f b t s Hb T) as [(text & asks & E1 & J & P & A)|[E1 N]].
  - split; [intros _; exists text, asks; auto|]. intros _ N. destruct P as [p P]. now destruct (N p).
  - split; [intros [p P]; now destruct (N p)|]. intros -> _. now rewrite E1.
Qed.
Print Assumptions C48_calls_ask_for_what_is_wanted_partial.

(** Such a selection is what the request carries. *)
Theorem C48_request_carries_the_selection_partial : forall parse_base t text asks e f q args,
  gql_request parse_base (planned_template t (Some (Resolved text))) e f = Ok q ->
  json_chars text (asks_text asks) ->
  every json_plain (gt_kind t) -> every json_plain (gt_name t) ->
  Forall2 (fun a b => fst a = fst b /\ rendered (path_graphql (e_ext e) (e_ctx e)) (snd a) (snd b))
    (match gt_args t with Some l => l | None => [] end) args ->
  (forall n v, In (n, v) args -> every json_plain n /\ every ordinary v) ->
  ordinary_field f -> plain_related (gt_related t) ->
  exists body, q_body q = Some body /\ carries body (asked (gt_kind t) (gt_name t) args (f_directives f) (asks_text asks)).
Proof. intros pb t text asks e f q args E J K N A P F R. exact (proj2 (gql_posts pb _ e f q args E K N A P F R (asks_text asks) J)). Qed.
Print Assumptions C48_request_carries_the_selection_partial.

(** * Witnesses *)
Definition nums48 (n : number) : string := match n with NInt z => Z_to_string z | _ => "?" end.
Definition quote48 (s : string) : string := """" ++ s ++ """".
Notation field48 := (bfield (ir (call unit))).
Definition node48 (n : string) (e : option (ir (call unit))) (type : string) (args : list arg) (on : option string)
                  (ds : list qdirective) (sel : list field48) : field48 :=
  BField 0 n n e (TNamed type false) "" None None args on ds false None sel.
Definition leaf48 (n : string) : field48 := node48 n None "String" [] None [] [].
Definition given48 (n : string) (v : qvalue) : arg :=
  {| a_name := n; a_type := TNamed "String" false; a_value := Some v; a_default := None |}.
Definition target48 : gql_template :=
  {| gt_url := "http://a"; gt_kind := "query"; gt_name := "node"; gt_args := None; gt_headers := []; gt_related := Related []; gt_selection := None |}.
Definition call48 : call unit := GraphqlCall target48 None.
Definition root48 (type : string) (sel : list field48) : field48 := node48 "node" (Some (IIO call48)) type [] None [] sel.
Definition shuffle48 (l : list field48) (m : list (string * list string)) := m.
Definition planned48 (interfaces : list string) (vars : list (string * value)) (f : field48) : field48 :=
  resolve_selections nums48 quote48 vars (plan_selections nums48 quote48 escape_default interfaces shuffle48 f).
(** The selection of the call of a field. *)
Definition sent48 (interfaces : list string) (vars : list (string * value)) (f : field48) : option planned :=
  match b_ir (planned48 interfaces vars f) with Some (IIO (GraphqlCall _ s)) => s | _ => None end.

(** [{ node { id key pic(kind: "big") @size(of: $n) ... on User { mail } other } }], [key]
    stored as [uid], [other] resolved by a call of its own. *)
Definition sel48 : list field48 :=
  [leaf48 "id"; node48 "key" (Some (IContextPath ["uid"])) "String" [] None [] [];
   node48 "pic" None "Pic" [given48 "kind" (QStr "big")] None [("size", [("of", QVar "n"); ("if", QNull)])] [leaf48 "url"];
   node48 "mail" None "String" [] (Some "User") [] [];
   node48 "other" (Some (IIO (OtherCall tt))) "String" [] None [] []].
Definition vars48 : list (string * value) := [("n", VNum (NInt 3))].
Definition asks48 : list ask :=
  [AskField "id" [] [] []; AskField "uid" [] [] [];
   AskField "pic" [("kind", """big""")] [("size", [("of", "3")])] [AskField "url" [] [] []];
   AskField "__typename" [] [] []; AskOn "User" [AskField "mail" [] [] []]].
Example C48_planned_witness :
  sent48 ["Node"] vars48 (root48 "Node" sel48) =
    Some (Resolved "{ id uid pic(kind: \""big\"") @size(of: 3) { url } __typename ... on User { mail } }") /\
  asks_text asks48 = "{ id uid pic(kind: ""big"") @size(of: 3) { url } __typename ... on User { mail } }" /\
  (forall g, In g sel48 -> tame nums48 quote48 vars48 g) /\
  (exists p, Wants nums48 quote48 ["Node"] vars48 true sel48 p).
Proof.
  assert (WC : forall s, HeadersModel.all_chars is_word s = true -> word_chars s).
  { induction s as [|c s IH]; cbn; intros H; [constructor|]. apply andb_true_iff in H as [H1 H2]. constructor; auto. }
  split; [vm_compute; reflexivity|]. split; [vm_compute; reflexivity|]. split.
  - assert (L : forall n, word_chars n -> tame nums48 quote48 vars48 (leaf48 n)).
    { intros n W. apply (tame_served _ _ _ _ n); [now constructor|exact W|cbn; congruence|intros a v []|intros d args k v []|intros g []]. }
    intros g [<-|[<-|[<-|[<-|[<-|[]]]]]].
    + apply L. now apply WC.
    + apply (tame_served _ _ _ _ "uid"); [now apply (served_renamed _ "uid" [])|now apply WC|cbn; congruence|intros a v []|intros d args k v []|intros g []].
    + apply (tame_served _ _ _ _ "pic"); [now constructor|now apply WC|cbn; congruence|..].
      * intros a v [<-|[]] [= <-]. split; [now apply WC|]. split; [constructor|]. split; [|intros t; cbn; congruence].
        split; [reflexivity|]. split.
        -- apply braceless_of. vm_compute. discriminate.
        -- intros t E. destruct t as [|c1 [|c2 [|c3 [|c4 [|c5 t]]]]]; try discriminate E. injection E as _ _ _ _ _ E. destruct t; discriminate E.
      * intros d args k v [[= <- <-]|[]]. split; [now apply WC|]. intros [[= <- <-]|[[= <- <-]|[]]] N; [|now destruct N].
        split; [now apply WC|]. apply (tame_variable _ _ _ "n" (VNum (NInt 3))); [|reflexivity|reflexivity].
        constructor; [reflexivity|constructor].
      * intros g [<-|[]]. apply L. now apply WC.
    + apply (tame_served _ _ _ _ "mail"); [now constructor|now apply WC|intros T [= <-]; now apply WC|intros a v []|intros d args k v []|intros g []].
    + apply tame_other. now apply (resolved_by_call _ (OtherCall tt)).
  - exists [step_of nums48 quote48 vars48 true (leaf48 "id") "id"]. apply wants_field; [now left|now constructor].
Qed.

(** * Findings *)

(** A variable given for an argument of a field is sent as its name, in a query that does
    not declare it. *)
Theorem C48_variables_in_arguments_refuted : exists f vars,
  (exists g a, In g (b_sel f) /\ In a (b_args g) /\ a_value a = Some (QVar "k") /\ aget "k" vars = Some (VStr "big")) /\
  sent48 [] vars f = Some (Resolved "{ pic(kind: $k) }").
Proof.
  exists (root48 "User" [node48 "pic" None "String" [given48 "kind" (QVar "k")] None [] []]), [("k", VStr "big")].
  split; [|vm_compute; reflexivity]. eexists _, _. split; [now left|]. split; [now left|]. now split.
Qed.
Print Assumptions C48_variables_in_arguments_refuted.

(** Two aliases of one field with different arguments become two selections under the same
    name, which no server accepts. *)
Theorem C48_aliases_collide_refuted : exists f,
  map b_output (b_sel f) = ["small"; "large"] /\
  sent48 [] [] f = Some (Resolved "{ pic(kind: \""s\"") pic(kind: \""l\"") }").
Proof.
  exists (root48 "User" [BField 1 "pic" "small" None (TNamed "String" false) "" None None [given48 "kind" (QStr "s")] None [] false None [];
                         BField 2 "pic" "large" None (TNamed "String" false) "" None None [given48 "kind" (QStr "l")] None [] false None []]).
  split; vm_compute; reflexivity.
Qed.
Print Assumptions C48_aliases_collide_refuted.

(** The fields of the members of a union are asked for without their fragments. *)
Theorem C48_union_fragments_refuted : exists f,
  map b_fragment (b_sel f) = [Some "Cat"; Some "Dog"] /\ sent48 ["Node"] [] f = Some (Resolved "{ lives barks }").
Proof.
  exists (root48 "Pet" [node48 "lives" None "Int" [] (Some "Cat") [] []; node48 "barks" None "Boolean" [] (Some "Dog") [] []]).
  split; vm_compute; reflexivity.
Qed.
Print Assumptions C48_union_fragments_refuted.

(** A field with a resolver of its own is asked for as well if the call is cached, or a part
    of its answer is selected. *)
Theorem C48_own_resolvers_refuted : exists f c1 c2,
  map b_ir (b_sel f) = [Some (ICache 60 c1); Some (IPath (IIO c2) ["data"])] /\
  sent48 [] [] f = Some (Resolved "{ cached part }").
Proof.
  exists (root48 "User" [node48 "cached" (Some (ICache 60 (OtherCall tt))) "String" [] None [] [];
                         node48 "part" (Some (IPath (IIO (OtherCall tt)) ["data"])) "String" [] None [] []]), (OtherCall tt), (OtherCall tt).
  split; vm_compute; reflexivity.
Qed.
Print Assumptions C48_own_resolvers_refuted.

(** A field the client excludes with a variable is still asked for. *)
Theorem C48_excluded_fields_refuted : exists f vars,
  aget "no" vars = Some (VBool true) /\
  map (fun g : field48 => let '(BField _ _ _ _ _ _ skip _ _ _ _ _ _ _) := g in skip) (b_sel f) = [None; Some "no"] /\
  sent48 [] vars f = Some (Resolved "{ id secret }").
Proof.
  exists (root48 "User" [leaf48 "id"; BField 1 "secret" "secret" None (TNamed "String" false) "" (Some "no") None [] None [] false None []]), [("no", VBool true)].
  split; [reflexivity|]. split; vm_compute; reflexivity.
Qed.
Print Assumptions C48_excluded_fields_refuted.

(** Braces in a client's string are taken for a template. *)
Theorem C48_braces_in_arguments_refuted : exists f vars,
  (exists g, In g (b_sel f) /\ map a_value (b_args g) = [Some (QStr "{{n}}")]) /\
  sent48 [] vars f = Some (Resolved "{ pic(kind: \""3\"") }").
Proof.
  exists (root48 "User" [node48 "pic" None "String" [given48 "kind" (QStr "{{n}}")] None [] []]), vars48.
  split; [|vm_compute; reflexivity]. eexists. split; [now left|reflexivity].
Qed.
Print Assumptions C48_braces_in_arguments_refuted.

(** The text of a string variable of a directive is put into the body as it is: its quotes
    end the text of the query. *)
Theorem C48_strings_in_directives_refuted : exists f vars text,
  (exists g, In g (b_sel f) /\ b_directives g = [("as", [("fmt", QVar "v")])]) /\ aget "v" vars = Some (VStr "png") /\
  sent48 [] vars f = Some (Resolved text) /\
  forall op, ~ carries (gql_body (planned_template target48 (Some (Resolved text))) (eval30 [] []) field47) op.
Proof.
  exists (root48 "User" [node48 "pic" None "String" [] None [("as", [("fmt", QVar "v")])] []]), [("v", VStr "png")], "{ pic @as(fmt: ""png"") }".
  split; [eexists; split; [now left|reflexivity]|]. split; [reflexivity|]. split; [vm_compute; reflexivity|].
  intros op (content & E & J). apply json_scan in J.
  assert (X : content = "query { node { pic @as(fmt: ""png"") } }").
  { change (gql_body _ _ _) with ("{ ""query"": """ ++ "query { node { pic @as(fmt: ""png"") } }" ++ """ }") in E.
    cbn [String.append] in E. injection E as E. symmetry.
    apply (quoted_inj "query { node { pic @as(fmt: ""png"") } }" content). exact E. }
  subst content. discriminate.
Qed.
Print Assumptions C48_strings_in_directives_refuted.

(** A variable of a directive whose name starts with an underscore: then none is replaced. *)
Theorem C48_underscored_variables_refuted : exists f vars,
  (exists g, In g (b_sel f) /\ b_directives g = [("a", [("x", QVar "n")]); ("b", [("x", QVar "_u")])]) /\
  aget "n" vars = Some (VNum (NInt 3)) /\ aget "_u" vars = Some (VNum (NInt 1)) /\
  sent48 [] vars f = Some (Resolved "{ pic @a(x: {{n}}) @b(x: {{_u}}) }").
Proof.
  exists (root48 "User" [node48 "pic" None "String" [] None [("a", [("x", QVar "n")]); ("b", [("x", QVar "_u")])] []]),
    [("n", VNum (NInt 3)); ("_u", VNum (NInt 1))].
  split; [eexists; split; [now left|reflexivity]|]. repeat (split; [reflexivity|]). vm_compute. reflexivity.
Qed.
Print Assumptions C48_underscored_variables_refuted.

(** Variables inside the lists of a directive stay names; one without a value leaves
    nothing. *)
Theorem C48_directive_variables_refuted : exists f vars,
  (exists g, In g (b_sel f) /\ b_directives g = [("a", [("x", QVar "none")]); ("b", [("x", QList [QVar "n"])])]) /\
  aget "n" vars = Some (VNum (NInt 3)) /\ aget "none" vars = None /\
  sent48 [] vars f = Some (Resolved "{ pic @a(x: ) @b(x: [$n]) }").
Proof.
  exists (root48 "User" [node48 "pic" None "String" [] None [("a", [("x", QVar "none")]); ("b", [("x", QList [QVar "n"])])] []]), vars48.
  split; [eexists; split; [now left|reflexivity]|]. repeat (split; [reflexivity|]). vm_compute. reflexivity.
Qed.
Print Assumptions C48_directive_variables_refuted.

(** The calls of merged members get no selection of their own. *)
Theorem C48_merged_calls_refuted : exists f c,
  b_ir f = Some (IMerge [IIO c; IIO c]) /\ b_sel f <> [] /\ c = GraphqlCall target48 None /\
  b_ir (planned48 [] [] f) = Some (IMerge [IIO c; IIO c]).
Proof.
  exists (node48 "node" (Some (IMerge [IIO call48; IIO call48])) "User" [] None [] [leaf48 "id"]), call48.
  split; [reflexivity|]. split; [discriminate|]. split; reflexivity.
Qed.
Print Assumptions C48_merged_calls_refuted.
