(** Theorems about the checks of templates when a configuration is loaded (C68) and about
    [@http] (C69). *)
From Coq Require Import String Ascii ZArith NArith Arith Bool Lia List.
From Verif Require Import Base Ordered JsonModel UrlModel HeadersModel RequestModel GqlModel TypeModel ConfigModel
  MustacheModel JsonSpec AuthModel IrModel ComposeModel CtxModel CtxSpec CtxProofs FieldModel CallModel CheckModel CheckSpec CheckProofs.
From Verif Require HttpBatchModel.
Import ListNotations.
Open Scope string_scope.
Open Scope list_scope.

(** * C68 *)

(** A resolver passes exactly if every expression of its addresses, queries, ... makes sense. *)
Theorem C68_accepted_exactly : forall c t d,
  validate_field c t d = Ok tt <->
  forall e s m p, d_resolver d = Some e -> template_in e s m -> In (Expression p) m -> sensible c t (d_args d) s p.
Proof. exact validate_field_ok. Qed.
Print Assumptions C68_accepted_exactly.

(** So in a configuration that is accepted the resolvers of every field make sense, whatever
    the compilers of the directives are. *)
Theorem C68_accepted_fields : forall compile m object t f name d,
  to_field_definition compile (validate_field (m_config m)) m object t f name = Ok d ->
  forall r e s tm p, In r (f_resolvers f) -> compile object f r = Ok (Some e) -> template_in e s tm ->
    In (Expression p) tm -> sensible (m_config m) t (f_args f) s p.
Proof. exact accepted_field. Qed.
Print Assumptions C68_accepted_fields.

(** The addresses of accepted fields have no holes: on every request with data of the declared
    types every expression stands for something, provided the expressions of the address lead
    through the parent's own data and no lists, name arguments as a whole, and the headers and
    environment variables they name are there. *)
Theorem C68_addresses_are_complete_partial : forall compile m object t f name d,
  to_field_definition compile (validate_field (m_config m)) m object t f name = Ok d ->
  find_type (m_config m) object = Some t ->
  forall r e tm rx x, In r (f_resolvers f) -> compile object f r = Ok (Some e) -> template_in e true tm ->
    (forall p, In (Expression p) tm -> settled (m_config m) t rx p) ->
    fitting (m_config m) object (f_args f) rx x -> completed rx x tm (render (path_string rx x) tm).
Proof. exact accepted_url. Qed.
Print Assumptions C68_addresses_are_complete_partial.

(** A small configuration: users with a home and tags; [posts] has a resolver. *)
Definition yn (n : string) : typ := TNamed n false.
Definition yr (n : string) : typ := TNamed n true.
Definition yf (t : typ) (args : list (string * arg)) (rs : list resolver) : field :=
  {| f_type := t; f_args := args; f_doc := None; f_modify := None; f_omit := false; f_cache := None; f_default := None;
     f_protected := None; f_discriminate := None; f_resolvers := rs; f_directives := [] |}.
Definition ya (t : typ) (d : option string) : arg := {| arg_type := t; arg_doc := None; arg_modify := None; arg_default := d |}.
Definition yt (fs : list (string * field)) : gtype :=
  {| t_fields := fs; t_added := []; t_doc := None; t_implements := []; t_cache := None; t_protected := None;
     t_resolvers := []; t_directives := [] |}.
Definition user_args : list (string * arg) :=
  [("input", ya (yr "Filter") None); ("size", ya (yn "Int") (Some "10")); ("words", ya (TList (yr "String") true) None)].
Definition user_type (rs : list resolver) : gtype :=
  yt [("color", yf (yr "Color") [] []); ("home", yf (yr "Home") [] []); ("id", yf (yr "Int") [] []);
      ("job", yf (yr "Job") [] [RHttp [] "http://jobs/"]); ("posts", yf (yn "String") user_args rs);
      ("tags", yf (TList (yr "Tag") true) [] [])].
Definition yvars (l : list (string * string)) : server :=
  {| s_enable_jit := None; s_apollo_tracing := None; s_batch_requests := None;
     s_headers := None; s_timeout := None; s_hostname := None; s_introspection := None;
     s_federation := None; s_pipeline_flush := None; s_port := None;
     s_query_validation := None; s_response_validation := None; s_script := None;
     s_showcase := None; s_vars := l; s_version := None; s_workers := None; s_routes := None |}.
Definition yc (rs : list resolver) : config :=
  {| c_server := yvars [("region", "eu")]; c_upstream := empty_upstream;
     c_schema := {| r_query := Some "Query"; r_mutation := None; r_subscription := None |};
     c_types := [("Filter", yt [("word", yf (yr "String") [] [])]); ("Home", yt [("city", yf (yr "String") [] [])]);
                 ("Job", yt [("title", yf (yr "String") [] [])]); ("Tag", yt [("name", yf (yr "String") [] [])]);
                 ("User", user_type rs)];
     c_unions := []; c_enums := [("Color", {| e_variants := [("RED", None)]; e_doc := None |})]; c_links := [];
     c_telemetry := empty_telemetry |}.
Definition yrx : req_ext :=
  {| x_header := fun n => if String.eqb n "user" then Some "Ann" else None;
     x_var := fun n => if String.eqb n "region" then Some "eu" else None;
     x_env := fun _ => None; x_vars_json := "{}";
     x_json_text := fun v => match v with VNum (NInt z) => Z_to_string z | VList _ => "[]" | _ => "{}" end;
     x_graphql_text := fun _ => ""; x_parse := fun _ => None |}.
Definition a_user : list (string * value) :=
  [("color", VEnum "RED"); ("home", VObj [("city", VStr "Rome")]); ("id", VNum (NInt 7));
   ("tags", VList [VObj [("name", VStr "new")]])].
Definition yx (size : value) : ctx :=
  {| c_value := Some (VObj a_user);
     c_args := Some [("input", VObj [("word", VStr "sun")]); ("size", size); ("words", VList [])];
     c_over_value := None; c_over_args := None; c_is_query := true |}.

(** [@http] for the address, compiled without further settings. *)
Definition yhttp (u : string) : http :=
  {| ht_url := u; ht_method := "GET"; ht_query := []; ht_headers := []; ht_body := None; ht_form := false;
     ht_batch_key := []; ht_dedupe := false; ht_select := None |}.
Definition yname (s : string) : option string := if String.eqb s "" then None else Some s.
Definition yjson (v : value) : string := match v with VStr s => ("""" ++ s ++ """")%string | _ => "{}" end.
Definition ycompile (c : config) (_ : string) (f : field) (r : resolver) : valid (option (ir io)) :=
  match r with
  | RHttp _ u => rmap Some (compile_http c yname yjson (yhttp u) f)
  | _ => Err [Build_cause [] (Other "not here")]
  end.
Definition ymodule (c : config) : cmodule := {| m_config := c; m_inputs := []; m_interfaces := []; m_providers := [] |}.
Definition ydefine (u : string) : valid (fdef io) :=
  let c := yc [RHttp [] u] in
  to_field_definition (ycompile c) (validate_field c) (ymodule c) "User" (user_type [RHttp [] u])
    (yf (yn "String") user_args [RHttp [] u]) "posts".
Definition yok {A} (r : valid A) : bool := match r with Ok _ => true | Err _ => false end.
(** The text of the address of the call. *)
Definition yurl (u : string) (x : ctx) : string := render (path_string yrx x) (parse u).

Ltac keys H := apply (OrderedFacts.oget_in scmp OrderedFacts.scmp_order) in H; cbn in H;
  repeat destruct H as [H | H]; try contradiction; injection H as <- <-.
Lemma own_fields c n t m : find_type c n = Some t ->
  Forall (fun nf => f_resolvers (snd nf) = [] -> match aget (fst nf) m with
                              | Some v => fits c (f_type (snd nf)) v
                              | None => ~ required (f_type (snd nf))
                              end) (t_fields t) -> forall b, fits c (TNamed n b) (VObj m).
Proof.
  intros F A b. apply fits_object with t; auto.
  - intros k f v G R V. apply (OrderedFacts.oget_in scmp OrderedFacts.scmp_order) in G.
    rewrite Forall_forall in A. specialize (A _ G R). cbn in A. now rewrite V in A.
  - intros k f G R Q N. apply (OrderedFacts.oget_in scmp OrderedFacts.scmp_order) in G.
    rewrite Forall_forall in A. specialize (A _ G R). cbn in A. rewrite N in A. contradiction.
Qed.
Ltac known := unfold built_in; cbn [In]; repeat (first [left; reflexivity | right]).
Ltac not_built_in := unfold built_in; cbn [In]; intros Hb; repeat destruct Hb as [Hb|Hb]; solve [discriminate|contradiction].
Ltac each := repeat (apply Forall_cons; [cbn; intros; try discriminate|]); try apply Forall_nil.
Ltac fit :=
  unfold yr, yn;
  match goal with
  | |- fits _ (TNamed "Int" _) _ => apply fits_scalar; [known|reflexivity|discriminate|discriminate]
  | |- fits _ (TNamed "String" _) _ => apply fits_scalar; [known|reflexivity|discriminate|discriminate]
  | |- fits _ (TNamed "Color" _) _ => apply fits_enum; [not_built_in|reflexivity|discriminate]
  | |- fits _ (TList _ _) _ => apply fits_list; cbn; intros v Hv; repeat destruct Hv as [<-|Hv]; try contradiction
  | |- fits _ (TNamed _ _) (VObj _) => eapply own_fields; [reflexivity|each]
  end.
Lemma user_fits rs : rs <> [] -> fits (yc rs) (TNamed "User" true) (VObj a_user).
Proof.
  intros N. eapply own_fields; [reflexivity|]. cbn [user_type yt t_fields]. each; repeat fit; contradiction.
Qed.
Lemma request_fits rs size : rs <> [] -> size = VNull \/ (exists n, size = VNum (NInt n)) ->
  (size <> VNull -> fitting (yc rs) "User" user_args yrx (yx size)) /\
  (forall n a v, aget n user_args = Some a -> aget n [("input", VObj [("word", VStr "sun")]); ("size", size); ("words", VList [])] = Some v ->
     fits (yc rs) (arg_type a) v).
Proof.
  intros N S0.
  assert (A : forall n a v, aget n user_args = Some a ->
     aget n [("input", VObj [("word", VStr "sun")]); ("size", size); ("words", VList [])] = Some v ->
     fits (yc rs) (arg_type a) v /\ (arg_default a <> None -> size <> VNull -> v <> VNull)).
  { intros n a v. cbn. destruct (String.eqb n "input"); [intros H H'; injection H as <-; injection H' as <-; cbn; split; [repeat fit|congruence]|].
    destruct (String.eqb n "size"); [intros H H'; injection H as <-; injection H' as <-; cbn; split; [|auto]|].
    - destruct S0 as [->|(z & ->)]; [apply fits_null; cbn; discriminate|fit].
    - destruct (String.eqb n "words"); [|discriminate]. intros H H'; injection H as <-; injection H' as <-. cbn. split; [fit|congruence]. }
  split; [|intros n a v H H'; exact (proj1 (A n a v H H'))]. intros SN. constructor.
  - intros v P. inversion P as [w O|w _ O]; cbn in O; [discriminate|]. injection O as <-. now apply user_fits.
  - eexists. apply parent_own; reflexivity.
  - reflexivity.
  - eexists. split; [reflexivity|]. split; [intros n a v H H'; destruct (A n a v H H') as [A1 A2]; auto|].
    intros n a. cbn. repeat (destruct (String.eqb n _); [discriminate|]). discriminate.
  - intros n v [H|[]]. injection H as <- <-. eexists. reflexivity.
Qed.

Definition url68 : string := "http://{{.vars.region}}/{{.value.home.city}}/{{.value.id}}?n={{.args.size}}&u={{.headers.user}}".
Example C68_witness :
  yok (ydefine url68) = true /\
  (let c := yc [RHttp [] url68] in
   fitting c "User" user_args yrx (yx (VNum (NInt 5))) /\
   forall p, In (Expression p) (parse url68) -> settled c (user_type [RHttp [] url68]) yrx p) /\
  yurl url68 (yx (VNum (NInt 5))) = "http://eu/Rome/7?n=5&u=Ann" /\
  map (fun u => yok (ydefine u))
    ["http://h/{{.value.nope}}"; "http://h/{{.value.home}}"; "http://h/{{.args.words}}"; "http://h/{{.args.none}}";
     "http://h/{{.vars.none}}"; "http://h/{{.what.is}}"; "http://h/{{.value}}"; "http://h/{{.value.posts}}"]
  = [false; false; false; false; false; false; false; false].
Proof.
  split; [reflexivity|]. split; [|split; reflexivity]. split.
  - apply request_fits; [discriminate|right; eauto|discriminate].
  - intros p H. change (parse url68) with
      [Literal "http://"; Expression ["vars"; "region"]; Literal "/"; Expression ["value"; "home"; "city"]; Literal "/";
       Expression ["value"; "id"]; Literal "?n="; Expression ["args"; "size"]; Literal "&u="; Expression ["headers"; "user"]] in H.
    cbn [In] in H. repeat destruct H as [H|H]; try contradiction; try discriminate; injection H as <-.
    + apply settled_var.
    + apply settled_value. intros fs L. inversion L as [|? ? ? ? ? ? G T L']; subst. cbn in G. injection G as <-.
      cbn in T. injection T as <-. inversion L' as [? ? ? G|? ? ? ? ? ? G T L'']; subst; [|inversion L'']. cbn in G. injection G as <-.
      split; [intros f [<-|[<-|[]]]; reflexivity|].
      intros [|a [|b gs]] f E g I; cbn in E; injection E; intros; subst; cbn in I.
      * contradiction.
      * destruct I as [<-|[]]. intros (u & b & X). discriminate.
      * destruct gs; discriminate.
    + apply settled_value. intros fs L. inversion L as [? ? ? G|? ? ? ? ? ? G T L']; subst; [|inversion L']. cbn in G. injection G as <-.
      split; [intros f [<-|[]]; reflexivity|]. intros [|a gs] f E g I; [contradiction|]. destruct gs; discriminate.
    + apply settled_arg.
    + now apply settled_header with "Ann".
Qed.

(** Findings.  Nothing is asked of the way to a value, so addresses of accepted fields, on
    requests with data of the declared types, can have holes. *)
Definition holes (u : string) (x : ctx) (p : list string) : Prop :=
  yok (ydefine u) = true /\ In (Expression p) (parse u) /\ forall s, ~ stands_for yrx x p s.
Definition declared (u : string) (x : ctx) : Prop := fitting (yc [RHttp [] u]) "User" user_args yrx x.

(** A list on the way. *)
Theorem C68_through_lists_refuted : exists u x p, holes u x p /\ declared u x.
Proof.
  exists "http://h/{{.value.tags.name}}", (yx (VNum (NInt 5))), ["value"; "tags"; "name"]. split; [split; [reflexivity|]|].
  - split; [cbn; auto|]. apply nothing_named; reflexivity.
  - apply request_fits; [discriminate|right; eauto|discriminate].
Qed.
Print Assumptions C68_through_lists_refuted.
(** A field on the way that has its own resolver. *)
Theorem C68_through_resolvers_refuted : exists u x p, holes u x p /\ declared u x.
Proof.
  exists "http://h/{{.value.job.title}}", (yx (VNum (NInt 5))), ["value"; "job"; "title"]. split; [split; [reflexivity|]|].
  - split; [cbn; auto|]. apply nothing_named; reflexivity.
  - apply request_fits; [discriminate|right; eauto|discriminate].
Qed.
Print Assumptions C68_through_resolvers_refuted.
(** Below an argument nothing is checked. *)
Theorem C68_below_arguments_refuted : exists u x p, holes u x p /\ declared u x.
Proof.
  exists "http://h/{{.args.input.nope}}", (yx (VNum (NInt 5))), ["args"; "input"; "nope"]. split; [split; [reflexivity|]|].
  - split; [cbn; auto|]. apply nothing_named; reflexivity.
  - apply request_fits; [discriminate|right; eauto|discriminate].
Qed.
Print Assumptions C68_below_arguments_refuted.
(** An argument with a default may still be null. *)
Theorem C68_null_for_a_default_refuted : exists u x p l,
  holes u x p /\ c_args x = Some l /\
  (forall n a v, aget n user_args = Some a -> aget n l = Some v -> fits (yc [RHttp [] u]) (arg_type a) v) /\
  yurl u x = "http://h/".
Proof.
  exists "http://h/{{.args.size}}", (yx VNull), ["args"; "size"]. eexists. split; [split; [reflexivity|]|].
  - split; [cbn; auto|]. apply nothing_named; reflexivity.
  - split; [reflexivity|]. split; [|reflexivity]. apply request_fits; [discriminate|auto].
Qed.
Print Assumptions C68_null_for_a_default_refuted.

(** Headers and bodies of [@http] are not looked at, and with [select] nothing is. *)
Definition yfield (h : http) : result (fdef io) _ :=
  rmap (fun e => {| d_name := "posts"; d_args := user_args; d_type := yn "String"; d_resolver := Some e |})
    (compile_http (yc []) yname yjson h (yf (yn "String") user_args [])).
Definition yaccepted (h : http) : Prop := exists d, yfield h = Ok d /\ validate_field (yc []) (user_type []) d = Ok tt.
Lemma no_such_value strict : ~ sensible (yc []) (user_type []) user_args strict ["value"; "nope"].
Proof.
  intros H. inversion H as [p fs f L B S0| | | |]; subst. inversion L as [? ? ? G|? ? ? ? ? ? G T L']; subst; [discriminate|].
  inversion L'.
Qed.
Theorem C68_headers_and_bodies_refuted : exists h,
  yaccepted h /\ In ("x-id", "{{.value.nope}}") (ht_headers h) /\ ht_body h = Some (VStr "{{.value.nope}}") /\
  parse "{{.value.nope}}" = [Expression ["value"; "nope"]] /\ ~ sensible (yc []) (user_type []) user_args false ["value"; "nope"].
Proof.
  exists {| ht_url := "http://h/"; ht_method := "POST"; ht_query := []; ht_headers := [("x-id", "{{.value.nope}}")];
            ht_body := Some (VStr "{{.value.nope}}"); ht_form := false; ht_batch_key := []; ht_dedupe := false; ht_select := None |}.
  split; [eexists; split; reflexivity|]. split; [cbn; auto|]. split; [reflexivity|]. split; [reflexivity|]. apply no_such_value.
Qed.
Print Assumptions C68_headers_and_bodies_refuted.
Theorem C68_with_select_refuted : exists h,
  yaccepted h /\ In (Expression ["value"; "nope"]) (parse (ht_url h)) /\
  ~ sensible (yc []) (user_type []) user_args true ["value"; "nope"].
Proof.
  exists {| ht_url := "http://h/{{.value.nope}}"; ht_method := "GET"; ht_query := []; ht_headers := [];
            ht_body := None; ht_form := false; ht_batch_key := []; ht_dedupe := false; ht_select := Some (VStr "{{.id}}") |}.
  split; [eexists; split; reflexivity|]. split; [cbn; auto|]. apply no_such_value.
Qed.
Print Assumptions C68_with_select_refuted.

(** And an address that would always be complete is refused: enumeration values. *)
Theorem C68_enums_are_refused_refuted : exists u,
  yok (ydefine u) = false /\
  forall x, fitting (yc [RHttp [] u]) "User" user_args yrx x -> c_over_value x = None ->
    completed yrx x (parse u) (yurl u x).
Proof.
  exists "http://h/{{.value.color}}". split; [reflexivity|]. intros x [P (v & V) OA _ _] O.
  pose proof (P v V) as F. inversion V as [w W|w _ W]; subst; [congruence|].
  destruct (fits_type (yc [RHttp [] "http://h/{{.value.color}}"]) "User" (user_type [RHttp [] "http://h/{{.value.color}}"]) v
              eq_refl ltac:(discriminate) F) as (m & -> & A & B).
  specialize (A "color" (yf (yr "Color") [] [])). specialize (B "color" (yf (yr "Color") [] []) eq_refl eq_refl eq_refl).
  destruct (aget "color" m) as [w|] eqn:G; [|congruence]. specialize (A w eq_refl eq_refl eq_refl). cbn in A.
  assert (exists s, w = VEnum s) as (s & ->).
  { inversion A; subst; eauto; cbn in *; try tauto; try discriminate.
    exfalso. repeat match goal with H : _ \/ _ |- _ => destruct H as [H|H]; try discriminate end; tauto. }
  apply render_completed. intros p [H|[H|[]]]; [discriminate|]. injection H as <-.
  exists s. apply path_string_complete.
  - apply stands_value with (VEnum s); [|constructor]. apply denotes_value with (VObj m); [exact V|].
    eapply reaches_key; [exact G|constructor].
  - intros n D. auto.
Qed.
Print Assumptions C68_enums_are_refused_refuted.
(** An expression that is not written as the parser wants it makes the whole address a text:
    nothing in it is checked, nor filled in. *)
Theorem C68_misspelt_expressions_refuted : exists u v, u = ("http://h/{{.value.nope}}" ++ v)%string /\
  v = "/{{.headers.x-user}}" /\ yok (ydefine u) = true /\ (forall x, yurl u x = u) /\
  yok (ydefine "http://h/{{.value.nope}}") = false.
Proof. eexists. exists "/{{.headers.x-user}}". split; [reflexivity|]. repeat split. Qed.
Print Assumptions C68_misspelt_expressions_refuted.

(** * C69 *)

(** The directive is accepted exactly if it is [acceptable]. *)
Theorem C69_accepted_exactly : forall c header_name json_text h f,
  (exists e, compile_http c header_name json_text h f = Ok e) <-> acceptable c header_name h f.
Proof. exact compile_accepts. Qed.
Print Assumptions C69_accepted_exactly.

(** It becomes one call: the one it describes, grouped if it has a batch key, and its answer is
    the answer of the call, or what [select] makes of that. *)
Theorem C69_one_call : forall c header_name json_text h f e,
  compile_http c header_name json_text h f = Ok e ->
  exists r g, describes header_name json_text h r /\
    (g = None <-> ht_batch_key h = []) /\ (forall k, g = Some k -> HttpBatchModel.g_path k = ht_batch_key h /\ batch_parameter h (HttpBatchModel.g_key k)) /\
    forall (F Key St : Type) rx ext req (do_io : io -> ctx -> St -> result value F * St)
      (cache_key : io -> ctx -> option Key) cache_get cache_set x st,
    let call := IoHttp r g (is_list (f_type f)) (ht_dedupe h) in
    let out := eval rx ext req do_io cache_key cache_get cache_set e x st in
    snd out = snd (do_io call x st) /\
    match fst (do_io call x st) with
    | Err er => fst out = Err (EOutside er)
    | Ok answer =>
        (ht_select h = None -> fst out = Ok answer) /\
        (forall sel w, ht_select h = Some sel -> picks rx answer sel w -> fst out = Ok w)
    end.
Proof. exact compile_one_call. Qed.
Print Assumptions C69_one_call.

Definition ybatch (b : option batch) : upstream :=
  {| up_on_request := None; up_allowed_headers := None; up_batch := b;
     up_connect_timeout := None; up_http_cache := None; up_http2_only := None;
     up_keep_alive_interval := None; up_keep_alive_timeout := None;
     up_keep_alive_while_idle := None; up_pool_max_idle := None;
     up_pool_idle_timeout := None; up_proxy := None; up_tcp_keep_alive := None;
     up_timeout := None; up_user_agent := None; up_verify_ssl := None |}.
Definition c69 (b : option batch) : config :=
  {| c_server := c_server (yc []); c_upstream := ybatch b; c_schema := c_schema (yc []); c_types := c_types (yc []);
     c_unions := []; c_enums := c_enums (yc []); c_links := []; c_telemetry := empty_telemetry |}.
Definition on69 : config := c69 (Some {| b_delay := 5; b_headers := []; b_max_size := None |}).
Definition f69 : field := yf (yn "String") user_args [].
Definition h69 (m : string) (q : list (string * string * bool)) (hs : list (string * string)) (b : option value)
  (key : list string) (sel : option value) : http :=
  {| ht_url := "http://h/{{.value.id}}"; ht_method := m; ht_query := q; ht_headers := hs; ht_body := b; ht_form := false;
     ht_batch_key := key; ht_dedupe := false; ht_select := sel |}.
Definition ok69 (c : config) (h : http) : bool := yok (compile_http c yname yjson h f69).
Definition rx69 : req_ext :=
  {| x_header := fun _ => None; x_var := fun _ => None; x_env := fun _ => None; x_vars_json := "{}";
     x_json_text := fun v => match v with VNum (NInt z) => Z_to_string z | VList _ => "[]" | _ => "{}" end;
     x_graphql_text := fun _ => "";
     x_parse := fun s => if String.eqb s "7" then Some (VNum (NInt 7)) else if String.eqb s "true" then Some (VBool true) else None |}.
(** A world that answers every call alike and counts the calls. *)
Definition run69 (h : http) (answer : value) : option (result value (ir_error string) * nat) :=
  match compile_http on69 yname yjson h f69 with
  | Ok e => Some (eval (Key := unit) rx69
      {| x_htpasswd := fun _ _ _ => true; x_header_kid := fun _ => None; x_key_ok := fun _ => true;
         x_alg_ok := fun _ => true; x_sig_ok := fun _ _ => true; x_claims := fun _ => None |}
      {| r_basic := Ok None; r_bearer := Ok None |}
      (fun _ _ n => (Ok answer, S n)) (fun _ _ => None) (fun _ n => (Ok None, n)) (fun _ _ _ n => (Ok tt, n)) e (yx (VNum (NInt 5))) 0)
  | Err _ => None
  end.
Definition answer69 : value := VObj [("flag", VBool true); ("id", VNum (NInt 7)); ("name", VStr "Ann"); ("none", VNull); ("zip", VStr "7")].
Definition select69 : value :=
  VObj [("kind", VStr "user"); ("me", VObj [("n", VStr "{{.name}}"); ("i", VStr "{{.id}}")]); ("on", VList [VStr "{{flag}}"])].
Example C69_witness :
  let get q key := h69 "GET" q [] None key None in
  ok69 on69 (get [("id", "{{.value.id}}", false); ("w", "{{.args.input.word}}", true)] ["id"]) = true /\
  ok69 (c69 None) (get [("id", "{{.value.id}}", false)] ["id"]) = false /\
  ok69 on69 (get [] ["id"]) = false /\
  ok69 on69 (get [("w", "{{.args.none}}", true)] []) = false /\
  ok69 on69 (get [("w", "{{.args.input.none}}", true)] []) = false /\
  ok69 on69 (get [("w", "{{.args.input}}", true)] []) = false /\
  ok69 on69 (h69 "GET" [] [("", "x")] None [] None) = false /\
  ok69 on69 (h69 "POST" [] [] (Some (VObj [("id", VStr "{{.value.id}}"); ("k", VStr "x")])) ["id"] None) = true /\
  ok69 on69 (h69 "POST" [] [] (Some (VObj [("id", VStr "{{.value.id}}"); ("k", VStr "{{.args.size}}")])) ["id"] None) = false /\
  ok69 on69 (h69 "POST" [("id", "{{.value.id}}", false)] [] None ["id"] None) = false /\
  run69 (h69 "GET" [] [] None [] (Some select69)) answer69 =
    Some (Ok (VObj [("kind", VStr "user"); ("me", VObj [("n", VStr "Ann"); ("i", VNum (NInt 7))]); ("on", VList [VBool true])]), 1) /\
  picks rx69 answer69 select69
    (VObj [("kind", VStr "user"); ("me", VObj [("n", VStr "Ann"); ("i", VNum (NInt 7))]); ("on", VList [VBool true])]).
Proof.
  cbv zeta. do 11 (split; [reflexivity|]).
  assert (P : forall s k w, parse s = [Expression [k]] -> (exists m, answer69 = VObj m /\ aget k m = Some w) -> comes_through rx69 w ->
              picks rx69 answer69 (VStr s) w).
  { intros s k w E (m & M & G) C. apply picks_part with [k]; auto. rewrite M. eapply reaches_key; [exact G|constructor]. }
  apply picks_object. constructor; [split; [reflexivity|]|].
  - apply picks_text. intros (p & [H|[]]). discriminate.
  - constructor; [split; [reflexivity|]|].
    + apply picks_object. constructor; [split; [reflexivity|]|constructor; [split; [reflexivity|]|constructor]]; cbn [snd].
      * apply P with "name"; [reflexivity|eexists; split; reflexivity|reflexivity].
      * apply P with "id"; [reflexivity|eexists; split; reflexivity|reflexivity].
    + constructor; [split; [reflexivity|]|constructor]. apply picks_list. constructor; [|constructor].
      apply P with "flag"; [reflexivity|eexists; split; reflexivity|reflexivity].
Qed.

(** Findings.  What [select] names does not come through as it is: null becomes an empty text,
    and a text that is JSON becomes that JSON. *)
Theorem C69_selected_parts_refuted : exists answer sel p p' w,
  reaches answer p VNull /\ reaches answer p' (VStr "7") /\
  sel = VList [VStr "{{.none}}"; VStr "{{.zip}}"] /\
  parse "{{.none}}" = [Expression p] /\ parse "{{.zip}}" = [Expression p'] /\
  run69 (h69 "GET" [] [] None [] (Some sel)) answer = Some (Ok w, 1) /\ w = VList [VStr ""; VNum (NInt 7)].
Proof.
  exists answer69. eexists. exists ["none"], ["zip"]. eexists. split; [eapply reaches_key; [reflexivity|constructor]|].
  split; [eapply reaches_key; [reflexivity|constructor]|]. split; [reflexivity|].
  split; [reflexivity|]. split; [reflexivity|]. split; reflexivity.
Qed.
Print Assumptions C69_selected_parts_refuted.

(** Of several expressions in one text of [select] only the first is looked up in the answer;
    the others are looked up among everything else, so here there is no name. *)
Theorem C69_select_of_two_parts_refuted : exists s p p' answer,
  parse s = [Expression p; Literal " "; Expression p'] /\
  reaches answer p (VStr "Ann") /\ reaches answer p' (VStr "Lee") /\
  run69 (h69 "GET" [] [] None [] (Some (VStr s))) answer = Some (Ok (VStr "Ann "), 1).
Proof.
  exists "{{.name}} {{.last}}", ["name"], ["last"], (VObj [("last", VStr "Lee"); ("name", VStr "Ann")]). split; [reflexivity|].
  split; [eapply reaches_key; [reflexivity|constructor]|].
  split; [eapply reaches_key; [reflexivity|constructor]|]. reflexivity.
Qed.
Print Assumptions C69_select_of_two_parts_refuted.

(** A path that leads past a scalar is accepted, though it never has a value. *)
Theorem C69_past_scalars_refuted : exists q p,
  parse q = [Expression p] /\ ok69 on69 (h69 "GET" [("n", q, false)] [] None [] None) = true /\
  forall rx v s, c_over_args (yx v) = None -> (exists n, v = VNum n) -> ~ stands_for rx (yx v) p s.
Proof.
  exists "{{.args.size.unit}}". eexists. split; [reflexivity|]. split; [reflexivity|].
  intros rx v s _ (n & ->). apply nothing_named; reflexivity.
Qed.
Print Assumptions C69_past_scalars_refuted.

(** A batched [GET] need not name the parent in its query: every parent's request is then the
    same but for its address, and the answers are told apart by the last name of the batch key,
    which is no parameter of the request. *)
Theorem C69_batches_tell_their_requests_apart_refuted : exists h e r g dl k,
  compile_http on69 yname yjson h f69 = Ok e /\ e = IIO (IoHttp r (Some g) false dl) /\
  (forall q, In q (ht_query h) -> ~ about_value q) /\
  HttpBatchModel.g_key g = None /\ HttpBatchModel.g_path g = [k] /\ ~ In k (map qy_key (t_query r)).
Proof.
  exists (h69 "GET" [("page", "1", false)] [] None ["id"] None). do 5 eexists. split; [reflexivity|]. split; [reflexivity|].
  split; [intros q [<-|[]] (p & [H|[]] & _); discriminate|]. split; [reflexivity|]. split; [reflexivity|].
  cbn. intros [H|[]]. discriminate.
Qed.
Print Assumptions C69_batches_tell_their_requests_apart_refuted.
(** And an argument that is called [value] is taken for the parent. *)
Theorem C69_batch_parameter_refuted : exists h e r g dl,
  compile_http on69 yname yjson h (yf (yn "String") [("value", ya (yn "Int") None)] []) = Ok e /\
  e = IIO (IoHttp r (Some g) false dl) /\
  ht_query h = [("x", "{{.args.value}}", false); ("id", "{{.value.id}}", false)] /\ HttpBatchModel.g_key g = Some "x".
Proof.
  exists (h69 "GET" [("x", "{{.args.value}}", false); ("id", "{{.value.id}}", false)] [] None ["id"] None).
  do 4 eexists. repeat split.
Qed.
Print Assumptions C69_batch_parameter_refuted.
(** An argument of a scalar that the configuration declares is refused in the query. *)
Definition own69 : config :=
  {| c_server := c_server (yc []); c_upstream := empty_upstream; c_schema := c_schema (yc []); c_types := [("Money", yt [])];
     c_unions := []; c_enums := []; c_links := []; c_telemetry := empty_telemetry |}.
Theorem C69_own_scalars_refuted : exists h,
  ht_query h = [("m", "{{.args.price}}", false)] /\ t_fields (yt []) = [] /\ find_type own69 "Money" = Some (yt []) /\
  yok (compile_http own69 yname yjson h (yf (yn "String") [("price", ya (yr "Money") None)] [])) = false /\
  yok (compile_http own69 yname yjson h (yf (yn "String") [("price", ya (yr "Int") None)] [])) = true.
Proof. exists (h69 "GET" [("m", "{{.args.price}}", false)] [] None [] None). repeat split. Qed.
Print Assumptions C69_own_scalars_refuted.
