(** Theorems about what a configuration's fields become: which roots are accepted (C62), where
    the value of a field comes from (C63), who may see it (C64), added fields (C65). *)
From Coq Require Import String Ascii ZArith NArith Arith Bool Lia List.
From Verif Require Import Base Ordered JsonModel TypeModel ConfigModel AuthModel IrModel ComposeModel CtxModel
  FieldModel FieldSpec FieldProofs Field2Proofs.
Import ListNotations.
Open Scope string_scope.
Open Scope list_scope.

(** A small world: an upstream call is its address; every call made is remembered. *)
Definition xn (n : string) : typ := TNamed n false.
Definition xl (n : string) : typ := TList (TNamed n false) false.
Definition xf (t : typ) (rs : list resolver) : field :=
  {| f_type := t; f_args := []; f_doc := None; f_modify := None; f_omit := false; f_cache := None; f_default := None;
     f_protected := None; f_discriminate := None; f_resolvers := rs; f_directives := [] |}.
Definition xmark (p : option (list string)) (f : field) : field :=
  {| f_type := f_type f; f_args := []; f_doc := None; f_modify := f_modify f; f_omit := false; f_cache := f_cache f; f_default := None;
     f_protected := Some {| prot_id := p |}; f_discriminate := None; f_resolvers := f_resolvers f; f_directives := [] |}.
Definition xrename (n : string) (f : field) : field :=
  {| f_type := f_type f; f_args := []; f_doc := None; f_modify := Some {| mod_name := Some n; mod_omit := None |}; f_omit := false;
     f_cache := f_cache f; f_default := None; f_protected := f_protected f; f_discriminate := None; f_resolvers := f_resolvers f; f_directives := [] |}.
Definition xcache (f : field) : field :=
  {| f_type := f_type f; f_args := []; f_doc := None; f_modify := f_modify f; f_omit := false; f_cache := Some 10%Z; f_default := None;
     f_protected := f_protected f; f_discriminate := None; f_resolvers := f_resolvers f; f_directives := [] |}.
Definition xt (p : option protected) (fs : list (string * field)) : gtype :=
  {| t_fields := fs; t_added := []; t_doc := None; t_implements := []; t_cache := None; t_protected := p; t_resolvers := []; t_directives := [] |}.
Definition xc (types : list (string * gtype)) (unions : list (string * gunion)) (enums : list (string * genum)) : config :=
  {| c_server := empty_server; c_upstream := empty_upstream;
     c_schema := {| r_query := Some "Query"; r_mutation := None; r_subscription := None |};
     c_types := types; c_unions := unions; c_enums := enums; c_links := []; c_telemetry := empty_telemetry |}.
Definition xm (c : config) (ps : list (option string * provider)) : cmodule :=
  {| m_config := c; m_inputs := []; m_interfaces := []; m_providers := ps |}.
Definition http (u : string) : resolver := RHttp [] u.
Definition xcompile (_ : string) (_ : field) (r : resolver) : checked (option (ir string)) blueprint_error :=
  match r with RHttp _ u => Ok (Some (IIO u)) | RService => Ok None | _ => Err [Build_cause [] (Other "not here")] end.
Definition xvalid (_ : gtype) (_ : fdef string) : checked unit blueprint_error := Ok tt.
Definition xdefine (m : cmodule) := to_field_definition xcompile xvalid m.
Definition xadd (m : cmodule) := to_added_field xcompile xvalid m.
Definition xrx : req_ext :=
  {| x_header := fun _ => None; x_var := fun _ => None; x_env := fun _ => None; x_vars_json := "{}";
     x_json_text := fun _ => ""; x_graphql_text := fun _ => ""; x_parse := fun _ => None |}.
(** The password of everyone is that of the file. *)
Definition xext : auth_ext :=
  {| x_htpasswd := fun file _ p => String.eqb file p; x_header_kid := fun _ => None; x_key_ok := fun _ => true;
     x_alg_ok := fun _ => true; x_sig_ok := fun _ _ => true; x_claims := fun _ => None |}.
Definition xreq (pass : option string) : request :=
  {| r_basic := Ok (option_map (fun p => ("me", p)) pass); r_bearer := Ok None |}.
Definition xio (t : list (string * value)) (u : string) (_ : ctx) (calls : list string) : result value string * list string :=
  (match aget u t with Some v => Ok v | None => Err "down" end, u :: calls).
Definition xdeliver (answers : list (string * value)) (pass : option string) (d : fdef string) (parent : value) :=
  deliver (Key := unit) xrx xext (xreq pass) (xio answers) (fun _ _ => None) (fun _ st => (Ok None, st)) (fun _ _ _ st => (Ok tt, st)) d
    {| c_value := Some parent; c_args := None; c_over_value := None; c_over_args := None; c_is_query := true |} [].
Definition after_define {A} (r : checked (fdef string) blueprint_error) (k : fdef string -> A) : option A :=
  match r with Ok d => Some (k d) | Err _ => None end.

(** * C62 *)

(** A configuration that declares no scalars is accepted exactly if the root types exist and
    every way from them down to a leaf passes a field with a resolver. *)
Theorem C62_every_leaf_has_a_resolver_partial : forall c, no_declared_scalars c ->
  exists r, to_schema c = Some r /\ ((exists s, r = Ok s) <-> roots_resolved c).
Proof. exact schema_roots. Qed.
Print Assumptions C62_every_leaf_has_a_resolver_partial.

(** With declared scalars: accepted exactly if no way without a resolver ends at a type that
    is not declared. *)
Theorem C62_accepted_exactly : forall c,
  exists r, to_schema c = Some r /\
  (forall s, r = Ok s <->
     (exists q t, r_query (c_schema c) = Some q /\ find_type c q = Some t /\ ~ dead_end c q /\
        s = (q, r_mutation (c_schema c))) /\
     (forall n, r_mutation (c_schema c) = Some n -> exists t, find_type c n = Some t /\ ~ dead_end c n)).
Proof. exact schema_exact. Qed.
Print Assumptions C62_accepted_exactly.

(** Fields that are reported do lack a resolver. *)
Theorem C62_reported_fields_lack_a_resolver : forall c n t, find_type c n = Some t ->
  exists r, root_checked c n t = Some r /\ (r = Ok tt <-> ~ dead_end c n) /\
    (forall es, r = Err es -> es <> [] /\ forall e, In e es -> exists f fd, e = Build_cause [n; f] NoResolverFound /\
       In (f, fd) (t_fields t) /\ needs_data c fd).
Proof. exact root_checked_exact. Qed.
Print Assumptions C62_reported_fields_lack_a_resolver.

Definition x62 : config := xc
  [("Group", xt None [("owner", xf (xn "User") []); ("users", xf (xl "User") [http "/users"])]);
   ("Query", xt None [("group", xf (xn "Group") []); ("me", xf (xn "User") [http "/me"])]);
   ("User", xt None [("group", xf (xn "Group") []); ("name", xf (xn "String") [http "/name"])])] [] [].
Example C62_witness : no_declared_scalars x62 /\ to_schema x62 = Some (Ok ("Query", None)).
Proof.
  split; [|reflexivity]. intros n t H. apply (OrderedFacts.oget_in scmp OrderedFacts.scmp_order) in H. cbn in H.
  repeat destruct H as [H | H]; try contradiction; injection H as <- <-; discriminate.
Qed.
Definition x62' : config := xc
  [("Group", xt None [("owner", xf (xn "User") []); ("users", xf (xl "User") [http "/users"])]);
   ("Query", xt None [("group", xf (xn "Group") []); ("me", xf (xn "User") [http "/me"]); ("owner", xf (xn "User") [])]);
   ("User", xt None [("name", xf (xn "String") [])])] [] [].

(** Of two fields of the same type only the first is reported. *)
Theorem C62_every_field_without_resolver_is_reported_refuted :
  exists c, to_schema c = Some (Err [Build_cause ["Query"; "group"] NoResolverFound]) /\
    exists t fd, find_type c "Query" = Some t /\ In ("owner", fd) (t_fields t) /\ needs_data c fd.
Proof.
  exists x62'. split; [reflexivity|]. eexists. exists (xf (xn "User") []). split; [reflexivity|].
  split; [cbn; auto|]. split; [reflexivity|]. right. exists ["name"], "String". split; [|reflexivity].
  exact (WR_one x62' "User" _ "name" (xf (xn "String") []) eq_refl (or_introl eq_refl) eq_refl).
Qed.
Print Assumptions C62_every_field_without_resolver_is_reported_refuted.

(** A declared scalar needs no resolver. *)
Definition x62s : config := xc
  [("Money", xt None []); ("Query", xt None [("price", xf (xn "Money") [])])] [] [].
Theorem C62_every_leaf_has_a_resolver_refuted :
  exists c, to_schema c = Some (Ok ("Query", None)) /\ ~ leaves_resolved c "Query".
Proof.
  exists x62s. split; [reflexivity|]. intros L. apply (L ["price"] "Money").
  - exact (WR_one x62s "Query" _ "price" (xf (xn "Money") []) eq_refl (or_introl eq_refl) eq_refl).
  - intros t H. cbn in H. injection H as <-. reflexivity.
Qed.
Print Assumptions C62_every_leaf_has_a_resolver_refuted.

(** * C63 *)

(** A field without a resolver, with data needed from its parent, holds what the parent's
    object holds under its name, also when it is renamed. *)
Theorem C63_plain_fields_hold_their_parents_data_partial :
  forall {IO F Key St} compile valid_templates m rx ext req (do_io : IO -> ctx -> St -> result value F * St)
    (cache_key : IO -> ctx -> option Key) cache_get cache_set object t f name (d : fdef IO),
  to_field_definition compile valid_templates m object t f name = Ok d ->
  needs_data (m_config m) f -> ~ marked m t f -> plain_type m f ->
  (renamed f (d_name d) \/ ((forall new, ~ renamed f new) /\ d_name d = name)) /\
  d_args d = f_args f /\ d_type d = f_type f /\
  forall parent members st, c_over_value parent = None -> c_value parent = Some (VObj members) ->
    exists v, held members name v /\
      deliver rx ext req do_io cache_key cache_get cache_set d parent st = (Ok v, st).
Proof.
  intros IO F Key St compile valid_templates m rx ext req do_io cache_key cache_get cache_set object t f name d H N U PT.
  exact (plain_field compile valid_templates m rx ext req do_io cache_key cache_get cache_set object t f name d H N U PT).
Qed.
Print Assumptions C63_plain_fields_hold_their_parents_data_partial.

Definition x63 : cmodule := xm (xc [("User", xt None [("id", xf (xn "ID") []); ("name", xf (xn "String") [])])] [] []) [].
Example C63_witness :
  let f := xrename "label" (xf (xn "String") []) in
  needs_data (m_config x63) f /\ ~ marked x63 (xt None []) f /\ plain_type x63 f /\
  after_define (xdefine x63 "User" (xt None []) f "name")
    (fun d => (d_name d, xdeliver [] None d (VObj [("id", VStr "1"); ("name", VStr "Ann"); ("label", VStr "no")])))
  = Some ("label", (Ok (VStr "Ann"), [])).
Proof.
  split; [split; [reflexivity|left; reflexivity]|]. split.
  { intros [K | [K | (o & K & _)]]; [apply K; reflexivity|apply K; reflexivity|discriminate]. }
  split; [repeat split; cbn; auto|]. reflexivity.
Qed.

(** If everything below it has resolvers, an empty object, whatever the parent holds. *)
Theorem C63_fields_with_nothing_but_resolvers_below :
  forall {IO F Key St} compile valid_templates m rx ext req (do_io : IO -> ctx -> St -> result value F * St)
    (cache_key : IO -> ctx -> option Key) cache_get cache_set object t f name (d : fdef IO),
  to_field_definition compile valid_templates m object t f name = Ok d ->
  f_resolvers f = [] -> ~ needs_data (m_config m) f -> ~ marked m t f -> plain_type m f ->
  forall parent st, deliver rx ext req do_io cache_key cache_get cache_set d parent st = (Ok (VObj []), st).
Proof.
  intros IO F Key St compile valid_templates m rx ext req do_io cache_key cache_get cache_set object t f name d H R N U PT.
  exact (resolved_field compile valid_templates m rx ext req do_io cache_key cache_get cache_set object t f name d H R N U PT).
Qed.
Print Assumptions C63_fields_with_nothing_but_resolvers_below.

(** So a field of a declared scalar is an empty object instead of its value, and a list, or
    null, of objects with resolvers only is one empty object. *)
Definition x63s : cmodule := xm (xc
  [("DateISO", xt None []); ("Friends", xt None [("all", xf (xl "User") [http "/friends"])]);
   ("User", xt None [("born", xf (xn "DateISO") []); ("friends", xf (xn "Friends") []); ("groups", xf (xl "Friends") [])])] [] []) [].
Theorem C63_declared_scalars_refuted :
  exists m t f d parent, to_field_definition xcompile xvalid m "User" t f "born" = Ok d /\
    f_resolvers f = [] /\ ~ marked m t f /\ plain_type m f /\ d_type d = TNamed "DateISO" false /\
    held parent "born" (VStr "2000-01-01") /\ xdeliver [] None d (VObj parent) = (Ok (VObj []), []).
Proof.
  exists x63s, (xt None []), (xf (xn "DateISO") []). eexists. exists [("born", VStr "2000-01-01")].
  split; [reflexivity|]. split; [reflexivity|]. split.
  { intros [K | [K | (o & K & L)]]; [apply K; reflexivity|apply K; reflexivity|]. injection K as <-. apply L. reflexivity. }
  split; [repeat split; cbn; auto|]. split; [reflexivity|]. split; [|reflexivity].
  left. exists [], []. split; [reflexivity|]. intros [].
Qed.
Print Assumptions C63_declared_scalars_refuted.
Theorem C63_objects_of_resolvers_refuted :
  exists m t f g df dg, to_field_definition xcompile xvalid m "User" t f "friends" = Ok df /\
    to_field_definition xcompile xvalid m "User" t g "groups" = Ok dg /\
    f_resolvers f = [] /\ ~ marked m t f /\ plain_type m f /\ f_resolvers g = [] /\ ~ marked m t g /\ plain_type m g /\
    d_type dg = TList (TNamed "Friends" false) false /\
    xdeliver [] None df (VObj [("friends", VNull)]) = (Ok (VObj []), []) /\
    xdeliver [] None dg (VObj [("groups", VList [VObj []; VObj []])]) = (Ok (VObj []), []).
Proof.
  exists x63s, (xt None []), (xf (xn "Friends") []), (xf (xl "Friends") []). eexists. eexists.
  assert (NM : forall f, (f = xf (xn "Friends") [] \/ f = xf (xl "Friends") []) -> ~ marked x63s (xt None []) f).
  { intros f [-> | ->] [K | [K | (o & K & L)]]; try (apply K; reflexivity); injection K as <-; apply L; reflexivity. }
  split; [reflexivity|]. split; [reflexivity|]. split; [reflexivity|]. split; [apply NM; auto|].
  split; [repeat split; cbn; auto|]. split; [reflexivity|]. split; [apply NM; auto|]. split; [repeat split; cbn; auto|].
  split; [reflexivity|]. split; reflexivity.
Qed.
Print Assumptions C63_objects_of_resolvers_refuted.

(** * C64 *)

(** A protected field gives a request that any of the demanded providers refuses an
    authentication error and nothing else, and nothing outside is touched. *)
Theorem C64_refused_requests :
  forall {IO F Key St} compile valid_templates m rx ext req (do_io : IO -> ctx -> St -> result value F * St)
    (cache_key : IO -> ctx -> option Key) cache_get cache_set object t f name (d : fdef IO) p e,
  to_field_definition compile valid_templates m object t f name = Ok d ->
  marked m t f -> demanded m t f p -> verify_provider ext p req = Fail e ->
  forall parent st, exists er,
    deliver rx ext req do_io cache_key cache_get cache_set d parent st = (Err (EAuth er), st).
Proof.
  intros IO F Key St compile valid_templates m rx ext req do_io cache_key cache_get cache_set object t f name d p e H MK DP VF.
  exact (refused compile valid_templates m rx ext req do_io cache_key cache_get cache_set object t f name d p e H MK DP VF).
Qed.
Print Assumptions C64_refused_requests.

(** A request that all of them accept gets what the field would give without the mark. *)
Theorem C64_accepted_requests :
  forall {IO F Key St} compile valid_templates m rx ext req (do_io : IO -> ctx -> St -> result value F * St)
    (cache_key : IO -> ctx -> option Key) cache_get cache_set object t f name (d : fdef IO),
  (forall r, compile object (unmarked_field f) r = compile object f r) ->
  (forall x, valid_templates (unmarked_type t) x = valid_templates t x) ->
  (forall out, find_type (m_config m) (type_name (f_type f)) = Some out -> t_protected out = None) ->
  find_enum (m_config m) (type_name (f_type f)) = None \/ resolves compile object f ->
  to_field_definition compile valid_templates m object t f name = Ok d -> marked m t f ->
  (forall p, demanded m t f p -> verify_provider ext p req = Succeed) ->
  exists d', to_field_definition compile valid_templates m object (unmarked_type t) (unmarked_field f) name = Ok d' /\
    d_name d' = d_name d /\ d_args d' = d_args d /\ d_type d' = d_type d /\
    forall parent members st, c_over_value parent = None -> c_value parent = Some (VObj members) ->
      deliver rx ext req do_io cache_key cache_get cache_set d parent st =
      deliver rx ext req do_io cache_key cache_get cache_set d' parent st.
Proof.
  intros IO F Key St compile valid_templates m rx ext req do_io cache_key cache_get cache_set object t f name d A B C D E G H.
  exact (accepted compile valid_templates m rx ext req do_io cache_key cache_get cache_set object t f name d A B C D E G H).
Qed.
Print Assumptions C64_accepted_requests.

(** Marks that cannot be met are reported. *)
Theorem C64_bad_protections_are_reported :
  forall {IO} compile valid_templates m object t f name e, marked m t f ->
    (In object (m_inputs m) /\ e = InputTypesCannotBeProtected \/
     ~ In object (m_inputs m) /\ m_providers m = [] /\ e = NoAuthProviders \/
     ~ In object (m_inputs m) /\ m_providers m <> [] /\
       exists id, asked_for t f id /\ (forall p, ~ provider_named m id p) /\ e = AuthProviderNotFound id) ->
  exists es, to_field_definition (IO := IO) compile valid_templates m object t f name = Err es /\
    In (Build_cause ["@protected"] e) es.
Proof.
  intros IO compile valid_templates m object t f name e MK B.
  exact (bad_protection compile valid_templates m object t f name e MK B).
Qed.
Print Assumptions C64_bad_protections_are_reported.

Definition x64ps : list (option string * provider) := [(Some "a", PBasic "pa"); (Some "b", PBasic "pb"); (None, PBasic "pc")].
Definition x64 : cmodule := xm (xc
  [("Secret", xt (Some {| prot_id := Some ["b"] |}) [("code", xf (xn "String") [])]);
   ("User", xt None [("name", xf (xn "String") [])]);
   ("Vault", xt None [("secret", xf (xn "Secret") [])])]
  [("Any", {| u_types := ["Secret"; "User"]; u_doc := None |})] []) x64ps.
Example C64_witness :
  let f := xcache (xrename "title" (xmark (Some ["a"]) (xf (xn "String") [http "/name"]))) in
  let t := xt None [("name", f)] in
  marked x64 t f /\ demanded x64 t f (PBasic "pa") /\
  after_define (xdefine x64 "Query" t f "name")
    (fun d => (xdeliver [("/name", VStr "Ann")] None d VNull, xdeliver [("/name", VStr "Ann")] (Some "pb") d VNull,
               xdeliver [("/name", VStr "Ann")] (Some "pa") d VNull))
  = Some ((Err (EAuth EMissing), []), (Err (EAuth EInvalid), []), (Ok (VStr "Ann"), ["/name"])).
Proof.
  split; [left; discriminate|]. split; [|reflexivity]. left. exists "a". split.
  - right. exists {| prot_id := Some ["a"] |}, ["a"]. cbn. auto.
  - exists [], [(Some "b", PBasic "pb"); (None, PBasic "pc")]. split; [reflexivity|].
    intros q [K | [K | []]]; discriminate.
Qed.
Example C64_witness_reported :
  after_define (xdefine x64 "Query" (xt None []) (xmark (Some ["zz"]) (xf (xn "String") [http "/name"])) "name") (fun _ => tt) = None.
Proof. reflexivity. Qed.

(** Ids named by the type of the value are not looked at: every provider is demanded. *)
Theorem C64_ids_of_the_output_type_refuted :
  exists m t f d, find_type (m_config m) (type_name (f_type f)) <> None /\
    to_field_definition xcompile xvalid m "Query" t f "secret" = Ok d /\
    (forall out, find_type (m_config m) (type_name (f_type f)) = Some out -> t_protected out = Some {| prot_id := Some ["b"] |}) /\
    provider_named m "b" (PBasic "pb") /\ verify_provider xext (PBasic "pb") (xreq (Some "pb")) = Succeed /\
    xdeliver [("/secret", VStr "x")] (Some "pb") d VNull = (Err (EAuth EInvalid), []).
Proof.
  exists x64, (xt None []), (xf (xn "Secret") [http "/secret"]). eexists. split; [discriminate|]. split; [reflexivity|].
  split; [intros out H; injection H as <-; reflexivity|]. split; [|split; reflexivity].
  exists [(Some "a", PBasic "pa")], [(None, PBasic "pc")]. split; [reflexivity|]. intros q [K | []]; discriminate.
Qed.
Print Assumptions C64_ids_of_the_output_type_refuted.

(** A field that gives a protected type as the member of a union is not guarded: its upstream
    is called. *)
Theorem C64_members_of_unions_refuted :
  exists m t f d u s, find_union (m_config m) (type_name (f_type f)) = Some u /\ In "Secret" (u_types u) /\
    find_type (m_config m) "Secret" = Some s /\ t_protected s <> None /\
    to_field_definition xcompile xvalid m "Query" t f "any" = Ok d /\
    exists v, xdeliver [("/any", VObj [("Secret", VObj [("code", VStr "1234")])])] None d VNull = (Ok v, ["/any"]).
Proof.
  exists x64, (xt None []), (xf (xn "Any") [http "/any"]). eexists. eexists. eexists.
  split; [reflexivity|]. split; [cbn; auto|]. split; [reflexivity|]. split; [discriminate|]. split; [reflexivity|].
  eexists. vm_compute. reflexivity.
Qed.
Print Assumptions C64_members_of_unions_refuted.

(** A path into a protected type gives its data to everyone. *)
Theorem C64_added_fields_refuted :
  exists m t a d s, af_path a = ["vault"; "secret"; "code"] /\
    find_type (m_config m) "Secret" = Some s /\ t_protected s <> None /\ In "code" (map fst (t_fields s)) /\
    to_added_field xcompile xvalid m "Query" t a = Ok d /\
    xdeliver [("/vault", VObj [("secret", VObj [("code", VStr "1234")])])] None d VNull = (Ok (VStr "1234"), ["/vault"]).
Proof.
  exists x64, (xt None [("vault", xf (xn "Vault") [http "/vault"])]),
    {| af_name := "code"; af_path := ["vault"; "secret"; "code"] |}.
  eexists. eexists. split; [reflexivity|]. split; [reflexivity|]. split; [discriminate|]. split; [cbn; auto|].
  split; [reflexivity|]. reflexivity.
Qed.
Print Assumptions C64_added_fields_refuted.

(** Of two providers with one id the first demands nothing. *)
Theorem C64_providers_with_one_id_refuted :
  exists m t f d p, In (Some "a", p) (m_providers m) /\ asked_for t f "a" /\
    to_field_definition xcompile xvalid m "Query" t f "name" = Ok d /\
    verify_provider xext p (xreq (Some "two")) = Fail EInvalid /\
    xdeliver [("/name", VStr "Ann")] (Some "two") d VNull = (Ok (VStr "Ann"), ["/name"]).
Proof.
  exists (xm (xc [] [] []) [(Some "a", PBasic "one"); (Some "a", PBasic "two")]), (xt None []),
    (xmark (Some ["a"]) (xf (xn "String") [http "/name"])).
  eexists. exists (PBasic "one"). split; [cbn; auto|].
  split; [right; exists {| prot_id := Some ["a"] |}, ["a"]; cbn; auto|]. split; [reflexivity|]. split; reflexivity.
Qed.
Print Assumptions C64_providers_with_one_id_refuted.

(** * C65 *)

(** An added field gives what the path leads to in the value of the field it starts with. *)
Theorem C65_paths_into_resolved_fields :
  forall {IO F Key St} compile valid_templates m rx ext req (do_io : IO -> ctx -> St -> result value F * St)
    (cache_key : IO -> ctx -> option Key) cache_get cache_set object t a (d : fdef IO) head tail source ds,
  to_added_field compile valid_templates m object t a = Ok d -> af_path a = head :: tail ->
  get_field head t = Some source -> resolves compile object source ->
  to_field_definition compile valid_templates m object t source head = Ok ds ->
  forall parent st,
    match deliver rx ext req do_io cache_key cache_get cache_set ds parent st with
    | (Ok v, st') => exists x, found_or_null v tail x /\
        deliver rx ext req do_io cache_key cache_get cache_set d parent st = (Ok x, st')
    | (Err er, st') => deliver rx ext req do_io cache_key cache_get cache_set d parent st = (Err er, st')
    end.
Proof.
  intros IO F Key St compile valid_templates m rx ext req do_io cache_key cache_get cache_set object t a d head tail source ds A B C D E.
  exact (added_resolved compile valid_templates m rx ext req do_io cache_key cache_get cache_set object t a d head tail source ds A B C D E).
Qed.
Print Assumptions C65_paths_into_resolved_fields.

Theorem C65_paths_into_the_parents_data_partial :
  forall {IO F Key St} compile valid_templates m rx ext req (do_io : IO -> ctx -> St -> result value F * St)
    (cache_key : IO -> ctx -> option Key) cache_get cache_set object t a (d : fdef IO) head tail source,
  to_added_field compile valid_templates m object t a = Ok d -> af_path a = head :: tail ->
  get_field head t = Some source -> needs_data (m_config m) source -> ~ marked m t source ->
  (forall new, ~ renamed source new) -> plain_type m source ->
  d_name d = af_name a /\
  forall parent v st, c_over_value parent = None -> c_value parent = Some v ->
    exists x, found_or_null v (af_path a) x /\
      deliver rx ext req do_io cache_key cache_get cache_set d parent st = (Ok x, st).
Proof.
  intros IO F Key St compile valid_templates m rx ext req do_io cache_key cache_get cache_set object t a d head tail source A B C D E G H.
  exact (added_plain compile valid_templates m rx ext req do_io cache_key cache_get cache_set object t a d head tail source A B C D E G H).
Qed.
Print Assumptions C65_paths_into_the_parents_data_partial.

(** Its type is that of the field the path leads to, null allowed. *)
Theorem C65_types_partial :
  forall {IO} compile valid_templates m object t a (d : fdef IO) head tail source ty,
  (forall n t, find_type (m_config m) n = Some t -> BuilderModel.is_predefined n = false) ->
  to_added_field compile valid_templates m object t a = Ok d -> af_path a = head :: tail ->
  get_field head t = Some source -> Forall like_a_name (af_path a) ->
  (f_resolvers source = [] /\ leads (m_config m) t (af_path a) ty \/
   f_resolvers source <> [] /\ exists next nn t', f_type source = TNamed next nn /\ find_type (m_config m) next = Some t' /\
     leads (m_config m) t' tail ty /\ (forall n, hd_error tail = Some n -> get_field n t = None)) ->
  BuilderModel.is_predefined (type_name ty) = true \/
  (is_list ty = false /\ exists t', find_type (m_config m) (type_name ty) = Some t') ->
  d_type d = or_null ty.
Proof.
  intros IO compile valid_templates m object t a d head tail source ty A B C D E G H.
  exact (added_type compile valid_templates m object t a d head tail source ty A B C D E G H).
Qed.
Print Assumptions C65_types_partial.

Definition x65user : gtype := xt None
  [("address", xf (xn "Address") []); ("author", xf (xn "Author") [http "/author"]); ("mark", xmark None (xf (xn "Address") []));
   ("name", xf (xn "Int") []); ("posts", xf (xl "Post") []); ("street", xrename "road" (xf (xn "Address") []))].
Definition x65 : cmodule := xm (xc
  [("Address", xt None [("city", xf (xn "String") []); ("kind", xf (xn "Kind") []); ("lines", xf (TList (TNamed "String" true) true) []);
                        ("posts", xf (xl "Post") []); ("street", xf (TNamed "String" true) [])]);
   ("Author", xt None [("address", xf (xn "Address") []); ("name", xf (xn "String") [])]);
   ("Post", xt None [("title", xf (xn "String") [])]); ("User", x65user)] []
  [("Kind", {| e_variants := [("HOME", None)]; e_doc := None |})]) [(None, PBasic "p")].
Definition x65data : value := VObj
  [("address", VObj [("street", VStr "Elm"); ("lines", VList [VStr "one"; VStr "two"]); ("posts", VList [VObj [("title", VStr "a")]])]);
   ("mark", VObj [("street", VStr "Oak")]); ("posts", VList [VObj [("title", VStr "x")]; VObj [("title", VStr "y")]]);
   ("street", VObj [("street", VStr "Fir")])].
Definition x65show (name : string) (path : list string) : option (string * typ * (result value (ir_error string) * list string)) :=
  after_define (xadd x65 "User" x65user {| af_name := name; af_path := path |})
    (fun d => (d_name d, d_type d,
               xdeliver [("/author", VObj [("name", VStr "Ann"); ("address", VObj [("street", VStr "Ash")])])] (Some "p") d x65data)).
Example C65_witness :
  x65show "s" ["address"; "street"] = Some ("s", xn "String", (Ok (VStr "Elm"), [])) /\
  x65show "l" ["address"; "lines"] = Some ("l", TList (TNamed "String" true) false, (Ok (VList [VStr "one"; VStr "two"]), [])) /\
  x65show "second" ["posts"; "1"; "title"] = Some ("second", xn "String", (Ok (VStr "y"), [])).
Proof. repeat split; reflexivity. Qed.
Example C65_witness_types :
  leads (m_config x65) x65user ["address"; "street"] (TNamed "String" true) /\ Forall like_a_name ["address"; "street"].
Proof.
  split.
  - eapply L_into; [reflexivity|reflexivity|reflexivity|cbn; reflexivity|].
    refine (L_here _ _ "street" (xf (TNamed "String" true) []) _ _); reflexivity.
  - repeat constructor; cbn; try lia; try discriminate; right; reflexivity.
Qed.

(** A field of the enclosing type of the same name decides the type: an [Int] that gives a
    text. *)
Theorem C65_own_fields_shadow_refuted :
  x65show "by" ["author"; "name"] = Some ("by", TNamed "Int" false, (Ok (VStr "Ann"), ["/author"])) /\
  (exists t, find_type (m_config x65) "Author" = Some t /\ leads (m_config x65) t ["name"] (TNamed "String" false)).
Proof.
  split; [reflexivity|]. eexists. split; [reflexivity|].
  refine (L_here _ _ "name" (xf (xn "String") []) _ _); reflexivity.
Qed.
Print Assumptions C65_own_fields_shadow_refuted.

(** Paths that lead nowhere are accepted: through a scalar, or by a name of the enclosing type. *)
Theorem C65_paths_that_lead_nowhere_refuted :
  exists p q, (forall ty, ~ leads (m_config x65) x65user p ty) /\
    (exists t, find_type (m_config x65) "Author" = Some t /\ forall ty, ~ leads (m_config x65) t (tl q) ty) /\
    hd_error q = Some "author" /\
    x65show "a" p = Some ("a", TNamed "String" false, (Ok VNull, [])) /\
    x65show "b" q = Some ("b", TList (TList (TNamed "Post" false) false) false, (Ok VNull, ["/author"])).
Proof.
  exists ["address"; "street"; "city"], ["author"; "posts"]. split.
  { intros ty L. inversion L as [|? ? f nn next p0 ty0 G R T t' F L']; subst. cbn in G. injection G as <-. cbn in T. injection T as <- <-.
    cbn in F. injection F as <-. inversion L' as [|? ? f nn next p1 ty1 G R1 T t2 F L2]; subst. cbn in G. injection G as <-. cbn in T. injection T as <- <-.
    discriminate. }
  split.
  { eexists. split; [reflexivity|]. intros ty L. cbn in L. inversion L as [? ? f G | ? ? f nn next p0 ty0 G R T t2 F L2]; subst; discriminate. }
  split; [reflexivity|]. split; reflexivity.
Qed.
Print Assumptions C65_paths_that_lead_nowhere_refuted.

(** A list of objects is taken for a list of lists; members of the items of a list are null. *)
Theorem C65_lists_refuted :
  x65show "p" ["address"; "posts"] = Some ("p", TList (TList (TNamed "Post" false) false) false, (Ok (VList [VObj [("title", VStr "a")]]), [])) /\
  x65show "t" ["posts"; "title"] = Some ("t", TList (TNamed "String" false) false, (Ok VNull, [])).
Proof. split; reflexivity. Qed.
Print Assumptions C65_lists_refuted.

(** From a protected field without resolver: null for everyone. *)
Theorem C65_protected_sources_refuted :
  found x65data ["mark"; "street"] (VStr "Oak") /\
  x65show "m" ["mark"; "street"] = Some ("m", TNamed "String" false, (Ok VNull, [])).
Proof.
  split; [|reflexivity]. unfold x65data. eapply F_member; [reflexivity| | |].
  - left. eexists [_], _. split; [reflexivity|]. intros [K | []]; discriminate.
  - cbn; auto.
  - eapply F_member; [reflexivity| | |constructor].
    + left. exists [], []. split; [reflexivity|]. intros [].
    + cbn; auto.
Qed.
Print Assumptions C65_protected_sources_refuted.

(** From a renamed field: the added field takes the new name and is null. *)
Theorem C65_renamed_sources_refuted :
  x65show "r" ["street"; "street"] = Some ("road", TNamed "String" false, (Ok VNull, [])).
Proof. reflexivity. Qed.
Print Assumptions C65_renamed_sources_refuted.

(** A path to an enum is refused; an empty path ends the program. *)
Theorem C65_enums_refuted :
  exists f, In ("kind", f) (match find_type (m_config x65) "Address" with Some t => t_fields t | None => [] end) /\
    find_enum (m_config x65) (type_name (f_type f)) <> None /\ x65show "k" ["address"; "kind"] = None.
Proof. exists (xf (xn "Kind") []). split; [cbn; auto|]. split; [discriminate|reflexivity]. Qed.
Print Assumptions C65_enums_refuted.
Theorem C65_empty_paths_refuted : forall {IO} compile valid_templates m object t name,
  to_added_field (IO := IO) compile valid_templates m object t {| af_name := name; af_path := [] |} = Err [Build_cause [] Panic].
Proof. reflexivity. Qed.
Print Assumptions C65_empty_paths_refuted.
