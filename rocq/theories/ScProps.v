(** C93: a configuration that a client names is read from servers only. *)
From Coq Require Import String Ascii Bool List.
From Verif Require Import Base MustacheModel LinksModel ScModel ScSpec ScProofs.
Import ListNotations.
Open Scope string_scope.
Open Scope list_scope.

(** What is no URL is refused, whatever there is to be read. *)
Theorem C93_paths_are_refused : forall {Cfg Cert Key Endpoint Jwks B Bp} (links_of : Cfg -> list link) parse_config unify (parse_certs : string -> option (list Cert)) (parse_keys : string -> option (list Key)) (parse_endpoints : string -> option (list Endpoint)) (parse_jwks : string -> option Jwks)
    (protos : (string -> option string) -> string -> option (list string) -> option (list (pfile B))) reflect url query_pairs (blueprint_of : _ -> result Bp string) http disk env q l p,
  query_pairs q = Some l -> aget "config" l = Some p -> url p = None ->
  create_app_ctx links_of parse_config unify parse_certs parse_keys parse_endpoints parse_jwks protos reflect url query_pairs blueprint_of http disk env (Some q) false = InvalidUrl.
Proof. intros until p. intros Q A U. unfold create_app_ctx. rewrite Q, A, U. reflexivity. Qed.
Print Assumptions C93_paths_are_refused.

(** Without the name of a configuration nothing is read. *)
Theorem C93_nothing_named : forall {Cfg Cert Key Endpoint Jwks B Bp} (links_of : Cfg -> list link) parse_config unify (parse_certs : string -> option (list Cert)) (parse_keys : string -> option (list Key)) (parse_endpoints : string -> option (list Endpoint)) (parse_jwks : string -> option Jwks)
    (protos : (string -> option string) -> string -> option (list string) -> option (list (pfile B))) reflect url query_pairs (blueprint_of : _ -> result Bp string) http disk env query enable_fs,
  (forall q l, query = Some q -> query_pairs q = Some l -> aget "config" l = None) -> create_app_ctx links_of parse_config unify parse_certs parse_keys parse_endpoints parse_jwks protos reflect url query_pairs blueprint_of http disk env query enable_fs = NoConfig.
Proof. intros until enable_fs. intros N. unfold create_app_ctx. destruct query as [q|]; [|reflexivity]. destruct (query_pairs q) as [l|] eqn:E; [|reflexivity]. now rewrite (N q l eq_refl E). Qed.
Print Assumptions C93_nothing_named.

(** A configuration without links is read from where it is named, and its blueprint is what is served. *)
Theorem C93_what_is_named_is_served : forall {Cfg Cert Key Endpoint Jwks B Bp} (links_of : Cfg -> list link) parse_config unify (parse_certs : string -> option (list Cert)) (parse_keys : string -> option (list Key)) (parse_endpoints : string -> option (list Endpoint)) (parse_jwks : string -> option Jwks)
    (protos : (string -> option string) -> string -> option (list string) -> option (list (pfile B))) reflect url query_pairs (blueprint_of : _ -> result Bp string) http disk env enable_fs q l p u t c,
  query_pairs q = Some l -> aget "config" l = Some p -> remote url p u -> http u = Some t -> (forall path, In (Expression path) (parse t) -> path <> ["env"]) ->
  parse_config p (rendered_file env t) = Some c -> links_of c = [] ->
  create_app_ctx links_of parse_config unify parse_certs parse_keys parse_endpoints parse_jwks protos reflect url query_pairs blueprint_of http disk env (Some q) enable_fs =
  match blueprint_of (c, no_extensions) with Ok b => Serving b | Err e => Refused e end.
Proof.
  intros until c. intros Q A R H N C L. unfold create_app_ctx. rewrite Q, A. destruct R as (rest & U). rewrite U, andb_false_r. assert (R : remote url p u) by (exists rest; exact U).
  rewrite (direct_remote url http disk p u R), H, (panics_not t N). unfold read_config, resolve_config. rewrite (direct_remote url http disk p u R), H, C, L. reflexivity.
Qed.
Print Assumptions C93_what_is_named_is_served.

(** What is missing: URLs of other schemes, links to files and proto files ([C93_schemes_refuted], [C93_links_refuted]). *)
Theorem C93_no_files_are_read_partial : forall {Cfg Cert Key Endpoint Jwks B Bp} (links_of : Cfg -> list link) parse_config unify (parse_certs : string -> option (list Cert)) (parse_keys : string -> option (list Key)) (parse_endpoints : string -> option (list Endpoint)) (parse_jwks : string -> option Jwks)
    (protos : (string -> option string) -> string -> option (list string) -> option (list (pfile B))) reflect url query_pairs (blueprint_of : _ -> result Bp string) http disk disk' env q l p u,
  texts_of_urls url -> query_pairs q = Some l -> aget "config" l = Some p -> remote url p u ->
  (forall t c, http u = Some t -> parse_config p (rendered_file env t) = Some c -> Forall (remote_link url) (links_of c)) ->
  create_app_ctx links_of parse_config unify parse_certs parse_keys parse_endpoints parse_jwks protos reflect url query_pairs blueprint_of http disk env (Some q) false =
  create_app_ctx links_of parse_config unify parse_certs parse_keys parse_endpoints parse_jwks protos reflect url query_pairs blueprint_of http disk' env (Some q) false.
Proof.
  intros until u. intros T Q A R L. unfold create_app_ctx. rewrite Q, A. destruct R as (rest & U). rewrite U. cbn [negb andb]. assert (R : remote url p u) by (exists rest; exact U).
  rewrite !(direct_remote url http _ p u R).
  destruct (match http u with Some t => panics t | None => false end); [reflexivity|].
  rewrite (config_same links_of (rendered_file env) parse_config unify parse_certs parse_keys parse_endpoints parse_jwks (protos (direct url http disk)) (protos (direct url http disk')) reflect url (direct url http disk) (direct url http disk') T)
    with (u := u); [reflexivity| |exact R|].
  - intros x y X. now rewrite !(direct_remote url http _ x y X).
  - intros t c. rewrite (direct_remote url http _ p u R). apply L.
Qed.
Print Assumptions C93_no_files_are_read_partial.

(** A machine with a file of its own; configurations are texts and their links are given *)
Definition a_url (p : string) : option (string * string) :=
  if prefix "https:" p then Some (p, "https") else if prefix "c:" p then Some (p, "c") else None.
Definition a_link (src : string) (k : link_kind) : link := {| l_id := None; l_src := src; l_kind := k; l_headers := []; l_paths := None |}.
Definition a_run (links : string -> list link) (http disk env : string -> option string) (named : string) : shown (string * option string) :=
  create_app_ctx (Cert := unit) (Key := unit) (Endpoint := unit) (Jwks := unit) (B := unit) links (fun _ t => Some t) (fun a b => Some a) (fun _ => None) (fun _ => None) (fun _ => None) (fun _ => None) (fun _ _ _ => None) (fun _ _ => None)
    a_url (fun q => Some [("config", q)]) (fun m => Ok (fst m, x_script (snd m))) http disk env (Some named) false.
Definition served (text p : string) : option string := if String.eqb p "https://x/a.graphql" then Some text else if String.eqb p "https://x/b.js" then Some "js" else None.
Definition nothing (p : string) : option string := None.
Definition secret (p : string) : option string := if String.eqb p "/etc/secret" || String.eqb p "c:secret.graphql" then Some "secret" else None.
Lemma a_texts : texts_of_urls a_url.
Proof. intros p u s. unfold a_url. destruct (prefix "https:" p) eqn:A; [intros [= <- <-]; now rewrite A|]. destruct (prefix "c:" p) eqn:C; [intros [= <- <-]; now rewrite A, C|discriminate]. Qed.
Example C93_example : texts_of_urls a_url /\ remote a_url "https://x/a.graphql" "https://x/a.graphql" /\ remote_link a_url (a_link "https://x/b.js" LScript) /\
  a_run (fun _ => [a_link "https://x/b.js" LScript]) (served "one") nothing nothing "https://x/a.graphql" = Serving ("one", Some "js").
Proof. split; [exact a_texts|]. split; [now exists "s"|]. split; [|reflexivity]. right. right. split; [discriminate|]. exists "https://x/b.js". now exists "s". Qed.
Example C93_refused_example : a_run (fun _ => []) (served "one") secret nothing "/etc/secret" = InvalidUrl.
Proof. reflexivity. Qed.

(** "No file of the machine is read": with another scheme one is. *)
Theorem C93_schemes_refuted : exists named, a_run (fun _ => []) (served "one") nothing nothing named = ReadFailed /\ a_run (fun _ => []) (served "one") secret nothing named = Serving ("secret", None).
Proof. exists "c:secret.graphql". split; reflexivity. Qed.
Print Assumptions C93_schemes_refuted.
(** And so it is by a link of the configuration of the client. *)
Theorem C93_links_refuted : exists links, a_run links (served "one") nothing nothing "https://x/a.graphql" = ReadFailed /\
  a_run links (served "one") secret nothing "https://x/a.graphql" = Serving ("one", Some "secret").
Proof. exists (fun _ => [a_link "/etc/secret" LScript]). split; reflexivity. Qed.
Print Assumptions C93_links_refuted.
(** "Nothing of the environment is told": what the client names is filled with it. *)
Theorem C93_environment_refuted : exists text, forall key, a_run (fun _ => []) (served text) nothing (fun k => if String.eqb k "KEY" then Some key else None) "https://x/a.graphql" = Serving (key, None).
Proof. exists "{{.env.KEY}}". intros key. reflexivity. Qed.
Print Assumptions C93_environment_refuted.
(** "Every configuration is served or refused": one that has the environment without a name panics. *)
Theorem C93_panics_refuted : exists text, a_run (fun _ => []) (served text) nothing nothing "https://x/a.graphql" = Panicked.
Proof. exists "type Query {{ env }}". reflexivity. Qed.
Print Assumptions C93_panics_refuted.
