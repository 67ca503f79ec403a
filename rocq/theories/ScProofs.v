(** Proofs about configurations named by clients (C93). *)
From Coq Require Import String Ascii Bool List.
From Verif Require Import Base MustacheModel LinksModel ScModel ScSpec.
Import ListNotations.
Open Scope string_scope.
Open Scope list_scope.

Lemma prefix_app : forall a b, prefix a (a ++ b)%string = true.
Proof. induction a as [|c a IH]; intros b; cbn; [now destruct b|]. destruct (ascii_dec c c); [apply IH|contradiction]. Qed.
Section Same.
  Context {Cfg Cert Key Endpoint Jwks B : Type}.
  Variable links_of : Cfg -> list link.
  Variable render : string -> string.
  Variable parse_config : string -> string -> option Cfg.
  Variable unify : Cfg -> Cfg -> option Cfg.
  Variable parse_certs : string -> option (list Cert).
  Variable parse_keys : string -> option (list Key).
  Variable parse_endpoints : string -> option (list Endpoint).
  Variable parse_jwks : string -> option Jwks.
  Variable protos protos' : string -> option (list string) -> option (list (pfile B)).
  Variable reflect : string -> list (string * string) -> option (list (pfile B)).
  Variable url : string -> option (string * string).
  Variable file file' : string -> option string.
  Hypothesis T : texts_of_urls url.
  Hypothesis F : forall p u, remote url p u -> file p = file' p.
  Notation the_url := (fun s => option_map fst (url s)).
  Lemma link_same : forall dir s l, l_src l <> "" -> remote_link url l ->
    read_link file render parse_config unify parse_certs parse_keys parse_endpoints parse_jwks protos reflect the_url dir s l =
    read_link file' render parse_config unify parse_certs parse_keys parse_endpoints parse_jwks protos' reflect the_url dir s l.
  Proof.
    intros dir [cfg x] l N [E|[K|[K (u & rest & R)]]]; [contradiction|unfold read_link; rewrite K; reflexivity|]. unfold read_link, resolve_path. rewrite R. cbn [option_map fst].
    assert (E : file u = file' u) by (apply (F u u); exists rest; exact (T _ _ _ R)). rewrite E. destruct (l_kind l); try reflexivity. contradiction.
  Qed.
  Lemma links_same : forall dir ls s, Forall (fun l => l_src l <> "") ls -> Forall (remote_link url) ls ->
    read_links file render parse_config unify parse_certs parse_keys parse_endpoints parse_jwks protos reflect the_url dir s ls =
    read_links file' render parse_config unify parse_certs parse_keys parse_endpoints parse_jwks protos' reflect the_url dir s ls.
  Proof.
    intros dir. induction ls as [|l ls IH]; intros s N R; [reflexivity|]. inversion N; subst. inversion R; subst. cbn [read_links]. rewrite (link_same dir s l) by assumption. destruct (read_link _ _ _ _ _ _ _ _ _ _ _ _ _ _) as [s'|]; [now apply IH|reflexivity].
  Qed.
  Lemma config_same : forall p u, remote url p u -> (forall t c, file p = Some t -> parse_config p (render t) = Some c -> Forall (remote_link url) (links_of c)) ->
    read_config links_of file render parse_config unify parse_certs parse_keys parse_endpoints parse_jwks protos reflect the_url p =
    read_config links_of file' render parse_config unify parse_certs parse_keys parse_endpoints parse_jwks protos' reflect the_url p.
  Proof.
    intros p u R L. unfold read_config. rewrite <- (F p u R). destruct (file p) as [t|]; [|reflexivity]. specialize (L t). destruct (parse_config p (render t)) as [c|]; [|reflexivity]. specialize (L c eq_refl eq_refl). unfold resolve_config.
    rewrite links_same; [reflexivity| |].
    - apply Forall_forall. intros l I. apply filter_In in I as [_ I]. intros E. rewrite E in I. discriminate.
    - rewrite Forall_forall in L |- *. intros l I. apply filter_In in I as [I _]. auto.
  Qed.
End Same.
Lemma direct_remote : forall url http disk p u, remote url p u -> direct url http disk p = http u.
Proof. intros url http disk p u (rest & R). unfold direct. rewrite R, prefix_app. reflexivity. Qed.
Lemma panics_not : forall t, (forall path, In (Expression path) (parse t) -> path <> ["env"]) -> panics t = false.
Proof.
  intros t N. unfold panics. destruct (existsb _ _) eqn:E; [|reflexivity]. apply existsb_exists in E as (s & I & E). destruct s as [|[|h [|]]]; try discriminate. apply String.eqb_eq in E. subst. exfalso. now apply (N _ I).
Qed.
