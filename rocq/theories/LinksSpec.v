(** Words used in the theorems about linked files, written without the model's functions. *)
From Coq Require Import String List.
From Verif Require Import Base LinksModel.
Import ListNotations.
Open Scope list_scope.
Open Scope string_scope.

(** [p] is the path of [s] below the directory [dir]: with exactly one slash in between unless
    the directory is the current one or already ends in one. *)
Inductive Below (dir s : string) : string -> Prop :=
| below_here : dir = "" -> Below dir s s
| below_slash d : dir = d ++ "/" -> Below dir s (dir ++ s)
| below_plain : dir <> "" -> (forall d, dir <> d ++ "/") -> Below dir s (dir ++ "/" ++ s).
Definition Absolute (s : string) : Prop := exists t, s = "/" ++ t.
Definition Web (s : string) : Prop := exists t, s = "http" ++ t.

(** Where the text of a link points to, in a configuration kept in [dir]. *)
Inductive Located (url : string -> option string) (dir src : string) : string -> Prop :=
| loc_url u : url src = Some u -> Located url dir src u
| loc_absolute : url src = None -> Absolute src -> Located url dir src src
| loc_relative p : url src = None -> ~ Absolute src -> Below dir src p -> Located url dir src p.

Section Proto.
  Context {B : Type}.
  (** The names reached from a file over its imports. *)
  Inductive Reached (is_file : string -> pfile B -> Prop) (root : pfile B) : string -> Prop :=
  | reached_here i : In i (f_imports root) -> Reached is_file root i
  | reached_on j p i : Reached is_file root j -> is_file j p -> In i (f_imports p) -> Reached is_file root i.

  (** Where the imports of a proto file kept in [dir] are looked for. *)
  Inductive ImportAt (exists_file : string -> bool) (dir src : string) (paths : list string) : string -> Prop :=
  | at_web : Web src -> ImportAt exists_file dir src paths src
  | at_absolute : Absolute src -> ImportAt exists_file dir src paths src
  | at_path before p after q :
      ~ Web src -> ~ Absolute src -> paths = (before ++ p :: after)%list -> Below p src q -> exists_file q = true ->
      (forall p' q', In p' before -> Below p' src q' -> exists_file q' = false) ->
      ImportAt exists_file dir src paths q
  | at_root q :
      ~ Web src -> ~ Absolute src -> (forall p' q', In p' paths -> Below p' src q' -> exists_file q' = false) ->
      Below dir src q -> ImportAt exists_file dir src paths q.
  (** The file an import stands for. *)
  Inductive Imported (google file : string -> option string) (exists_file : string -> bool)
      (parse_proto : string -> option (option string * list string * B)) (dir : string) (paths : list string) (src : string) : pfile B -> Prop :=
  | imported_google t pk im b : google src = Some t -> parse_proto t = Some (pk, im, b) ->
      Imported google file exists_file parse_proto dir paths src {| f_name := src; f_package := pk; f_imports := im; f_body := b |}
  | imported_file q t pk im b : google src = None -> ImportAt exists_file dir src paths q -> file q = Some t -> parse_proto t = Some (pk, im, b) ->
      Imported google file exists_file parse_proto dir paths src {| f_name := src; f_package := pk; f_imports := im; f_body := b |}.
  (** The directory a file is in. *)
  Inductive InDir (path : string) : string -> Prop :=
  | in_here : (forall a b, path <> a ++ "/" ++ b) -> InDir path ""
  | in_root b : path = "/" ++ b -> (forall x y, b <> x ++ "/" ++ y) -> InDir path "/"
  | in_dir d b : d <> "" -> path = d ++ "/" ++ b -> (forall x y, b <> x ++ "/" ++ y) -> InDir path d.
End Proto.

(** The links of one kind that name a file, in their order. *)
Definition is_kind (k l : link_kind) : bool :=
  match k, l with
  | LConfig, LConfig | LProtobuf, LProtobuf | LScript, LScript | LCert, LCert | LKey, LKey
  | LOperation, LOperation | LHtpasswd, LHtpasswd | LJwks, LJwks | LGrpc, LGrpc => true
  | _, _ => false
  end.
Definition named (ls : list link) : list link := filter (fun l => if string_dec (l_src l) "" then false else true) ls.
Definition of_kind (k : link_kind) (ls : list link) : list link := filter (fun l => is_kind k (l_kind l)) (named ls).

(** [r] is what the last link gives, [none] if there is no link. *)
Definition LastGives {A : Type} (gives : link -> A -> Prop) (ls : list link) (none r : A) : Prop :=
  (ls = [] /\ r = none) \/ exists before l, ls = (before ++ [l])%list /\ gives l r.
(** [rs] is what the links give, one after the other. *)
Definition AllGive {A : Type} (gives : link -> list A -> Prop) (ls : list link) (rs : list A) : Prop :=
  exists groups, Forall2 gives ls groups /\ rs = concat groups.
(** [c'] is what merging [c] with the configurations [cs], one after the other, comes to. *)
Inductive MergedWith {C : Type} (unify : C -> C -> option C) : C -> list C -> C -> Prop :=
| mw_nil c : MergedWith unify c [] c
| mw_cons c d e cs r : unify c d = Some e -> MergedWith unify e cs r -> MergedWith unify c (d :: cs) r.
(** The last of the files with a name, [None] if there is none. *)
Definition LastNamed {B : Type} (files : list (pfile B)) (n : string) (r : option (pfile B)) : Prop :=
  match r with
  | Some f => f_name f = n /\ exists a b, files = (a ++ f :: b)%list /\ forall g, In g b -> f_name g <> n
  | None => forall g, In g files -> f_name g <> n
  end.

Section Links.
  Context {Cfg Cert Key Endpoint Jwks B : Type}.
  Variable file : string -> option string.
  Variable render : string -> string.
  Variable parse_config : string -> string -> option Cfg.
  Variable parse_certs : string -> option (list Cert).
  Variable parse_keys : string -> option (list Key).
  Variable parse_endpoints : string -> option (list Endpoint).
  Variable parse_jwks : string -> option Jwks.
  Variable protos : string -> option (list string) -> option (list (pfile B)).
  Variable reflect : string -> list (string * string) -> option (list (pfile B)).
  Variable url : string -> option string.
  Variable dir : string.

  (** The text behind a link. *)
  Definition TextOf (l : link) (t : string) : Prop := exists p, Located url dir (l_src l) p /\ file p = Some t.
  Definition ConfigOf (l : link) (c : Cfg) : Prop :=
    exists p t, Located url dir (l_src l) p /\ file p = Some t /\ parse_config p (render t) = Some c.
  Definition ScriptOf (l : link) (s : option string) : Prop := exists t, s = Some t /\ TextOf l t.
  Definition CertsOf (l : link) (r : list Cert) : Prop := exists t, TextOf l t /\ parse_certs t = Some r.
  Definition KeysOf (l : link) (r : list Key) : Prop := exists t, TextOf l t /\ parse_keys t = Some r.
  Definition EndpointsOf (l : link) (r : list Endpoint) : Prop := exists t, TextOf l t /\ parse_endpoints t = Some r.
  Definition HtpasswdOf (l : link) (r : option string * string) : Prop := fst r = l_id l /\ TextOf l (snd r).
  Definition JwksOf (l : link) (r : option string * Jwks) : Prop := fst r = l_id l /\ exists t, TextOf l t /\ parse_jwks t = Some (snd r).
  (** The proto files behind a link: the paths of imports are relative to the configuration. *)
  Definition ProtosOf (l : link) (r : list (pfile B)) : Prop :=
    match l_kind l with
    | LProtobuf =>
        exists p ps, Located url dir (l_src l) p /\
          match l_paths l, ps with
          | None, None => True
          | Some given, Some found => Forall2 (fun g f => Located url dir g f) given found
          | _, _ => False
          end /\ protos p ps = Some r
    | LGrpc => reflect (l_src l) (l_headers l) = Some r
    | _ => r = []
    end.

  (** All the links [ls] have been loaded into the extensions [x]. *)
  Record LoadedInto (ls : list link) (x : @extensions Cert Key Endpoint Jwks B) : Prop := {
    ld_script : LastGives ScriptOf (of_kind LScript ls) None (x_script x);
    ld_certs : AllGive CertsOf (of_kind LCert ls) (x_cert x);
    ld_keys : LastGives KeysOf (of_kind LKey ls) [] (x_keys x);
    ld_endpoints : LastGives EndpointsOf (of_kind LOperation ls) [] (x_endpoints x);
    ld_htpasswd : Forall2 HtpasswdOf (of_kind LHtpasswd ls) (x_htpasswd x);
    ld_jwks : Forall2 JwksOf (of_kind LJwks ls) (x_jwks x);
    ld_protos : exists files, AllGive ProtosOf (named ls) files /\ forall n, LastNamed files n (aget n (x_protos x)) }.

  (** The links of a configuration have been loaded and the linked configurations merged into
      it. *)
  Definition LinkedUp (unify : Cfg -> Cfg -> option Cfg) (links_of : Cfg -> list link) (c : Cfg) (m : Cfg * @extensions Cert Key Endpoint Jwks B) : Prop :=
    LoadedInto (links_of c) (snd m) /\
    exists cs, Forall2 ConfigOf (of_kind LConfig (links_of c)) cs /\ MergedWith unify c cs (fst m).
  (** The link can be loaded. *)
  Definition Loadable (l : link) : Prop :=
    match l_kind l with
    | LConfig => exists c, ConfigOf l c
    | LProtobuf | LGrpc => exists r, ProtosOf l r
    | LScript | LHtpasswd => exists t, TextOf l t
    | LCert => exists r, CertsOf l r
    | LKey => exists r, KeysOf l r
    | LOperation => exists r, EndpointsOf l r
    | LJwks => exists r, JwksOf l r
    end.
End Links.

(** The last value that is there. *)
Definition LastThere {A : Type} (l : list (option A)) (r : option A) : Prop :=
  match r with
  | Some v => exists a b, l = (a ++ Some v :: b)%list /\ forall o, In o b -> o = None
  | None => forall o, In o l -> o = None
  end.
(** What the extensions of several files come to. *)
Record Joined {Cert Key Endpoint Jwks B : Type} (xs : list (@extensions Cert Key Endpoint Jwks B)) (x : @extensions Cert Key Endpoint Jwks B) : Prop := {
  jn_script : LastThere (map x_script xs) (x_script x);
  jn_certs : x_cert x = concat (map x_cert xs);
  jn_keys : x_keys x = concat (map x_keys xs);
  jn_endpoints : x_endpoints x = concat (map x_endpoints xs);
  jn_htpasswd : x_htpasswd x = concat (map x_htpasswd xs);
  jn_jwks : x_jwks x = concat (map x_jwks xs);
  jn_protos : forall n, LastThere (map (fun y => aget n (x_protos y)) xs) (aget n (x_protos x)) }.
