(** Theorems about linked files, imported proto files and the cached reader. *)
From Coq Require Import String Ascii ZArith NArith Arith Bool Lia List.
From Verif Require Import Base LinksModel LinksSpec LinksProofs.
Import ListNotations.
Open Scope string_scope.
Open Scope list_scope.

(** A small world for the examples: a configuration is its links and its types. *)
Definition wcfg : Type := list link * list string.
Definition wlink (k : link_kind) (src : string) : link := {| l_id := Some src; l_src := src; l_kind := k; l_headers := []; l_paths := None |}.
Definition wfile (t : list (string * string)) (p : string) : option string := aget p t.
Definition wparse (t : list (string * wcfg)) (_ text : string) : option wcfg := aget text t.
Definition wunify (a b : wcfg) : option wcfg := if existsb (fun n => smem n (snd b)) (snd a) then None else Some (fst a, snd a ++ snd b).
Definition wone (t : string) : option (list string) := Some [t].
Definition wjwks (t : string) : option string := if String.eqb t "bad" then None else Some t.
Definition wproto (t : list (string * (option string * list string))) (text : string) : option (option string * list string * string) :=
  option_map (fun x => (fst x, snd x, text)) (aget text t).
Definition wprotos (fs : list (string * string)) (t : list (string * (option string * list string))) (p : string) (ps : option (list string)) : option (list (pfile string)) :=
  match read_protos (fun _ => None) (wfile fs) (fun p => smem p (akeys fs)) (wproto t) 9 p ps with Some r => r | None => None end.
Definition wall (fs : list (string * string)) (cs : list (string * wcfg)) (ps : list (string * (option string * list string))) (paths : list string) :=
  read_all (B := string) (@fst (list link) (list string)) (wfile fs) (fun t => t) (wparse cs) wunify wone wone wone wjwks (wprotos fs ps) (fun _ _ => None) (fun _ => None) paths.

Definition wfs : list (string * string) :=
  [("/c/main.graphql", "main"); ("/c/more.graphql", "more"); ("/c/s1.js", "one"); ("/c/s2.js", "two"); ("/c/pw", "pw"); ("/c/jwks", "jwks"); ("/c/bad", "bad");
   ("/c/a/a.proto", "a"); ("/c/a/common.proto", "common a"); ("/c/b/b.proto", "b"); ("/c/b/common.proto", "common b"); ("/c/other.graphql", "other"); ("/c/cyc.proto", "cyc"); ("/c/x.proto", "x")].
Definition wps : list (string * (option string * list string)) :=
  [("a", (Some "a", ["common.proto"])); ("b", (Some "b", ["common.proto"])); ("common a", (None, [])); ("common b", (None, []));
   ("cyc", (Some "c", ["x.proto"])); ("x", (None, ["cyc.proto"]))].

(** * C59: linked files *)

Theorem C59_links_are_loaded :
  forall (Cfg Cert Key Endpoint Jwks B : Type) (links_of : Cfg -> list link) file render parse_config unify
    (parse_certs : string -> option (list Cert)) (parse_keys : string -> option (list Key)) (parse_endpoints : string -> option (list Endpoint))
    (parse_jwks : string -> option Jwks) (protos : string -> option (list string) -> option (list (pfile B))) reflect url path m,
  read_all links_of file render parse_config unify parse_certs parse_keys parse_endpoints parse_jwks protos reflect url [path] = Some m ->
  exists t c d, file path = Some t /\ parse_config path (render t) = Some c /\ InDir path d /\
    LinkedUp file render parse_config parse_certs parse_keys parse_endpoints parse_jwks protos reflect url d unify links_of c m.
Proof. intros. now apply read_one_sound. Qed.
Print Assumptions C59_links_are_loaded.
Definition c59_main : wcfg := ([wlink LScript "s1.js"; wlink LConfig "more.graphql"; wlink LHtpasswd "pw"; wlink LScript ""; wlink LJwks "/c/jwks"; wlink LProtobuf "a/a.proto"], ["Query"]).
Example C59_witness_links : exists x, wall wfs [("main", c59_main); ("more", ([wlink LScript "s2.js"], ["User"]))] wps ["/c/main.graphql"] = Some ((fst c59_main, ["Query"; "User"]), x)
  /\ x_script x = Some "one" /\ x_htpasswd x = [(Some "pw", "pw")] /\ x_jwks x = [(Some "/c/jwks", "jwks")]
  /\ akeys (x_protos x) = ["common.proto"; "/c/a/a.proto"].
Proof. eexists. split; [vm_compute; reflexivity|]. repeat split. Qed.

Theorem C59_a_link_that_cannot_be_loaded_is_reported :
  forall (Cfg Cert Key Endpoint Jwks B : Type) (links_of : Cfg -> list link) file render parse_config unify
    (parse_certs : string -> option (list Cert)) (parse_keys : string -> option (list Key)) (parse_endpoints : string -> option (list Endpoint))
    (parse_jwks : string -> option Jwks) (protos : string -> option (list string) -> option (list (pfile B))) reflect url path,
  (exists m, read_all links_of file render parse_config unify parse_certs parse_keys parse_endpoints parse_jwks protos reflect url [path] = Some m) <->
  exists t c d, file path = Some t /\ parse_config path (render t) = Some c /\ InDir path d /\
    (forall l, In l (named (links_of c)) -> Loadable file render parse_config parse_certs parse_keys parse_endpoints parse_jwks protos reflect url d l) /\
    (forall cs, Forall2 (ConfigOf file render parse_config url d) (of_kind LConfig (links_of c)) cs -> exists c', MergedWith unify c cs c').
Proof. intros. apply read_one_outcome. Qed.
Print Assumptions C59_a_link_that_cannot_be_loaded_is_reported.
Example C59_witness_reported :
  wall wfs [("main", ([wlink LScript "s1.js"; wlink LJwks "bad"], ["Query"]))] wps ["/c/main.graphql"] = None /\
  wall wfs [("main", ([wlink LScript "s3.js"; wlink LScript "s1.js"], ["Query"]))] wps ["/c/main.graphql"] = None /\
  wall wfs [("main", ([wlink LConfig "more.graphql"], ["Query"])); ("more", ([], ["Query"]))] wps ["/c/main.graphql"] = None.
Proof. vm_compute. repeat split. Qed.

Theorem C59_several_files :
  forall (Cfg Cert Key Endpoint Jwks B : Type) (links_of : Cfg -> list link) file render parse_config unify
    (parse_certs : string -> option (list Cert)) (parse_keys : string -> option (list Key)) (parse_endpoints : string -> option (list Endpoint))
    (parse_jwks : string -> option Jwks) (protos : string -> option (list string) -> option (list (pfile B))) reflect url paths r,
  let read := read_all links_of file render parse_config unify parse_certs parse_keys parse_endpoints parse_jwks protos reflect url in
  read paths = Some r ->
  exists m ms, Forall2 (fun p m => read [p] = Some m) paths (m :: ms) /\
    MergedWith unify (fst m) (map fst ms) (fst r) /\ Joined (map snd (m :: ms)) (snd r).
Proof. intros. now apply read_all_sound. Qed.
Print Assumptions C59_several_files.
Theorem C59_several_files_are_read :
  forall (Cfg Cert Key Endpoint Jwks B : Type) (links_of : Cfg -> list link) file render parse_config unify
    (parse_certs : string -> option (list Cert)) (parse_keys : string -> option (list Key)) (parse_endpoints : string -> option (list Endpoint))
    (parse_jwks : string -> option Jwks) (protos : string -> option (list string) -> option (list (pfile B))) reflect url paths m ms c,
  let read := read_all links_of file render parse_config unify parse_certs parse_keys parse_endpoints parse_jwks protos reflect url in
  Forall2 (fun p m => read [p] = Some m) paths (m :: ms) -> MergedWith unify (fst m) (map fst ms) c ->
  exists r, read paths = Some r /\ fst r = c.
Proof. intros. now apply read_all_total with m ms. Qed.
Print Assumptions C59_several_files_are_read.
Definition c59_two : list (string * wcfg) :=
  [("main", ([wlink LScript "s1.js"; wlink LKey "s1.js"], ["Query"])); ("other", ([wlink LScript "s2.js"; wlink LKey "s2.js"], ["User"]))].
Example C59_witness_several : exists r, wall wfs c59_two wps ["/c/main.graphql"; "/c/other.graphql"] = Some r
  /\ snd (fst r) = ["Query"; "User"] /\ x_script (snd r) = Some "two" /\ x_keys (snd r) = ["one"; "two"].
Proof. eexists. split; [vm_compute; reflexivity|]. repeat split. Qed.

(** What the files linked from a linked configuration hold never counts. *)
Theorem C59_links_inside_linked_configurations_refuted :
  exists fs (cs : list (string * wcfg)) r l t, wall fs cs wps ["/c/main.graphql"] = Some r /\
    cs = [("main", ([wlink LConfig "more.graphql"], ["Query"])); ("more", ([l], ["User"]))] /\ l_kind l = LHtpasswd /\ fs = wfs /\
    aget "/c/pw" fs = Some t /\ l_src l = "/c/pw" /\ x_htpasswd (snd r) = [].
Proof.
  exists wfs, [("main", ([wlink LConfig "more.graphql"], ["Query"])); ("more", ([wlink LHtpasswd "/c/pw"], ["User"]))].
  eexists. exists (wlink LHtpasswd "/c/pw"), "pw". split; [vm_compute; reflexivity|]. repeat split.
Qed.
Print Assumptions C59_links_inside_linked_configurations_refuted.
(** Of the keys linked from one configuration only the last count, of the keys linked from two
    all. *)
Theorem C59_where_a_link_is_written_does_not_matter_refuted :
  exists fs one two r s, wall fs one wps ["/c/main.graphql"; "/c/other.graphql"] = Some r /\ wall fs two wps ["/c/main.graphql"; "/c/other.graphql"] = Some s /\
    one = [("main", ([wlink LKey "s1.js"; wlink LKey "s2.js"], ["Query"])); ("other", ([], ["User"]))] /\
    two = [("main", ([wlink LKey "s1.js"], ["Query"])); ("other", ([wlink LKey "s2.js"], ["User"]))] /\
    snd (fst r) = snd (fst s) /\ x_keys (snd r) = ["two"] /\ x_keys (snd s) = ["one"; "two"].
Proof.
  exists wfs, [("main", ([wlink LKey "s1.js"; wlink LKey "s2.js"], ["Query"])); ("other", ([], ["User"]))],
    [("main", ([wlink LKey "s1.js"], ["Query"])); ("other", ([wlink LKey "s2.js"], ["User"]))].
  eexists. eexists. split; [vm_compute; reflexivity|]. split; [vm_compute; reflexivity|]. repeat split.
Qed.
Print Assumptions C59_where_a_link_is_written_does_not_matter_refuted.
(** Two proto files that each import a file of the same name from their own directory: one of
    the two imports is lost. *)
Theorem C59_proto_files_keep_their_own_imports_refuted :
  exists cs r, wall wfs cs wps ["/c/main.graphql"] = Some r /\
    cs = [("main", ([wlink LProtobuf "a/a.proto"; wlink LProtobuf "b/b.proto"], ["Query"]))] /\
    (exists l, wprotos wfs wps "/c/a/a.proto" None = Some l /\ In "common a" (map f_body l)) /\
    ~ In "common a" (map (fun kf => f_body (snd kf)) (x_protos (snd r))).
Proof.
  exists [("main", ([wlink LProtobuf "a/a.proto"; wlink LProtobuf "b/b.proto"], ["Query"]))]. eexists. split; [vm_compute; reflexivity|]. split; [reflexivity|]. split.
  - eexists. split; [vm_compute; reflexivity|]. now left.
  - vm_compute. intuition discriminate.
Qed.
Print Assumptions C59_proto_files_keep_their_own_imports_refuted.

(** * C60: imports of proto files *)

Theorem C60_imports_exact :
  forall (B : Type) google file exists_file (parse_proto : string -> option (option string * list string * B)) fuel path paths l,
  read_protos google file exists_file parse_proto fuel path paths = Some (Some l) ->
  exists t pk im b d deps,
    let is_file := Imported google file exists_file parse_proto d (match paths with Some l => l | None => [] end) in
    let root := {| f_name := path; f_package := Some pk; f_imports := im; f_body := b |} in
    (google path = Some t \/ google path = None /\ file path = Some t) /\ parse_proto t = Some (Some pk, im, b) /\ InDir path d /\
    l = deps ++ [root] /\ NoDup (map f_name deps) /\
    (forall p, In p deps <-> exists i, Reached is_file root i /\ is_file i p) /\
    (forall i, Reached is_file root i -> exists p, is_file i p /\ In p deps).
Proof. exact @protos_exact. Qed.
Print Assumptions C60_imports_exact.
Theorem C60_missing_imports_are_reported :
  forall (B : Type) google file exists_file (parse_proto : string -> option (option string * list string * B)) fuel path paths,
  read_protos google file exists_file parse_proto fuel path paths = Some None ->
  forall t pk im b, google path = Some t \/ google path = None /\ file path = Some t -> parse_proto t = Some (Some pk, im, b) ->
  exists d i, InDir path d /\
    Reached (Imported google file exists_file parse_proto d (match paths with Some l => l | None => [] end))
      {| f_name := path; f_package := Some pk; f_imports := im; f_body := b |} i /\
    forall p, ~ Imported google file exists_file parse_proto d (match paths with Some l => l | None => [] end) i p.
Proof. exact @protos_fail. Qed.
Print Assumptions C60_missing_imports_are_reported.
Theorem C60_reading_ends :
  forall (B : Type) google file exists_file (parse_proto : string -> option (option string * list string * B)) texts path paths,
  (forall q t, google q = Some t \/ file q = Some t -> In t texts) ->
  exists n, forall fuel, n <= fuel -> read_protos google file exists_file parse_proto fuel path paths <> None.
Proof. exact @protos_end. Qed.
Print Assumptions C60_reading_ends.
Example C60_witness_imports :
  (exists l, wprotos wfs wps "/c/b/b.proto" None = Some l /\ map f_body l = ["common b"; "b"]) /\
  (exists l, wprotos wfs wps "/c/b/b.proto" (Some ["/c/none"; "/c/a"]) = Some l /\ map f_body l = ["common a"; "b"]) /\
  read_protos (B := string) (fun _ => None) (wfile [("/c/b.proto", "b")]) (fun _ => false) (wproto wps) 9 "/c/b.proto" None = Some None /\
  (forall q t, (fun _ : string => @None string) q = Some t \/ wfile wfs q = Some t -> In t (map snd wfs)).
Proof.
  split; [eexists; split; [vm_compute; reflexivity|reflexivity]|]. split; [eexists; split; [vm_compute; reflexivity|reflexivity]|]. split; [reflexivity|].
  intros q t [H|H]; [discriminate H|]. unfold wfile in H. apply BaseFacts.aget_In in H. apply in_map_iff. now exists (q, t).
Qed.
(** A file that is imported by one of its own imports is there twice, under two names. *)
Theorem C60_every_file_once_refuted :
  exists fs l f g, wprotos fs wps "/c/cyc.proto" None = Some l /\ In f l /\ In g l /\
    aget "/c/cyc.proto" fs = Some (f_body f) /\ f_body f = f_body g /\ f_name f <> f_name g.
Proof.
  exists wfs. eexists. eexists {| f_name := "cyc.proto"; f_package := Some "c"; f_imports := ["x.proto"]; f_body := "cyc" |}, {| f_name := "/c/cyc.proto"; f_package := Some "c"; f_imports := ["x.proto"]; f_body := "cyc" |}.
  split; [vm_compute; reflexivity|]. split; [right; now left|]. split; [right; right; now left|]. repeat split. discriminate.
Qed.
Print Assumptions C60_every_file_once_refuted.

(** * C61: the cached reader *)

Theorem C61_every_read_is_current :
  forall hashed reads,
  (forall p q, In p (map snd reads) -> In q (map snd reads) -> hashed p <> q) ->
  cached_reads hashed reads [] = map (fun r => fst r (snd r)) reads.
Proof. intros hashed reads H. apply cached_reads_direct; [exact H|]. intros p k _ []. Qed.
Print Assumptions C61_every_read_is_current.
Example C61_witness_reads : forall p q, In p ["/a"; "/b"; "/a"] -> In q ["/a"; "/b"; "/a"] -> (fun _ : string => "17") p <> q.
Proof. intros p q _ [<- |[<- |[<- |[]]]]; discriminate. Qed.
(** A file read twice is read from the disk twice, and may have changed. *)
Theorem C61_a_file_is_read_once_refuted :
  forall hashed p, hashed p <> p -> exists before after, cached_reads hashed [(before, p); (after, p)] [] = [before p; after p] /\
    before p = Some "old" /\ after p = Some "new".
Proof.
  intros hashed p N. exists (fun _ => Some "old"), (fun _ => Some "new"). split; [|now split].
  apply C61_every_read_is_current. cbn. intros a b [<- |[<- |[]]] [<- |[<- |[]]]; exact N.
Qed.
Print Assumptions C61_a_file_is_read_once_refuted.
(** A file named like the hash of another path is taken for the file at that path. *)
Theorem C61_the_file_asked_for_refuted :
  forall hashed p, hashed p <> p -> exists disk, cached_reads hashed [(disk, hashed p); (disk, p)] [] = [Some "theirs"; Some "theirs"] /\ disk p = Some "mine".
Proof.
  intros hashed p N. exists (fun q => if String.eqb q p then Some "mine" else Some "theirs").
  cbn. unfold cached_read. cbn. rewrite (proj2 (String.eqb_neq _ _) N). cbn. rewrite !String.eqb_refl. split; reflexivity.
Qed.
Print Assumptions C61_the_file_asked_for_refuted.
