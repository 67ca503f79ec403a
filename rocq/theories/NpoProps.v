(** C24: the search for N+1 paths is sound and complete. *)
From Coq Require Import String Ascii ZArith NArith Bool List.
From Verif Require Import Base Ordered OrderedFacts JsonModel TypeModel ConfigModel MergeSpec GraphModel
  GraphSpec NpoProofs.
Import ListNotations.
Open Scope string_scope.
Open Scope list_scope.

(** The memoised search ends on every configuration. *)
Theorem C24_search_terminates : forall c, exists r, n_plus_one c = Some r.
Proof. exact n_plus_one_total. Qed.
Print Assumptions C24_search_terminates.

(** Every report is a real N+1 path. *)
Theorem C24_reports_are_real : forall c r, n_plus_one c = Some r ->
  forall p, In p r -> report_ok c p.
Proof. exact n_plus_one_sound. Qed.
Print Assumptions C24_reports_are_real.

(** If any N+1 path exists, something is reported. *)
Theorem C24_some_report_if_any_path : forall c r, n_plus_one c = Some r ->
  (forall q p ty f, r_query (c_schema c) = Some q -> NPlusOne c q false p ty f -> r <> []) /\
  (forall e t p ty f, In (e, t) (c_types c) -> EntityBatched t -> NPlusOne c e true p ty f -> r <> []) /\
  (forall e t, In (e, t) (c_types c) -> EntityUnbatched t -> r <> []).
Proof. exact n_plus_one_detects. Qed.
Print Assumptions C24_some_report_if_any_path.

(** More: every field that is the first to be called per element on some path is
    the end of a report, whatever the cache held when it was reached. *)
Theorem C24_every_first_offender_reported : forall c r, n_plus_one c = Some r ->
  (forall q ty f, r_query (c_schema c) = Some q -> FirstN1 c q false ty f -> Reported c r ty f) /\
  (forall e t ty f, In (e, t) (c_types c) -> EntityBatched t -> FirstN1 c e true ty f ->
     Reported c r ty f).
Proof. exact n_plus_one_complete. Qed.
Print Assumptions C24_every_first_offender_reported.

(** Users with posts, a cycle back from post to user, and an unbatched author. *)
Definition fld (t : typ) (rs : list resolver) : field :=
  {| f_type := t; f_args := []; f_doc := None; f_modify := None; f_omit := false; f_cache := None;
     f_default := None; f_protected := None; f_discriminate := None; f_resolvers := rs;
     f_directives := [] |}.
Definition obj (fs : list (string * field)) : gtype :=
  {| t_fields := fs; t_added := []; t_doc := None; t_implements := []; t_cache := None;
     t_protected := None; t_resolvers := []; t_directives := [] |}.
Definition named (n : string) : typ := TNamed n false.
Definition blog : config :=
  {| c_server := empty_server; c_upstream := empty_upstream;
     c_schema := {| r_query := Some "Query"; r_mutation := None; r_subscription := None |};
     c_types :=
       [("Post", obj [("author", fld (named "User") [RJs "author"]);
                      ("reviewer", fld (named "User") [])]);
        ("Query", obj [("posts", fld (TList (named "Post") false) [RJs "posts"]);
                       ("user", fld (named "User") [RJs "user"])]);
        ("User", obj [("name", fld (named "String") []);
                      ("posts", fld (TList (named "Post") false) [])])];
     c_unions := []; c_enums := []; c_links := []; c_telemetry := empty_telemetry |}.

Example C24_instance :
  n_plus_one blog = Some [[PField "posts"; PField "author"]; [PField "user"; PField "posts"; PField "author"]] /\
  NPlusOne blog "Query" false ["posts"; "author"] "Post" "author" /\
  FirstN1 blog "Query" false "Post" "author".
Proof.
  split; [vm_compute; reflexivity|]. split.
  - eapply N1_step with (name := "posts"); [reflexivity|left; reflexivity|].
    eapply N1_here; [reflexivity|left; reflexivity|].
    split; [discriminate|]. eexists. split; [left; reflexivity|intros B; inversion B].
  - eapply F1_step with (n := "posts"); [reflexivity|left; reflexivity|intros [A _]; discriminate|].
    eapply F1_here; [reflexivity|left; reflexivity|].
    split; [discriminate|]. eexists. split; [left; reflexivity|intros B; inversion B].
Qed.
