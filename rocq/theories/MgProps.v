(** C86: a configuration generated of several sources answers each of them. *)
From Coq Require Import String Ascii ZArith NArith Bool Lia List.
From Verif Require Import Base Ordered JsonModel TypeModel ConfigModel MergeSpec MergeModel FedModel GenModel GenSpec OpGenModel OpGenSpec MgModel MgSpec MgProofs OpGenProps.
Import ListNotations.
Open Scope string_scope.
Open Scope list_scope.

(** ** Samples *)
(** For each sample the result has the field, with the address, the query, the method, the arguments and the body of the directive that is made for
    the sample alone, and the types of the result describe the sample's answer and body.  This holds whatever sources come before; those that
    come after must not give the same field, and files must not use the numbered names.  Missing: what the transformers make of it. *)
Theorem C86_samples_are_answered_partial : forall is_f64 is_utf8 camel http_text query mutation prefix before s hs after c,
  roots_apart query mutation prefix ->
  generate is_f64 is_utf8 camel http_text query mutation prefix (before ++ SSample s hs :: after) [] false = Ok c ->
  (forall x, In x (before ++ SSample s hs :: after) -> apart prefix x) ->
  (forall x, In x after -> ~ gives query mutation x (root_of query mutation s) (sa_field s)) ->
  exists f h h0 args, field_at c (root_of query mutation s) (sa_field s) = Some f /\
    generate_http_directive is_f64 is_utf8 camel (sa_url s) = Some (h0, args) /\
    f_resolvers f = [RHttp [] (http_text h)] /\
    (regular (sa_answer s) -> describes (c_types c) (f_type f) (sa_answer s)) /\
    gh_url h = gh_url h0 /\ gh_query h = gh_query h0 /\
    (forall k x, k <> "GEN__Input1" \/ sa_mutation s = false -> type_name (arg_type x) <> "Query" -> type_name (arg_type x) <> "Mutation" ->
       aget k args = Some x -> aget k (f_args f) = Some x) /\
    (if sa_mutation s
     then gh_method h = sa_method s /\ gh_body h = Some "{{.args.GEN__Input1}}" /\
       exists a, aget "GEN__Input1" (f_args f) = Some a /\
         (regular (sa_body s) -> (forall l, sa_body s <> VList l) -> describes (c_types c) (arg_type a) (sa_body s))
     else gh_method h = "GET" /\ gh_body h = None).
Proof. intros f u ca ht q m p before s hs after c R. exact (sample_answered f u ca ht q m p R before s hs after c). Qed.
Print Assumptions C86_samples_are_answered_partial.

(** ** Files *)
(** Fields of a file are in the result as they are in the file, unless a later source gives the same field. *)
Theorem C86_fields_of_files_are_kept : forall is_f64 is_utf8 camel http_text query mutation prefix before r after c,
  roots_apart query mutation prefix ->
  generate is_f64 is_utf8 camel http_text query mutation prefix (before ++ SConfig (Ok r) :: after) [] false = Ok c ->
  (forall x, In x (before ++ SConfig (Ok r) :: after) -> apart prefix x) ->
  forall t n f, field_at r t n = Some f -> (forall x, In x after -> ~ gives query mutation x t n) -> field_at c t n = Some f.
Proof. intros f u ca ht q m p before r after c R. exact (file_kept f u ca ht q m p R before r after c). Qed.
Print Assumptions C86_fields_of_files_are_kept.

(** ** Headers and links *)
(** The headers that are passed on are those of all sources, and the links are those of the files, in order. *)
Theorem C86_headers_and_links : forall is_f64 is_utf8 camel http_text query mutation prefix sources c,
  roots_apart query mutation prefix ->
  generate is_f64 is_utf8 camel http_text query mutation prefix sources [] false = Ok c ->
  (forall x, In x sources -> apart prefix x) ->
  c_links c = concat (map links_of sources) /\
  forall h, In h (match up_allowed_headers (c_upstream c) with Some l => l | None => [] end) <-> exists x, In x sources /\ In h (headers_of x).
Proof. intros f u ca ht q m p sources c R. exact (whole_lists f u ca ht q m p R sources c). Qed.
Print Assumptions C86_headers_and_links.

(** ** Roots *)
(** The fields of samples can be asked for, if no later file names another root. *)
Theorem C86_roots : forall is_f64 is_utf8 camel http_text query mutation prefix before s hs after c,
  roots_apart query mutation prefix ->
  generate is_f64 is_utf8 camel http_text query mutation prefix (before ++ SSample s hs :: after) [] false = Ok c ->
  (forall x, In x (before ++ SSample s hs :: after) -> apart prefix x) ->
  (forall r, In (SConfig (Ok r)) after -> root_named (sa_mutation s) r = None \/ root_named (sa_mutation s) r = Some (root_of query mutation s)) ->
  root_named (sa_mutation s) c = Some (root_of query mutation s).
Proof. intros f u ca ht q m p before s hs after c R. exact (whole_root f u ca ht q m p R before s hs after c). Qed.
Print Assumptions C86_roots.

(** ** Success *)
(** It fails only for a file that cannot be read or a sample without a directive; with transformers, also where one of them does. *)
Theorem C86_succeeds : forall is_f64 is_utf8 camel http_text query mutation prefix sources ts,
  roots_apart query mutation prefix ->
  ((exists c, generate is_f64 is_utf8 camel http_text query mutation prefix sources ts false = Ok c) <->
   forall x, In x sources -> match x with
     | SSample s _ => generate_http_directive is_f64 is_utf8 camel (sa_url s) <> None
     | SConfig (Ok _) => True
     | SConfig (Err _) => False end) /\
  forall c, generate is_f64 is_utf8 camel http_text query mutation prefix sources ts true = Ok c <->
    exists c0, generate is_f64 is_utf8 camel http_text query mutation prefix sources ts false = Ok c0 /\ transformed ts c0 c.
Proof.
  intros f u ca ht q m p sources ts R. unfold generate. split.
  - rewrite <- (from_succeeds f u ca ht q m p R sources empty_config 1). destruct (generate_from _ _ _ _ _ _ _ _ _ _) as [[c n]|]; split; intros [x X]; eauto; discriminate.
  - intros c. destruct (generate_from _ _ _ _ _ _ _ _ _ _) as [[c0 n]|].
    + rewrite transform_steps. split; [eauto|]. intros (c1 & E & T). injection E as <-. exact T.
    + split; [discriminate|]. intros (c1 & E & _). discriminate.
Qed.
Print Assumptions C86_succeeds.

(** ** A case *)
Definition url86 (p : string) : sample_url := {| su_base := "http://api"; su_path := p; su_query := [("q", "a")] |}.
Definition users86 : sample :=
  {| sa_url := url86 "/users/7"; sa_method := "GET"; sa_body := VNull; sa_answer := VObj [("id", VNum (NInt 1)); ("friend", VObj [("id", VNum (NInt 2))])];
     sa_field := "users"; sa_mutation := false |}.
Definition save86 : sample :=
  {| sa_url := url86 "/posts"; sa_method := "POST"; sa_body := VObj [("text", VStr "x")]; sa_answer := VObj [("ok", VBool true)]; sa_field := "save"; sa_mutation := true |}.
Definition file86 : config :=
  {| c_server := c_server empty_config; c_upstream := with_allowed (Some ["x-id"]) (c_upstream empty_config);
     c_schema := {| r_query := Some "Root"; r_mutation := None; r_subscription := None |};
     c_types := [("Post", with_fields [("id", field_of (TNamed "Int" false))]); ("Root", with_fields [("posts", field_of (TList (TNamed "Post" false) false))])];
     c_unions := []; c_enums := []; c_links := ["a.proto"]; c_telemetry := c_telemetry empty_config |}.
Definition sources86 : list source := [SSample users86 (Some ["b"; "a"]); SConfig (Ok file86); SSample save86 None].
Definition gen86 (sources : list source) : valid config := generate no_f64 any_utf8 camel71 http71 "Root" (Some "Mut") "GEN__" sources [] false.

Lemma apart86 : roots_apart "Root" (Some "Mut") "GEN__".
Proof. intros k. repeat split; discriminate. Qed.
Lemma file86_wf : wf_config file86.
Proof.
  constructor; cbn.
  - split; [repeat (apply osorted_cons; [intros k v H; repeat destruct H as [H|H]; try injection H as <- <-; try reflexivity; destruct H|]); apply osorted_nil|].
    intros k v [H|[H|[]]]; injection H as <- <-; (split; [apply osorted_cons; [intros ? ? []|apply osorted_nil]|constructor]).
  - split; [apply osorted_nil|intros k v []].
  - split; [apply osorted_nil|intros k v []].
  - repeat constructor. intros x [].
  - exact Logic.I.
  - exact Logic.I.
Qed.
Lemma sources86_apart x : In x sources86 -> apart "GEN__" x.
Proof. intros [<-|[<-|[<-|[]]]]; [exact Logic.I| |exact Logic.I]. split; [exact file86_wf|]. intros k n. reflexivity. Qed.

Definition id86 : sample :=
  {| sa_url := url86 "/id"; sa_method := "GET"; sa_body := VNull; sa_answer := VObj [("id", VNum (NInt 1))]; sa_field := "number"; sa_mutation := false |}.
Ltac easy86 := repeat match goal with
  | |- regular (VNum _) => apply regular_int; lia
  | |- regular (VObj _) => apply regular_object; [repeat (apply NoDup_cons; [cbn; intuition discriminate|]); apply NoDup_nil|intros ? ? H; cbn in H; repeat destruct H as [H|H]; [..|destruct H]; injection H as <- <-]
  | |- regular _ => progress (unfold users86, id86; cbn [sa_answer]) end.
(** All that the theorems ask for: both samples and the file's field are in the result. *)
Example C86_example : exists c, gen86 sources86 = Ok c /\ roots_apart "Root" (Some "Mut") "GEN__" /\ (forall x, In x sources86 -> apart "GEN__" x) /\
  (forall x, In x [SConfig (Ok file86); SSample save86 None] -> ~ gives "Root" (Some "Mut") x "Root" "users") /\
  regular (sa_answer users86) /\ root_named false c = Some "Root" /\ root_named true c = Some "Mut" /\
  field_at c "Root" "posts" = Some (field_of (TList (TNamed "Post" false) false)) /\
  map fst (c_types c) = ["GEN__1"; "GEN__2"; "GEN__3"; "GEN__4"; "Mut"; "Post"; "Root"] /\
  up_allowed_headers (c_upstream c) = Some ["a"; "b"; "x-id"].
Proof.
  eexists. split; [vm_compute; reflexivity|]. split; [exact apart86|]. split; [exact sources86_apart|]. split.
  { intros x [<-|[<-|[]]]; cbn; [congruence|intros [H _]; discriminate]. }
  split; [easy86|]. repeat split; reflexivity.
Qed.

(** ** What does not hold *)
(** A configuration that was generated before, given again, has the numbered names; its types are mixed with those of other samples. *)
Definition old86 : config :=
  {| c_server := c_server empty_config; c_upstream := c_upstream empty_config; c_schema := {| r_query := Some "Root"; r_mutation := None; r_subscription := None |};
     c_types := [("GEN__1", with_fields [("id", field_of (TNamed "String" false))]); ("Root", with_fields [("text", field_of (TNamed "GEN__1" false))])];
     c_unions := []; c_enums := []; c_links := []; c_telemetry := c_telemetry empty_config |}.
Theorem C86_generated_files_can_be_used_again_refuted : exists before s hs after c f,
  gen86 (before ++ SSample s hs :: after) = Ok c /\ (forall x, In x after -> ~ gives "Root" (Some "Mut") x "Root" (sa_field s)) /\
  field_at c "Root" (sa_field s) = Some f /\ regular (sa_answer s) /\ ~ describes (c_types c) (f_type f) (sa_answer s).
Proof.
  exists [], id86, None, [SConfig (Ok old86)]. eexists _, _. split; [vm_compute; reflexivity|]. split; [intros x [<-|[]]; cbn; congruence|].
  split; [reflexivity|]. split; [easy86|]. intros D. inversion D as [| | | | | |n x g m G A]; subst. vm_compute in G. injection G as <-.
  destruct (A "id" (VNum (NInt 1)) (or_introl eq_refl)) as (f & F & Df). vm_compute in F. injection F as <-. vm_compute in Df. inversion Df; discriminate.
Qed.
Print Assumptions C86_generated_files_can_be_used_again_refuted.

(** A later file with another root hides the fields of samples. *)
Definition other86 : config :=
  {| c_server := c_server empty_config; c_upstream := c_upstream empty_config; c_schema := {| r_query := Some "Query"; r_mutation := None; r_subscription := None |};
     c_types := [("Query", with_fields [("posts", field_of (TNamed "Int" false))])]; c_unions := []; c_enums := []; c_links := []; c_telemetry := c_telemetry empty_config |}.
Theorem C86_samples_can_be_asked_refuted : exists s hs after c q,
  gen86 (SSample s hs :: after) = Ok c /\ (forall x, In x after -> ~ gives "Root" (Some "Mut") x "Root" (sa_field s)) /\
  root_named false c = Some q /\ field_at c q (sa_field s) = None.
Proof.
  exists users86, None, [SConfig (Ok other86)]. eexists _, _. split; [vm_compute; reflexivity|]. split; [intros x [<-|[]]; cbn; congruence|]. split; reflexivity.
Qed.
Print Assumptions C86_samples_can_be_asked_refuted.
