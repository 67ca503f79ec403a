(** Merging of similar types: theorems of property C74. *)
From Coq Require Import String Ascii ZArith Bool Arith List Lia.
From Verif Require Import Base Ordered OrderedFacts JsonModel TypeModel ConfigModel BuilderModel AmbModel AmbSpec DocModel DocSpec DocProofs TmModel TmSpec TmProofs Tm2Proofs Tm3Proofs Tm4Proofs Tm5Proofs.
Import ListNotations.
Open Scope string_scope.
Open Scope list_scope.

(** ** What merging does *)
(** Whatever counts as similar, types are only merged: every type is found under its new name with
    all its fields, and no field, type, union or reference is made up. *)
Theorem C74_merged_partial walk t c c' : type_merger walk t c = Some c' -> ready c -> exists s, merged_by s c c'.
Proof. intros H R. eapply rounds_merge; [|exact H]. now apply ready_steady. Qed.
Print Assumptions C74_merged_partial.

(** Paths of fields lead to what they led to before, or to JSON, if merged types agree. *)
Theorem C74_paths_partial walk t c c' : type_merger walk t c = Some c' -> ready c ->
  exists s, merged_by s c c' /\ (agreeing s c -> forall path n m, leads_to c n path m ->
    leads_to c' (s n) path (s m) \/ exists before after, path = before ++ after /\ leads_to c' (s n) before "JSON").
Proof.
  intros H R. destruct (C74_merged_partial walk t c c' H R) as (s & M). exists s. split; [exact M|]. intros A path n m. apply paths_kept; assumption.
Qed.
Print Assumptions C74_paths_partial.

(** Types of scalars and enums are merged, at threshold 1.0, only with types of the same fields. *)
Theorem C74_leaf_types_partial walk c c' : type_merger walk exactly c = Some c' -> ready c -> no_scalars c ->
  exists s, merged_by s c c' /\ forall n, leaf c n ->
    (forall f x, has_field c n f x -> exists x', has_field c' (s n) f x') /\
    (forall f x', has_field c' (s n) f x' -> exists x, has_field c n f x /\
      (type_name (f_type x') = "JSON" \/ (type_name (f_type x') = type_name (f_type x) /\ is_list (f_type x') = is_list (f_type x)))).
Proof.
  intros H R Ns. destruct (rounds_leaves walk _ 1 c c' (ready_steady c R) Ns H) as (s & M & L). exists s. split; [exact M|]. intros n Ln. split; [exact (mb_kept _ _ _ M n)|exact (proj2 (L n Ln))].
Qed.
Print Assumptions C74_leaf_types_partial.

(** In a round, types are only merged with one of the same kind that they were found similar to; for
    input types, members of unions and interfaces the threshold is 1.0. *)
Theorem C74_same_kind walk t c k1 c1 : ready c -> merge_round walk t 1 c = Some (inr (k1, c1)) ->
  exists m s, walk c = Some m /\ merged_by s c c1 /\ forall a b, a <> b -> find_type c a <> None -> find_type c b <> None -> s a = s b ->
    exists first, forall n, n = a \/ n = b -> n = first \/
      ((exists kind, In kind [mt_input m; mt_union m; mt_output m; mt_interface m] /\ In first kind /\ In n kind) /\
       exists type_1 type_2 known known' th, find_type c first = Some type_1 /\ find_type c n = Some type_2 /\
         similarity c th first type_1 n type_2 known = Some (Similar true, known') /\
         ((exists kind, In kind [mt_input m; mt_union m; mt_interface m] /\ In first kind /\ In n kind) /\ th = exactly \/
          ~ (exists kind, In kind [mt_input m; mt_union m; mt_interface m] /\ In first kind /\ In n kind) /\ th = t)).
Proof.
  intros R H. destruct (round_fits walk t c k1 c1 R H) as (m & s & W & M & X). exists m, s. split; [exact W|]. split; [exact M|]. intros a b Ab Fa Fb E.
  destruct (X a b Ab Fa Fb E) as (n1 & Y). exists n1. intros n I. destruct (Y n I) as [Z|(Mg & t1 & t2 & k & k' & F1 & F2 & Sm)]; [now left|right]. split; [now apply mergeable_kind|].
  exists t1, t2, k, k', (get_threshold m t n1 n). split; [exact F1|]. split; [exact F2|]. split; [exact Sm|]. apply threshold_kind.
Qed.
Print Assumptions C74_same_kind.

(** ** The end *)
(** Without interfaces the merging ends. *)
Theorem C74_ends_partial t c : ready c -> tidy c -> (forall n x, find_type c n = Some x -> t_implements x = []) ->
  exists enough, forall fuel, enough <= fuel -> exists c', type_merger (mergeable_types_new fuel) t c = Some c'.
Proof.
  intros R T P. exists (walk_fuel c). intros fuel L. eapply rounds_end_plain; eauto. now apply ready_steady.
Qed.
Print Assumptions C74_ends_partial.
(** With interfaces too, if the walks through them end. *)
Theorem C74_rounds_end walk t c : osorted scmp (c_types c) -> (forall c, walk c <> None) -> exists c', type_merger walk t c = Some c'.
Proof.
  intros S W. destruct (type_merger walk t c) as [c'|] eqn:E; [eauto|]. exfalso. revert E. apply rounds_end; auto.
Qed.
Print Assumptions C74_rounds_end.

(** ** Configurations *)
Definition tf (t : typ) : field := {| f_type := t; f_args := []; f_doc := None; f_modify := None; f_omit := false; f_cache := None; f_default := None; f_protected := None;
  f_discriminate := None; f_resolvers := []; f_directives := [] |}.
Definition tn (n : string) : field := tf (TNamed n false).
Definition tt_ (fs : list (string * field)) (impl : list string) : gtype :=
  {| t_fields := fs; t_added := []; t_doc := None; t_implements := impl; t_cache := None; t_protected := None; t_resolvers := []; t_directives := [] |}.
Definition tc (mutation : option string) (types : list (string * gtype)) : config :=
  {| c_server := empty_server; c_upstream := empty_upstream; c_schema := {| r_query := Some "Query"; r_mutation := mutation; r_subscription := None |};
     c_types := types; c_unions := []; c_enums := []; c_links := []; c_telemetry := empty_telemetry |}.
Definition ready_check (c : config) : bool :=
  osortedb scmp (c_types c) && forallb (fun kt => osortedb scmp (t_fields (snd kt)) && negb (prefix "GEN__M" (fst kt)) && negb (String.eqb (fst kt) "JSON")) (c_types c) &&
  match c_unions c with [] => true | _ => false end.
Lemma ready_checked c : ready_check c = true -> ready c.
Proof.
  unfold ready_check. intros H. apply andb_true_iff in H. destruct H as [H U]. apply andb_true_iff in H. destruct H as [H1 H2]. rewrite forallb_forall in H2.
  assert (Nu : forall n, find_union c n = None) by (intros n; unfold find_union; destruct (c_unions c); [reflexivity|discriminate]).
  assert (Each : forall n t, find_type c n = Some t -> osortedb scmp (t_fields t) = true /\ prefix "GEN__M" n = false /\ n <> "JSON").
  { intros n t F. apply (oget_in scmp scmp_order) in F. specialize (H2 _ F). cbn in H2. apply andb_true_iff in H2. destruct H2 as [H2 H3]. apply andb_true_iff in H2. destruct H2 as [H2 H4].
    split; [exact H2|]. split; [now apply negb_true_iff|]. apply negb_true_iff in H3. now apply String.eqb_neq. }
  split.
  - now apply osortedb_ok; [exact scmp_order|].
  - intros n t F. apply osortedb_ok; [exact scmp_order|]. now apply (Each n t F).
  - destruct (find_type c "JSON") as [t|] eqn:F; [|reflexivity]. destruct (Each _ t F) as (_ & _ & N). congruence.
  - intros n X. now rewrite Nu in X.
  - intros n (r & ->). split; [|apply Nu]. destruct (find_type c _) as [t|] eqn:F; [|reflexivity]. destruct (Each _ t F) as (_ & P & _). exfalso. revert P. clear. cbn.
    destruct r; discriminate.
Qed.
Lemma tidy_checked m ts : osortedb scmp ts = true -> tidy (tc m ts).
Proof.
  intros H. split; [now apply osortedb_ok; [exact scmp_order|]| | |]; try (intros n X; exfalso; now apply X).
  intros n u m' X. discriminate X.
Qed.

(** Users and their authors are alike. *)
Definition books : config :=
  tc None [("Author", tt_ [("id", tf (TNamed "Int" true)); ("name", tn "String")] []);
           ("Book", tt_ [("author", tn "Author"); ("title", tn "String")] []);
           ("Query", tt_ [("book", tn "Book"); ("user", tf (TList (TNamed "User" true) false))] []);
           ("User", tt_ [("id", tn "Int"); ("name", tn "JSON")] [])].
Definition merged_books : config :=
  tc None [("Book", tt_ [("author", tn "GEN__M1"); ("title", tn "String")] []);
           ("GEN__M1", tt_ [("id", tn "Int"); ("name", tn "JSON")] []);
           ("Query", tt_ [("book", tn "Book"); ("user", tf (TList (TNamed "GEN__M1" true) false))] [])].
Example C74_example_result fuel : type_merger (mergeable_types_new (20 + fuel)) exactly books = Some merged_books.
Proof. destruct fuel; vm_compute; reflexivity. Qed.
Example C74_example_round fuel : merge_round (mergeable_types_new (20 + fuel)) exactly 1 books = Some (inr (2%Z, merged_books)).
Proof. destruct fuel; vm_compute; reflexivity. Qed.
Example C74_example_applies : ready books /\ no_scalars books /\ leaf books "User" /\ leaf books "Author" /\ tidy books.
Proof.
  split; [now apply ready_checked|]. split.
  { intros n t F. apply (oget_in scmp scmp_order) in F. cbn in F. repeat (destruct F as [F|F]; [injection F as <- <-; discriminate|]). contradiction. }
  assert (L : forall n t, find_type books n = Some t -> (forall f x, In (f, x) (t_fields t) -> find_type books (type_name (f_type x)) = None /\ prefix "GEN__M" (type_name (f_type x)) = false) -> leaf books n).
  { intros n t F H. split; [congruence|]. intros f x (t' & F' & O). rewrite F in F'. injection F' as <-. apply (oget_in scmp scmp_order) in O. destruct (H f x O) as (A & B). split; [exact A|].
    intros (r & E). rewrite E in B. revert B. clear. cbn. destruct r; discriminate. }
  split; [eapply (L "User"); [reflexivity|]|split; [eapply (L "Author"); [reflexivity|]|now apply tidy_checked]]; intros f x I; cbn in I; repeat (destruct I as [I|I]; [injection I as <- <-; split; reflexivity|]); contradiction.
Qed.

(** ** What does not hold *)
(** Threshold 1.0 does not mean that types are equal up to names: of two fields of the same two
    types only the first pair is compared, and to meet the pair again is to find the types similar. *)
Definition pairs : config :=
  tc None [("A", tt_ [("p", tn "U"); ("q", tn "U")] []); ("B", tt_ [("p", tn "V"); ("q", tn "V")] []);
           ("Query", tt_ [("a", tn "A"); ("b", tn "B")] []);
           ("U", tt_ [("x", tn "Int")] []); ("V", tt_ [("y", tn "Int")] [])].
Theorem C74_paths_refuted : exists c c' path,
  ready c /\ no_scalars c /\ (forall fuel, type_merger (mergeable_types_new (20 + fuel)) exactly c = Some c') /\
  leads_to c "Query" path "Int" /\ find_type c' "Query" <> None /\ forall m before after, path = before ++ after -> leads_to c' "Query" before m -> m <> "JSON" /\ before <> path.
Proof.
  exists pairs, (tc None [("GEN__M1", tt_ [("p", tn "V"); ("q", tn "V")] []); ("Query", tt_ [("a", tn "GEN__M1"); ("b", tn "GEN__M1")] []);
                          ("U", tt_ [("x", tn "Int")] []); ("V", tt_ [("y", tn "Int")] [])]), ["a"; "p"; "x"].
  split; [now apply ready_checked|]. split.
  { intros n t F. apply (oget_in scmp scmp_order) in F. cbn in F. repeat (destruct F as [F|F]; [injection F as <- <-; discriminate|]). contradiction. }
  split; [intros [|fuel]; vm_compute; reflexivity|]. split.
  { exists (tn "A"). split; [eexists; split; reflexivity|]. exists (tn "U"). split; [eexists; split; reflexivity|]. exists (tn "Int"). split; [eexists; split; reflexivity|]. reflexivity. }
  split; [discriminate|]. intros m before after E H.
  assert (Step : forall n f path r, leads_to (tc None [("GEN__M1", tt_ [("p", tn "V"); ("q", tn "V")] []); ("Query", tt_ [("a", tn "GEN__M1"); ("b", tn "GEN__M1")] []);
                          ("U", tt_ [("x", tn "Int")] []); ("V", tt_ [("y", tn "Int")] [])]) n (f :: path) r ->
     exists t x, oget scmp n [("GEN__M1", tt_ [("p", tn "V"); ("q", tn "V")] []); ("Query", tt_ [("a", tn "GEN__M1"); ("b", tn "GEN__M1")] []);
                          ("U", tt_ [("x", tn "Int")] []); ("V", tt_ [("y", tn "Int")] [])] = Some t /\ oget scmp f (t_fields t) = Some x /\
      leads_to (tc None [("GEN__M1", tt_ [("p", tn "V"); ("q", tn "V")] []); ("Query", tt_ [("a", tn "GEN__M1"); ("b", tn "GEN__M1")] []);
                          ("U", tt_ [("x", tn "Int")] []); ("V", tt_ [("y", tn "Int")] [])]) (type_name (f_type x)) path r).
  { intros n f path r (x & (t & F & O) & L). exists t, x. auto. }
  destruct before as [|f1 before]; [cbn in H; subst m; split; discriminate|]. injection E as <- E. apply Step in H. destruct H as (t & x & F & O & H). injection F as <-. injection O as <-. cbn [tn tf f_type type_name] in H.
  destruct before as [|f2 before]; [cbn in H; subst m; split; discriminate|]. injection E as <- E. apply Step in H. destruct H as (t & x & F & O & H). injection F as <-. injection O as <-. cbn [tn tf f_type type_name] in H.
  destruct before as [|f3 before]; [cbn in H; subst m; split; discriminate|]. injection E as <- E. apply Step in H. destruct H as (t & x & F & O & H). injection F as <-. discriminate O.
Qed.
Print Assumptions C74_paths_refuted.

(** An interface is merged with one that implements it; it then implements itself, and the next
    walk through the interfaces does not end. *)
Definition nodes : config :=
  tc None [("Entity", tt_ [("id", tn "Int")] ["Node"]); ("Item", tt_ [("id", tn "Int"); ("name", tn "String")] ["Entity"; "Node"]);
           ("Node", tt_ [("id", tn "Int")] []); ("Query", tt_ [("item", tn "Item")] [])].
Theorem C74_ends_refuted : exists c, ready c /\ tidy c /\ acyclic_implements c /\
  (exists fuel m, mergeable_types_new fuel c = Some m) /\ forall fuel, type_merger (mergeable_types_new fuel) exactly c = None.
Proof.
  exists nodes. split; [now apply ready_checked|]. split; [now apply tidy_checked|].
  split. { assert (E : exists m, interfaces_types_map 9 nodes = Some m) by (eexists; vm_compute; reflexivity). destruct E as (m & E). eapply interfaces_map_acyclic; exact E. }
  split; [exists 20; eexists; vm_compute; reflexivity|].
  intros fuel. unfold type_merger. cbn [length nodes tc c_types]. 
  assert (First : mergeable_types_new fuel nodes = None \/ exists k c1 t1, merge_round (mergeable_types_new fuel) exactly 1 nodes = Some (inr (k, c1)) /\ In ("GEN__M1", t1) (c_types c1) /\ In "GEN__M1" (t_implements t1)).
  { do 12 (destruct fuel as [|fuel]; [first [left; vm_compute; reflexivity|right; do 3 eexists; split; [vm_compute; reflexivity|]; split; [cbn; now left|cbn; now left]]|]).
    right. do 3 eexists. split; [cbv -[Z_to_string]; reflexivity|]. split; [cbn; now left|cbn; now left]. }
  destruct First as [N|(k & c1 & t1 & R & I1 & I2)].
  - cbn [merger]. unfold merge_round. change (tc None _) with nodes. now rewrite N.
  - assert (N : mergeable_types_new fuel c1 = None).
    { unfold mergeable_types_new. destruct (input_types fuel c1); [|reflexivity]. destruct (output_types fuel c1); [|reflexivity]. destruct (interfaces_types_map fuel c1) as [m|] eqn:E; [|reflexivity].
      exfalso. apply (interfaces_map_acyclic _ _ _ E "GEN__M1"). apply I_direct. exists t1. auto. }
    change (merger 5 (mergeable_types_new fuel) exactly 1 nodes = None). cbn [merger]. rewrite R. unfold merge_round. now rewrite N.
Qed.
Print Assumptions C74_ends_refuted.

(** The root types are merged like others; the schema goes on naming what is gone. *)
Theorem C74_roots_refuted : exists c c', ready c /\ (forall fuel, type_merger (mergeable_types_new (20 + fuel)) exactly c = Some c') /\
  r_query (c_schema c) = r_query (c_schema c') /\ (exists q, r_query (c_schema c) = Some q /\ find_type c q <> None /\ find_type c' q = None).
Proof.
  exists (tc (Some "Mutation") [("Mutation", tt_ [("id", tn "Int")] []); ("Query", tt_ [("id", tn "Int")] [])]), (tc (Some "Mutation") [("GEN__M1", tt_ [("id", tn "Int")] [])]).
  split; [now apply ready_checked|]. split; [intros [|fuel]; vm_compute; reflexivity|]. split; [reflexivity|]. exists "Query". split; [reflexivity|]. split; [discriminate|reflexivity].
Qed.
Print Assumptions C74_roots_refuted.

(** A field that is protected, or required, in one type, and not in the other, may be neither. *)
Definition secret (x : field) : field :=
  {| f_type := f_type x; f_args := f_args x; f_doc := f_doc x; f_modify := f_modify x; f_omit := f_omit x; f_cache := f_cache x; f_default := f_default x;
     f_protected := Some {| prot_id := None |}; f_discriminate := f_discriminate x; f_resolvers := f_resolvers x; f_directives := f_directives x |}.
Definition vault : config :=
  tc None [("Account", tt_ [("balance", secret (tf (TNamed "Int" true)))] []); ("Offer", tt_ [("balance", tn "Int")] []);
           ("Query", tt_ [("account", tn "Account"); ("offer", tn "Offer")] [])].
Theorem C74_protection_refuted : exists c c' n, ready c /\ (forall fuel, type_merger (mergeable_types_new (20 + fuel)) exactly c = Some c') /\
  leads_to c "Query" ["account"] n /\ (exists x, has_field c n "balance" x /\ f_protected x <> None /\ is_nullable (f_type x) = false) /\
  forall n', leads_to c' "Query" ["account"] n' -> exists x, has_field c' n' "balance" x /\ f_protected x = None /\ is_nullable (f_type x) = true.
Proof.
  exists vault, (tc None [("GEN__M1", tt_ [("balance", tn "Int")] []); ("Query", tt_ [("account", tn "GEN__M1"); ("offer", tn "GEN__M1")] [])]), "Account".
  split; [now apply ready_checked|]. split; [intros [|fuel]; vm_compute; reflexivity|].
  split; [exists (tn "Account"); split; [eexists; split; reflexivity|reflexivity]|].
  split; [eexists; split; [eexists; split; reflexivity|]; split; [discriminate|reflexivity]|].
  intros n' (x & (t & F & O) & ->). injection F as <-. injection O as <-. exists (tn "Int"). split; [eexists; split; reflexivity|]. split; reflexivity.
Qed.
Print Assumptions C74_protection_refuted.

(** A type that has the name of the first merged type is replaced by it. *)
Definition taken : config :=
  tc None [("A", tt_ [("x", tn "Int")] []); ("B", tt_ [("x", tn "Int")] []); ("GEN__M1", tt_ [("y", tn "Int"); ("z", tn "Int")] []);
           ("Query", tt_ [("a", tn "A"); ("b", tn "B"); ("g", tn "GEN__M1")] [])].
Theorem C74_fresh_names_refuted : exists c c', (forall fuel, type_merger (mergeable_types_new (20 + fuel)) exactly c = Some c') /\ osorted scmp (c_types c) /\
  leads_to c "Query" ["g"; "y"] "Int" /\ find_type c' "Query" <> None /\ ~ exists m, leads_to c' "Query" ["g"; "y"] m.
Proof.
  exists taken, (tc None [("GEN__M1", tt_ [("x", tn "Int")] []); ("Query", tt_ [("a", tn "GEN__M1"); ("b", tn "GEN__M1"); ("g", tn "GEN__M1")] [])]).
  split; [intros [|fuel]; vm_compute; reflexivity|]. split; [now apply osortedb_ok; [exact scmp_order|]|]. split.
  { exists (tn "GEN__M1"). split; [eexists; split; reflexivity|]. exists (tn "Int"). split; [eexists; split; reflexivity|reflexivity]. }
  split; [discriminate|]. intros (m & x & (t & F & O) & y & (u & F' & O') & _). injection F as <-. injection O as <-. injection F' as <-. discriminate O'.
Qed.
Print Assumptions C74_fresh_names_refuted.

(** The resolvers of a type are lost when it is merged. *)
Definition fetched : config :=
  tc None [("A", {| t_fields := [("x", tn "Int")]; t_added := []; t_doc := None; t_implements := []; t_cache := None; t_protected := None; t_resolvers := [RHttp [] "/a"]; t_directives := [] |});
           ("B", tt_ [("x", tn "Int")] []); ("Query", tt_ [("a", tn "A"); ("b", tn "B")] [])].
Theorem C74_resolvers_refuted : exists c c', ready c /\ (forall fuel, type_merger (mergeable_types_new (20 + fuel)) exactly c = Some c') /\
  (exists n t, find_type c n = Some t /\ t_resolvers t <> []) /\ forall n t, find_type c' n = Some t -> t_resolvers t = [].
Proof.
  exists fetched, (tc None [("GEN__M1", tt_ [("x", tn "Int")] []); ("Query", tt_ [("a", tn "GEN__M1"); ("b", tn "GEN__M1")] [])]).
  split; [now apply ready_checked|]. split; [intros [|fuel]; vm_compute; reflexivity|]. split; [exists "A"; eexists; split; [reflexivity|discriminate]|].
  intros n t F. apply (oget_in scmp scmp_order) in F. cbn in F. repeat (destruct F as [F|F]; [injection F as <- <-; reflexivity|]). contradiction.
Qed.
Print Assumptions C74_resolvers_refuted.
