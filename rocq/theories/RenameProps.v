(** C37: renaming types. *)
From Coq Require Import String Ascii ZArith NArith Bool List.
From Verif Require Import Base BaseFacts Ordered OrderedFacts JsonModel TypeModel ConfigModel
  RenameModel RenameSpec RenameProofs.
Import ListNotations.
Open Scope string_scope.
Open Scope list_scope.

(** With names that do not clash, the renamed configuration is the old one with
    every definition and every reference under its new name. *)
Theorem C37_renaming_is_consistent_partial : forall names c c',
  fresh_names names c -> proper_roots c ->
  rename_types names c = Ok c' -> consistently_renamed names c c'.
Proof. exact (fun names c c' F P => proj2 (rename_main names c F P) c'). Qed.
Print Assumptions C37_renaming_is_consistent_partial.

(** It fails exactly when a name to change does not exist. *)
Theorem C37_fails_only_on_missing_names : forall names c,
  fresh_names names c -> proper_roots c ->
  ((exists c', rename_types names c = Ok c') <-> forall k, In k (map fst names) -> defined c k).
Proof. exact (fun names c F P => proj1 (rename_main names c F P)). Qed.
Print Assumptions C37_fails_only_on_missing_names.

Definition fld (t : typ) : field :=
  {| f_type := t; f_args := []; f_doc := None; f_modify := None; f_omit := false; f_cache := None;
     f_default := None; f_protected := None; f_discriminate := None; f_resolvers := [];
     f_directives := [] |}.
Definition obj (fs : list (string * field)) : gtype :=
  {| t_fields := fs; t_added := []; t_doc := None; t_implements := []; t_cache := None;
     t_protected := None; t_resolvers := []; t_directives := [] |}.
Definition named (n : string) : typ := TNamed n false.
Definition conf (q m s : option string) (types : list (string * gtype))
  (unions : list (string * gunion)) : config :=
  {| c_server := empty_server; c_upstream := empty_upstream;
     c_schema := {| r_query := q; r_mutation := m; r_subscription := s |};
     c_types := types; c_unions := unions; c_enums := []; c_links := [];
     c_telemetry := empty_telemetry |}.

Definition small : config :=
  conf (Some "Q") None None
    [("Q", obj [("all", fld (TList (named "U") true))]); ("T", obj [("id", fld (named "Int"))])]
    [("U", {| u_types := ["T"]; u_doc := None |})].
Definition small_names : list (string * string) := [("T", "Thing"); ("Q", "Query"); ("U", "Union")].

Example C37_instance :
  fresh_names small_names small /\ proper_roots small /\
  rename_types small_names small = Ok
    (conf (Some "Query") None None
       [("Query", obj [("all", fld (TList (named "Union") true))]);
        ("Thing", obj [("id", fld (named "Int"))])]
       [("Union", {| u_types := ["Thing"]; u_doc := None |})]).
Proof.
  assert (ND : forall a b c : string, a <> b -> a <> c -> b <> c -> NoDup [a; b; c]).
  { intros a b c A B C. constructor; [intros [I|[I|[]]]; congruence|].
    constructor; [intros [I|[]]; congruence|]. constructor; [intros []|constructor]. }
  split; [|split; [|vm_compute; reflexivity]].
  - split.
    + apply ND; discriminate.
    + apply ND; discriminate.
    + intros v [<-|[<-|[<-|[]]]] [D|[D|D]]; apply D; reflexivity.
    + intros v [<-|[<-|[<-|[]]]] I; cbn in I; intuition discriminate.
  - split; cbn.
    + intros q E. injection E as <-. discriminate.
    + discriminate.
    + discriminate.
Qed.

(** Without those hypotheses it is not consistent.  Renaming to a name in use
    silently drops a definition. *)
Theorem C37_clash_drops_a_type_refuted : exists names c c' n,
  NoDup (map fst names) /\ find_type c n <> None /\
  rename_types names c = Ok c' /\
  ~ exists x', find_type c' (new_name names n) = Some x' /\
      exists x, find_type c n = Some x /\ renamed_gtype names x x'.
Proof.
  exists [("A", "B")], (conf None None None
    [("A", obj [("a", fld (named "Int"))]); ("B", obj [])] []).
  eexists. exists "B". split; [constructor; [intros []|constructor]|].
  split; [discriminate|]. split; [vm_compute; reflexivity|].
  intros [x' [E [x [E2 R]]]]. vm_compute in E, E2. injection E as <-. injection E2 as <-.
  destruct R as [R _]. inversion R.
Qed.
Print Assumptions C37_clash_drops_a_type_refuted.

(** The subscription root keeps the old name. *)
Theorem C37_subscription_root_refuted : exists names c c',
  fresh_names names c /\ proper_roots c /\ rename_types names c = Ok c' /\
  r_subscription (c_schema c') <> option_map (new_name names) (r_subscription (c_schema c)).
Proof.
  exists [("S", "Sub")], (conf None None (Some "S") [("S", obj [])] []). eexists.
  split; [|split; [|split; [vm_compute; reflexivity|discriminate]]].
  - split.
    + constructor; [intros []|constructor].
    + constructor; [intros []|constructor].
    + intros v [<-|[]] [D|[D|D]]; apply D; reflexivity.
    + intros v [<-|[]] I; cbn in I; intuition discriminate.
  - split; discriminate.
Qed.
Print Assumptions C37_subscription_root_refuted.

(** When query and mutation share a root, only the query root is renamed. *)
Theorem C37_shared_root_refuted : exists names c c',
  fresh_names names c /\ rename_types names c = Ok c' /\
  r_mutation (c_schema c') <> option_map (new_name names) (r_mutation (c_schema c)).
Proof.
  exists [("R", "Root")], (conf (Some "R") (Some "R") None [("R", obj [])] []). eexists.
  split; [|split; [vm_compute; reflexivity|discriminate]].
  split.
  - constructor; [intros []|constructor].
  - constructor; [intros []|constructor].
  - intros v [<-|[]] [D|[D|D]]; apply D; reflexivity.
  - intros v [<-|[]] I; cbn in I; intuition discriminate.
Qed.
Print Assumptions C37_shared_root_refuted.

(** Members of a union are renamed twice: with a chain of renames [C -> D],
    [B -> C] a member [B] ends as [D] while the type [B] is now [C]. *)
Theorem C37_chained_union_member_refuted : exists names c c' n u u',
  NoDup (map fst names) /\ rename_types names c = Ok c' /\
  find_union c n = Some u /\ find_union c' n = Some u' /\
  ~ renamed_set names (u_types u) (u_types u').
Proof.
  exists [("C", "D"); ("B", "C")], (conf None None None [("B", obj []); ("C", obj [])]
    [("U", {| u_types := ["B"]; u_doc := None |})]).
  eexists. exists "U". eexists. eexists.
  split; [constructor; [intros [I|[]]; discriminate|constructor; [intros []|constructor]]|].
  split; [vm_compute; reflexivity|]. split; [reflexivity|]. split; [reflexivity|].
  intros [_ H]. destruct (proj1 (H "D") (or_introl eq_refl)) as [n [I E]].
  destruct I as [<-|[]]. discriminate.
Qed.
Print Assumptions C37_chained_union_member_refuted.
