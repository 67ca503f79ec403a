(** C36: a type used both as input and as output is split. *)
From Coq Require Import String Ascii ZArith NArith Bool Arith List Permutation.
From Verif Require Import Base Ordered OrderedFacts JsonModel TypeModel BuilderModel ConfigModel RenameSpec AmbModel AmbSpec AmbProofs.
Import ListNotations.
Open Scope string_scope.
Open Scope list_scope.

Definition arg36 (ty : string) : arg := {| arg_type := TNamed ty false; arg_doc := None; arg_modify := None; arg_default := None |}.
Definition field36 (ty : typ) (args : list (string * arg)) : field :=
  {| f_type := ty; f_args := args; f_doc := None; f_modify := None; f_omit := false; f_cache := None; f_default := None;
     f_protected := None; f_discriminate := None; f_resolvers := []; f_directives := [] |}.
Definition type36 (fs : list (string * field)) (impl : list string) : gtype :=
  {| t_fields := fs; t_added := []; t_doc := None; t_implements := impl; t_cache := None; t_protected := None; t_resolvers := []; t_directives := [] |}.
Definition config36 (types : list (string * gtype)) (enums : list (string * genum)) : config :=
  {| c_server := empty_server; c_upstream := empty_upstream;
     c_schema := {| r_query := Some "Query"; r_mutation := None; r_subscription := None |};
     c_types := types; c_unions := []; c_enums := enums; c_links := []; c_telemetry := empty_telemetry |}.
Definition kind36 : genum := {| e_variants := [("A", None)]; e_doc := None |}.

(** [User] is sent and received, and is recursive through [Post]; [Where] is only sent. *)
Definition app36 : config := config36
  [ ("Post", type36 [("author", field36 (TNamed "User" true) []); ("kind", field36 (TNamed "Kind" false) [])] []);
    ("Query", type36 [("users", field36 (TList (TNamed "User" false) false) [("kind", arg36 "Kind"); ("like", arg36 "User"); ("where", arg36 "Where")])] []);
    ("User", type36 [("name", field36 (TNamed "String" false) []); ("posts", field36 (TList (TNamed "Post" true) true) [("like", arg36 "Post")])] []);
    ("Where", type36 [("user", field36 (TNamed "User" false) [])] []) ]
  [ ("Kind", kind36) ].

Example app36_tidy : tidy app36.
Proof.
  split.
  - apply osortedb_ok; [exact scmp_order|vm_compute; reflexivity].
  - intros n H. exfalso. apply H. reflexivity.
  - intros n. unfold find_enum. cbn. destruct (String.compare n "Kind") eqn:E; try congruence. intros _.
    apply (to_eq _ scmp_order) in E. subst. reflexivity.
  - intros n u m H. discriminate H.
Qed.
Example app36_fresh : inputs_fresh app36.
Proof. apply fresh_check. vm_compute. reflexivity. Qed.
Example app36_no_unions : no_union_inputs app36.
Proof. intros n _. reflexivity. Qed.
Example app36_no_enums_inside : no_enum_arguments_inside app36.
Proof.
  intros n t fn f an a Ui _ F J K. apply input_mentioned in Ui. apply oget_in in F; [|exact scmp_order]. cbn in Ui, F.
  repeat (destruct F as [F|F]; [injection F as <- <-; cbn in J; repeat (destruct J as [J|J]; [injection J as <- <-; cbn in K;
     repeat (destruct K as [K|K]; [injection K as <- <-; try reflexivity|]); try destruct K|]); try destruct J|]); try destruct F;
  repeat (destruct Ui as [Ui|Ui]; [discriminate Ui|]); destruct Ui.
Qed.
Definition split36 : config := config36
  [ ("Post", type36 [("author", field36 (TNamed "User" true) []); ("kind", field36 (TNamed "Kind" false) [])] []);
    ("PostInput", type36 [("author", field36 (TNamed "UserInput" true) []); ("kind", field36 (TNamed "Kind" false) [])] []);
    ("Query", type36 [("users", field36 (TList (TNamed "User" false) false) [("kind", arg36 "Kind"); ("like", arg36 "UserInput"); ("where", arg36 "Where")])] []);
    ("User", type36 [("name", field36 (TNamed "String" false) []); ("posts", field36 (TList (TNamed "Post" true) true) [("like", arg36 "PostInput")])] []);
    ("UserInput", type36 [("name", field36 (TNamed "String" false) []); ("posts", field36 (TList (TNamed "PostInput" true) true) [("like", arg36 "PostInput")])] []);
    ("Where", type36 [("user", field36 (TNamed "UserInput" false) [])] []) ]
  [ ("Kind", kind36) ].
Example app36_split : resolve_ambiguous (@rev string) (walk_fuel app36) app36 = Some split36.
Proof. vm_compute. reflexivity. Qed.
Example rev_rearranges : rearranges (@rev string).
Proof. intros l. apply Permutation_rev. Qed.

(** The two walks end and find exactly the object types used as inputs and as outputs,
    whatever cycles there are. *)
Theorem C36_uses_found : forall c, tidy c -> exists inputs outputs,
  input_types (walk_fuel c) c = Some inputs /\ output_types (walk_fuel c) c = Some outputs /\
  forall n, object_type c n -> (In n inputs <-> InputUse c n) /\ (In n outputs <-> OutputUse c n).
Proof.
  intros c T. assert (D : forall n, find_union c n <> None -> find_type c n = None) by (intros n H; apply (ti_union c T n H)).
  destruct (roots_end c D (ti_flat c T) (map (fun a => type_name (arg_type a)) (filter (fun a => negb (is_scalar c (type_name (arg_type a)))) (arguments c))) []) as (I & EI).
  destruct (roots_end c D (ti_flat c T) (opt_list (r_query (c_schema c)) ++ opt_list (r_mutation (c_schema c))) []) as (O & EO).
  exists I, O. split; [exact EI|]. split; [exact EO|].
  destruct (input_types_ok c T _ _ EI) as [I1 I2]. destruct (output_types_ok c T _ _ EO) as [O1 O2].
  intros n Ob. split; split; intros H; first [apply I1; exact H|apply O1; exact H|apply I2; [left; exact Ob|exact H]|apply O2; [left; exact Ob|exact H]].
Qed.
Print Assumptions C36_uses_found.

(** After the pass no object type is used both as an input and as an output. *)
Theorem C36_no_type_on_both_sides : forall order c c',
  rearranges order -> tidy c -> inputs_fresh c -> no_union_inputs c -> no_enum_arguments_inside c ->
  resolve_ambiguous order (walk_fuel c) c = Some c' ->
  forall n, object_type c' n -> InputUse c' n -> OutputUse c' n -> False.
Proof.
  intros order c c' R T Fr NU NE E. destruct (C36_uses_found c T) as (I & O & EI & EO & _).
  exact (disjoint c c' order (walk_fuel c) T R Fr NU NE I O EI EO E).
Qed.
Print Assumptions C36_no_type_on_both_sides.
Example both_sides_before : InputUse app36 "User" /\ OutputUse app36 "User" /\ object_type app36 "User".
Proof.
  refine (conj _ (conj _ _)).
  - apply InputUse_arg. exists "Query". do 5 eexists. split; [reflexivity|]. split; [left; reflexivity|]. split; [right; left; reflexivity|reflexivity].
  - apply OutputUse_inside with "Query"; [now apply OutputUse_query|].
    apply (Holds_field app36 "Query" _ "users" (field36 (TList (TNamed "User" false) false) [("kind", arg36 "Kind"); ("like", arg36 "User"); ("where", arg36 "Where")]) eq_refl).
    now left.
  - eexists. split; [reflexivity|discriminate].
Qed.

(** The pass always ends with a configuration, and what clients are sent does not change:
    the same types are outputs, under the same names, with fields of the same types. *)
Theorem C36_outputs_unchanged : forall order c,
  rearranges order -> tidy c -> inputs_fresh c -> no_union_inputs c -> no_enum_arguments_inside c ->
  exists c', resolve_ambiguous order (walk_fuel c) c = Some c' /\
    c_schema c' = c_schema c /\ c_enums c' = c_enums c /\ c_unions c' = c_unions c /\
    (forall n, OutputUse c' n <-> OutputUse c n) /\
    (forall n t, OutputUse c n -> find_type c n = Some t -> exists t', find_type c' n = Some t' /\
       same_entries (fun f f' => f_type f' = f_type f /\ f_resolvers f' = f_resolvers f) (t_fields t) (t_fields t')).
Proof.
  intros order c R T Fr NU NE. destruct (C36_uses_found c T) as (I & O & EI & EO & _).
  destruct (resolve_ambiguous order (walk_fuel c) c) as [c'|] eqn:E; [|unfold resolve_ambiguous in E; rewrite EI, EO in E; discriminate].
  exists c'. split; [reflexivity|].
  assert (Q := result_eq c c' order _ I O EI EO E). split; [now rewrite Q|]. split; [now rewrite Q|]. split; [now rewrite Q|].
  split; [exact (output_uses c c' order _ T R Fr NU NE I O EI EO E)|].
  intros n t U F. eexists. split; [exact (type_old c c' order _ T R Fr NU NE I O EI EO E n t F)|].
  assert (X : forall fn f, In (fn, f) (t_fields t) -> point_type (keys c order I O) (ss_inputs (final c order I O)) (ss_outputs (final c order I O)) n (f_type f) = f_type f)
    by (intros fn f J; exact (output_field c order _ T R Fr NU NE I O EI EO n t fn f U F J)).
  cbn [t_fields point_gtype]. revert X. generalize (t_fields t) as fs. induction fs as [|[fn f] fs IH]; intros X; constructor.
  - cbn. split; [reflexivity|]. split; [exact (X fn f (or_introl eq_refl))|reflexivity].
  - apply IH. intros fn' f' J. exact (X fn' f' (or_intror J)).
Qed.
Print Assumptions C36_outputs_unchanged.

(** Every definition is an old one or a copy of an old one with the same shape: the same
    fields and arguments with the same wrappers, over the same types or their input
    copies; no definition is lost; and references still resolve. *)
Theorem C36_same_shapes : forall order c c',
  rearranges order -> tidy c -> inputs_fresh c -> no_union_inputs c -> no_enum_arguments_inside c ->
  resolve_ambiguous order (walk_fuel c) c = Some c' ->
  (forall n' t', find_type c' n' = Some t' -> exists n t, copy_of c n n' /\ find_type c n = Some t /\ gtype_copy c t t') /\
  (forall n t, find_type c n = Some t -> exists t', find_type c' n = Some t' /\ gtype_copy c t t') /\
  (forall m, Mentioned c' m -> defined c' m \/ (Mentioned c m /\ ~ defined c m)).
Proof.
  intros order c c' R T Fr NU NE E. destruct (C36_uses_found c T) as (I & O & EI & EO & _). refine (conj _ (conj _ _)).
  - intros n' t' F. destruct (type_from c c' order _ T R Fr NU NE I O EI EO E n' t' F) as (k & t & A & -> & X).
    exists k, t. split; [|split; [exact A|exact (point_copy c order _ T R NU NE I O EI EO n' t)]].
    destruct X as [->|[-> K]]; [now left|]. right. split; [reflexivity|congruence].
  - intros n t F. eexists. split; [exact (type_old c c' order _ T R Fr NU NE I O EI EO E n t F)|exact (point_copy c order _ T R NU NE I O EI EO n t)].
  - intros m M. destruct (mentioned_kept c c' order _ T R Fr NU NE I O EI EO E m M) as [H|H]; [|now left].
    destruct (find_type c m) eqn:A; [left; apply (defined_kept c c' order _ T R Fr NU NE I O EI EO E); left; congruence|].
    destruct (find_enum c m) eqn:B; [left; apply (defined_kept c c' order _ T R Fr NU NE I O EI EO E); right; left; congruence|].
    destruct (find_union c m) eqn:C; [left; apply (defined_kept c c' order _ T R Fr NU NE I O EI EO E); right; right; congruence|].
    right. split; [exact H|]. intros [D|[D|D]]; congruence.
Qed.
Print Assumptions C36_same_shapes.

(** Where the code breaks the property. *)

(** An enum that is the type of an argument inside an ambiguous type, and of some output,
    is renamed in that argument to an enum that does not exist. *)
Definition enum36 : config := config36
  [ ("Query", type36 [("user", field36 (TNamed "User" false) [("like", arg36 "User")])] []);
    ("User", type36 [("kind", field36 (TNamed "Kind" false) []); ("posts", field36 (TNamed "Int" false) [("kind", arg36 "Kind")])] []) ]
  [ ("Kind", kind36) ].
Theorem C36_enum_arguments_refuted : exists c c' m,
  tidy c /\ inputs_fresh c /\ no_union_inputs c /\ resolve_ambiguous (fun l => l) (walk_fuel c) c = Some c' /\
  (forall x, Mentioned c x -> defined c x \/ is_predefined x = true) /\
  Mentioned c' m /\ ~ defined c' m /\ is_predefined m = false.
Proof.
  exists enum36. eexists. exists "KindInput". split.
  { split.
    - apply osortedb_ok; [exact scmp_order|vm_compute; reflexivity].
    - intros n H. exfalso. apply H. reflexivity.
    - intros n. unfold find_enum. cbn. destruct (String.compare n "Kind") eqn:E; try congruence. intros _.
      apply (to_eq _ scmp_order) in E. subst. reflexivity.
    - intros n u m H. discriminate H. }
  split; [apply fresh_check; vm_compute; reflexivity|]. split; [intros n _; reflexivity|].
  split; [vm_compute; reflexivity|]. split.
  { intros x M. assert (J : In x (mentions enum36)).
    { destruct M as [(n & H)|H]; [exact (held_mentioned _ _ _ H)|exact (argument_mentioned _ _ H)]. }
    vm_compute in J. repeat (destruct J as [<-|J]; [first [right; reflexivity|left; left; discriminate|left; right; left; discriminate]|]). destruct J. }
  split; [|split; [intros [H|[H|H]]; apply H; reflexivity|reflexivity]].
  right. exists "User". do 5 eexists. split; [reflexivity|]. split; [right; left; reflexivity|]. split; [left; reflexivity|reflexivity].
Qed.
Print Assumptions C36_enum_arguments_refuted.

(** A type that already has the name of the copy is overwritten. *)
Definition taken36 : config := config36
  [ ("Query", type36 [("user", field36 (TNamed "User" false) [("like", arg36 "User"); ("new", arg36 "UserInput")])] []);
    ("User", type36 [("name", field36 (TNamed "String" false) [])] []);
    ("UserInput", type36 [("email", field36 (TNamed "String" true) [])] []) ] [].
Theorem C36_existing_input_type_refuted : exists c c' n t t',
  tidy c /\ no_union_inputs c /\ no_enum_arguments_inside c /\ resolve_ambiguous (fun l => l) (walk_fuel c) c = Some c' /\
  find_type c n = Some t /\ InputUse c n /\ ~ OutputUse c n /\ find_type c' n = Some t' /\ map fst (t_fields t') <> map fst (t_fields t).
Proof.
  exists taken36. eexists. exists "UserInput". do 2 eexists. split.
  { split.
    - apply osortedb_ok; [exact scmp_order|vm_compute; reflexivity].
    - intros n H. exfalso. apply H. reflexivity.
    - intros n H. exfalso. apply H. reflexivity.
    - intros n u m H. discriminate H. }
  split; [intros n _; reflexivity|]. split; [intros n t fn f an a _ _ _ _ _; reflexivity|].
  split; [vm_compute; reflexivity|]. split; [reflexivity|]. split.
  { apply InputUse_arg. exists "Query". do 5 eexists. split; [reflexivity|]. split; [left; reflexivity|]. split; [right; left; reflexivity|reflexivity]. }
  split.
  { intros U. enough (X : forall n, OutputUse taken36 n -> n = "Query" \/ n = "User" \/ n = "String").
    { apply X in U as [U|[U|U]]; discriminate. }
    clear. intros n U. induction U as [n Q|n Q|n m U IH H].
    - injection Q as <-. auto.
    - discriminate.
    - destruct IH as [->|[->| ->]]; inversion H as [? u ? A B|? t fn f A B]; subst; try discriminate; injection A as <-; cbn in B;
        destruct B as [B|[]]; injection B as <- <-; cbn; auto. }
  split; [reflexivity|]. discriminate.
Qed.
Print Assumptions C36_existing_input_type_refuted.

(** A type sent to clients only as an implementation of an interface is not seen as an
    output: it stays both. *)
Definition iface36 : config := config36
  [ ("Node", type36 [("id", field36 (TNamed "ID" false) [])] []);
    ("Query", type36 [("node", field36 (TNamed "Node" false) [("like", arg36 "User")])] []);
    ("User", type36 [("id", field36 (TNamed "ID" false) [])] ["Node"]) ] [].
Theorem C36_interface_implementers_refuted : exists c c' n t,
  tidy c /\ inputs_fresh c /\ no_union_inputs c /\ no_enum_arguments_inside c /\
  resolve_ambiguous (fun l => l) (walk_fuel c) c = Some c' /\ c' = c /\
  InputUse c' n /\ find_type c' n = Some t /\ (exists i, In i (t_implements t) /\ OutputUse c' i).
Proof.
  exists iface36, iface36, "User". eexists. split.
  { split.
    - apply osortedb_ok; [exact scmp_order|vm_compute; reflexivity].
    - intros n H. exfalso. apply H. reflexivity.
    - intros n H. exfalso. apply H. reflexivity.
    - intros n u m H. discriminate H. }
  split; [apply fresh_check; vm_compute; reflexivity|]. split; [intros n _; reflexivity|].
  split; [intros n t fn f an a _ _ _ _ _; reflexivity|]. split; [vm_compute; reflexivity|]. split; [reflexivity|].
  split; [|split; [reflexivity|]].
  - apply InputUse_arg. exists "Query". do 5 eexists. split; [reflexivity|]. split; [left; reflexivity|]. split; [left; reflexivity|reflexivity].
  - exists "Node". split; [left; reflexivity|]. apply OutputUse_inside with "Query"; [now apply OutputUse_query|].
    apply (Holds_field iface36 "Query" _ "node" (field36 (TNamed "Node" false) [("like", arg36 "User")]) eq_refl). now left.
Qed.
Print Assumptions C36_interface_implementers_refuted.
