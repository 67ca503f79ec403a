(** C21, C22 and C49: merging the configurations of several subgraphs. *)
From Coq Require Import String Ascii ZArith NArith Bool Arith List.
From Verif Require Import Base Ordered OrderedFacts JsonModel TypeModel TypeSpec BuilderModel ConfigModel RenameSpec AmbModel AmbSpec FedModel FedSpec FedProofs FedCheck FedKeep FedMembers.
Import ListNotations.
Open Scope string_scope.
Open Scope list_scope.

Definition arg21 (ty : typ) : arg := {| arg_type := ty; arg_doc := None; arg_modify := None; arg_default := None |}.
Definition field21 (ty : typ) (args : list (string * arg)) : field :=
  {| f_type := ty; f_args := args; f_doc := None; f_modify := None; f_omit := false; f_cache := None; f_default := None;
     f_protected := None; f_discriminate := None; f_resolvers := []; f_directives := [] |}.
Definition type21 (impl : list string) (fs : list (string * field)) : gtype :=
  {| t_fields := fs; t_added := []; t_doc := None; t_implements := impl; t_cache := None; t_protected := None; t_resolvers := []; t_directives := [] |}.
Definition enum21 (l : list variant) : genum := {| e_variants := l; e_doc := None |}.
Definition config21 (query : string) (types : list (string * gtype)) (enums : list (string * genum)) : config :=
  {| c_server := empty_server; c_upstream := empty_upstream;
     c_schema := {| r_query := Some query; r_mutation := None; r_subscription := None |};
     c_types := types; c_unions := []; c_enums := enums; c_links := []; c_telemetry := empty_telemetry |}.
Definition opt (n : string) : typ := TNamed n false.
Definition req (n : string) : typ := TNamed n true.
Definition plain (ty : typ) : field := field21 ty [].
Definition any : string -> value -> Prop := fun _ _ => True.

(** Three subgraphs.  The first two know users and filter them; an interface is only in
    the first. *)
Definition a21 : config := config21 "Query"
  [ ("Filter", type21 [] [("age", plain (req "Int")); ("name", plain (opt "String"))]);
    ("Node", type21 [] [("id", plain (req "ID"))]);
    ("Query", type21 [] [("node", field21 (opt "Node") [("id", arg21 (req "ID"))]);
                         ("users", field21 (TList (req "User") true) [("filter", arg21 (opt "Filter")); ("kind", arg21 (opt "Kind"))])]);
    ("User", type21 ["Node"] [("id", plain (req "ID")); ("mood", plain (opt "Mood")); ("name", plain (req "String"))]) ]
  [ ("Kind", enum21 [("A", None); ("B", None)]); ("Mood", enum21 [("HAPPY", None)]) ].
Definition b21 : config := config21 "Query"
  [ ("Filter", type21 [] [("age", plain (opt "Int")); ("city", plain (opt "String")); ("name", plain (opt "String"))]);
    ("Query", type21 [] [("users", field21 (TList (opt "User") true) [("filter", arg21 (req "Filter")); ("kind", arg21 (opt "Kind")); ("page", arg21 (opt "Int"))])]);
    ("User", type21 [] [("id", plain (req "ID")); ("mood", plain (opt "Mood")); ("name", plain (opt "String")); ("posts", plain (TList (req "String") true))]) ]
  [ ("Kind", enum21 [("B", None); ("C", None)]); ("Mood", enum21 [("SAD", None)]) ].
Definition c21 : config := config21 "Query" [ ("Query", type21 [] [("version", plain (req "String"))]) ] [].

Definition cache21 (c : config) : cache :=
  match cache_of (walk_fuel c) c with Some k => k | None => {| k_config := c; k_inputs := []; k_outputs := []; k_interfaces := [] |} end.
Definition merged21 : config := config21 "Query"
  [ ("Filter", type21 [] [("age", plain (req "Int")); ("name", plain (opt "String"))]);
    ("Node", type21 [] [("id", plain (req "ID"))]);
    ("Query", type21 [] [("node", field21 (opt "Node") [("id", arg21 (req "ID"))]);
                         ("users", field21 (TList (opt "User") true) [("filter", arg21 (req "Filter")); ("kind", arg21 (opt "Kind"))]);
                         ("version", plain (req "String"))]);
    ("User", type21 ["Node"] [("id", plain (req "ID")); ("mood", plain (opt "Mood")); ("name", plain (opt "String")); ("posts", plain (TList (req "String") true))]) ]
  [ ("Kind", enum21 [("B", None)]); ("Mood", enum21 [("HAPPY", None); ("SAD", None)]) ].

Example caches21 : caches [a21; b21; c21] [cache21 a21; cache21 b21; cache21 c21].
Proof. repeat constructor. Qed.
Example premises21 :
  (forall c, In c [a21; b21; c21] -> well_formed c) /\ same_kinds [a21; b21; c21] /\ common_fields [a21; b21; c21] /\
  implementers_are_no_inputs [a21; b21; c21].
Proof. apply federation_check_ok. vm_compute. reflexivity. Qed.
Example unify21 : match unify_all (cache21 a21) [cache21 b21; cache21 c21] with Ok k => k_config k = merged21 | Err _ => False end.
Proof. vm_compute. reflexivity. Qed.

(** ** C21 *)

(** Whatever number of subgraphs is merged: a value the merged schema accepts for a type
    that a subgraph uses as an input is accepted by that subgraph. *)
Theorem C21_inputs_are_accepted_by_each_subgraph : forall scalar c0 rest k0 ks k,
  let cs := c0 :: rest in
  (forall c, In c cs -> well_formed c) -> same_kinds cs -> common_fields cs -> implementers_are_no_inputs cs ->
  caches cs (k0 :: ks) -> unify_all k0 ks = Ok k ->
  forall c ty v, In c cs -> InputUse c (type_name ty) -> accepts scalar (k_config k) ty v -> accepts scalar c ty v.
Proof. exact merged_inputs. Qed.
Print Assumptions C21_inputs_are_accepted_by_each_subgraph.
Example inputs21 : InputUse a21 "Filter" /\ InputUse b21 "Filter" /\ accepts any merged21 (req "Filter") (VObj [("age", VNum (NInt 3))]).
Proof.
  refine (conj _ (conj _ _)).
  - apply InputUse_arg. exists "Query". do 5 eexists. split; [reflexivity|]. split; [right; left; reflexivity|]. split; [left; reflexivity|reflexivity].
  - apply InputUse_arg. exists "Query". do 5 eexists. split; [reflexivity|]. split; [left; reflexivity|]. split; [left; reflexivity|reflexivity].
  - eapply acc_object; [reflexivity|reflexivity| | |]; cbn [type21 t_fields].
    + intros k v [H|[]]. injection H as <- <-. discriminate.
    + intros k v f [H|[]] G. injection H as <- <-. injection G as <-. apply acc_scalar; [reflexivity|discriminate|exact I].
    + intros k f G N. apply (oget_in scmp scmp_order) in G. destruct G as [G|[G|[]]]; injection G as <- <-; [now left|discriminate].
Qed.

(** The arguments the merged schema accepts for a field are accepted by every subgraph
    that has the field; and the field is still there. *)
Theorem C21_arguments_are_accepted_by_each_subgraph : forall scalar c0 rest k0 ks k,
  let cs := c0 :: rest in
  (forall c, In c cs -> well_formed c) -> same_kinds cs -> common_fields cs -> implementers_are_no_inputs cs ->
  caches cs (k0 :: ks) -> unify_all k0 ks = Ok k ->
  forall c n t fn f, In c cs -> Served c n -> kind_of c n = KObject -> find_type c n = Some t -> oget scmp fn (t_fields t) = Some f ->
  exists t' f', find_type (k_config k) n = Some t' /\ oget scmp fn (t_fields t') = Some f' /\
    forall m, accepts_args scalar (k_config k) (f_args f') m -> accepts_args scalar c (f_args f) m.
Proof. exact merged_arguments. Qed.
Print Assumptions C21_arguments_are_accepted_by_each_subgraph.
Example arguments21 : accepts_args any merged21 [("filter", arg21 (req "Filter")); ("kind", arg21 (opt "Kind"))]
  [("filter", VObj [("age", VNum (NInt 3))]); ("kind", VEnum "B")].
Proof.
  split.
  - intros k v [H|[H|[]]]; injection H as <- <-.
    + eexists. split; [reflexivity|]. apply inputs21.
    + eexists. split; [reflexivity|]. eapply acc_enum; [reflexivity|reflexivity|now left|auto].
  - intros k a G N. cbn in G. destruct (String.eqb k "filter") eqn:E; [apply String.eqb_eq in E; subst; now left|].
    destruct (String.eqb k "kind"); [|discriminate]. injection G as <-. discriminate.
Qed.

(** Nothing more is taken away than what one of two subgraphs refuses. *)
Theorem C21_nothing_else_is_refused : forall scalar c1 c2 k1 k2 k,
  let cs := [c1; c2] in
  (forall c, In c cs -> well_formed c) -> same_kinds cs -> common_fields cs -> implementers_are_no_inputs cs ->
  caches cs [k1; k2] -> unify k1 k2 = Ok k ->
  (forall n e1 e2 x a1 a2, find_enum c1 n = Some e1 -> find_enum c2 n = Some e2 -> In (x, a1) (e_variants e1) -> In (x, a2) (e_variants e2) -> a1 = a2) ->
  forall ty v, InputUse c1 (type_name ty) -> InputUse c2 (type_name ty) ->
  accepts scalar c1 ty v -> accepts scalar c2 ty v -> accepts scalar (k_config k) ty v.
Proof.
  intros scalar c1 c2 k1 k2 k cs Wf SK CF IM Ca E Al ty v U1 U2 A1 A2.
  exact (merged_exact scalar c1 c2 k1 k2 k Wf SK CF IM Ca E Al ty v A1 ty ty (typ_shrink_self ty) A2 U1 U2).
Qed.
Print Assumptions C21_nothing_else_is_refused.

(** Type references for inputs: exactly the values both references admit, when the two
    differ at most in their bangs. *)
Theorem C21_type_references : forall a b,
  (is_ok (typ_shrink a b) = true <-> unmarked a = unmarked b) /\
  forall c, typ_shrink a b = Ok c -> forall base v, admits base c v <-> admits base a v /\ admits base b v.
Proof. intros a b. split; [apply merge_succeeds|]. intros c E base. exact (shrink_admits base a b c E). Qed.
Print Assumptions C21_type_references.
Example references21 : typ_shrink (TList (req "A") false) (TList (opt "A") true) = Ok (TList (req "A") true).
Proof. reflexivity. Qed.

(** Two input types without a common field are merged into a type without fields, which
    is taken for a scalar: anything is accepted. *)
Definition left21 : config := config21 "Query"
  [ ("In", type21 [] [("p", plain (opt "Int"))]); ("Query", type21 [] [("f", field21 (opt "Int") [("x", arg21 (req "In"))])]) ] [].
Definition right21 : config := config21 "Query"
  [ ("In", type21 [] [("q", plain (opt "Int"))]); ("Query", type21 [] [("f", field21 (opt "Int") [("x", arg21 (req "In"))])]) ] [].
Theorem C21_disjoint_input_types_refuted : exists c1 c2 k1 k2 k ty v,
  (forall c, In c [c1; c2] -> well_formed c) /\ same_kinds [c1; c2] /\ implementers_are_no_inputs [c1; c2] /\
  caches [c1; c2] [k1; k2] /\ unify k1 k2 = Ok k /\
  InputUse c1 (type_name ty) /\ accepts any (k_config k) ty v /\ ~ accepts any c1 ty v.
Proof.
  exists left21, right21, (cache21 left21), (cache21 right21). eexists. exists (req "In"), (VStr "whatever").
  assert (W : forall c, In c [left21; right21] -> well_formed c).
  { intros c [<-|[<-|[]]]; apply wf_check_ok; vm_compute; reflexivity. }
  refine (conj W (conj _ (conj _ (conj _ (conj eq_refl (conj _ (conj _ _))))))).
  - apply kinds_check_ok. vm_compute. reflexivity.
  - apply implementers_check_ok; [exact W|vm_compute; reflexivity].
  - repeat constructor.
  - apply InputUse_arg. exists "Query". do 5 eexists. split; [reflexivity|]. split; [left; reflexivity|]. split; [left; reflexivity|reflexivity].
  - apply acc_scalar; [vm_compute; reflexivity|discriminate|exact I].
  - intros H. inversion H; subst; discriminate.
Qed.
Print Assumptions C21_disjoint_input_types_refuted.

(** An enum value both subgraphs accept is dropped when its aliases differ. *)
Definition enum_config21 (l : list variant) : config := config21 "Query"
  [ ("Query", type21 [] [("f", field21 (opt "Int") [("x", arg21 (req "Kind"))])]) ] [("Kind", enum21 l)].
Theorem C21_enum_aliases_refuted : exists c1 c2 k1 k2 k ty v,
  (forall c, In c [c1; c2] -> well_formed c) /\ same_kinds [c1; c2] /\ common_fields [c1; c2] /\ implementers_are_no_inputs [c1; c2] /\
  caches [c1; c2] [k1; k2] /\ unify k1 k2 = Ok k /\
  InputUse c1 (type_name ty) /\ InputUse c2 (type_name ty) /\ accepts any c1 ty v /\ accepts any c2 ty v /\ ~ accepts any (k_config k) ty v.
Proof.
  exists (enum_config21 [("A", None); ("B", None)]), (enum_config21 [("A", Some ["a"]); ("B", None)]).
  eexists. eexists. eexists. exists (req "Kind"), (VEnum "A").
  assert (P : federation_check [enum_config21 [("A", None); ("B", None)]; enum_config21 [("A", Some ["a"]); ("B", None)]] = true) by (vm_compute; reflexivity).
  apply federation_check_ok in P as (P1 & P2 & P3 & P4).
  refine (conj P1 (conj P2 (conj P3 (conj P4 (conj _ (conj _ (conj _ (conj _ (conj _ (conj _ _)))))))))).
  - constructor; [reflexivity|]. constructor; [reflexivity|constructor].
  - reflexivity.
  - apply InputUse_arg. exists "Query". do 5 eexists. split; [reflexivity|]. split; [left; reflexivity|]. split; [left; reflexivity|reflexivity].
  - apply InputUse_arg. exists "Query". do 5 eexists. split; [reflexivity|]. split; [left; reflexivity|]. split; [left; reflexivity|reflexivity].
  - eapply acc_enum; [reflexivity|reflexivity|now left|auto].
  - eapply acc_enum; [reflexivity|reflexivity|now left|auto].
  - intros H. inversion H as [| |? ? ? K|? ? e x ? K F I [Ev|Ev]|]; subst; try discriminate. injection Ev as <-. injection F as <-.
    cbn in I. destruct I as [I|[]]. discriminate.
Qed.
Print Assumptions C21_enum_aliases_refuted.

(** ** C22 *)

(** Whatever number of subgraphs is merged: a value that conforms to what a subgraph
    declares for a type it serves conforms to the merged schema. *)
Theorem C22_outputs_of_each_subgraph_conform : forall scalar c0 rest k0 ks k,
  let cs := c0 :: rest in
  (forall c, In c cs -> well_formed c) -> same_kinds cs -> common_fields cs -> implementers_are_no_inputs cs ->
  caches cs (k0 :: ks) -> unify_all k0 ks = Ok k ->
  forall c ty v, In c cs -> Served c (type_name ty) -> conforms scalar c ty v -> conforms scalar (k_config k) ty v.
Proof. exact merged_outputs. Qed.
Print Assumptions C22_outputs_of_each_subgraph_conform.
Example outputs21 : Served a21 "Node" /\ conforms any a21 (opt "Node") (VObj [("id", VStr "1"); ("mood", VEnum "HAPPY")]).
Proof.
  split.
  - apply Served_output. apply OutputUse_inside with "Query"; [now apply OutputUse_query|].
    refine (Holds_field a21 "Query" _ "node" (field21 (opt "Node") [("id", arg21 (req "ID"))]) eq_refl _). now left.
  - eapply (con_implementer _ _ _ _ _ "User"); [reflexivity|reflexivity|reflexivity|now left|].
    eapply con_object; [reflexivity|reflexivity| |]; cbn [type21 t_fields].
    + intros k v [H|[H|[]]]; injection H as <- <-; discriminate.
    + intros k v f [H|[H|[]]] G; injection H as <- <-; injection G as <-.
      * apply con_scalar; [reflexivity|discriminate|exact I].
      * eapply con_enum; [reflexivity|reflexivity|now left|auto].
Qed.

(** Type references for outputs: all values either reference admits, when the two differ
    at most in their bangs. *)
Theorem C22_type_references : forall a b,
  (is_ok (typ_expand a b) = true <-> unmarked a = unmarked b) /\
  forall c, typ_expand a b = Ok c -> forall base v, admits base a v \/ admits base b v -> admits base c v.
Proof. intros a b. split; [apply merge_succeeds|]. intros c E base. exact (expand_admits base a b c E). Qed.
Print Assumptions C22_type_references.
Example references22 : typ_expand (TList (req "A") false) (TList (opt "A") true) = Ok (TList (opt "A") false).
Proof. reflexivity. Qed.

(** A type that is an output of one subgraph only through its interface is not seen as an
    output: as an input of another subgraph it loses fields. *)
Definition iface21 : config := config21 "Query"
  [ ("Node", type21 [] [("id", plain (opt "ID"))]);
    ("Query", type21 [] [("node", plain (opt "Node"))]);
    ("User", type21 ["Node"] [("id", plain (opt "ID")); ("name", plain (opt "String"))]) ] [].
Definition finder21 : config := config21 "Query"
  [ ("Query", type21 [] [("find", field21 (opt "ID") [("user", arg21 (req "User"))])]);
    ("User", type21 [] [("id", plain (opt "ID"))]) ] [].
Theorem C22_interface_implementers_refuted : exists c1 c2 k1 k2 k ty v,
  (forall c, In c [c1; c2] -> well_formed c) /\ same_kinds [c1; c2] /\ common_fields [c1; c2] /\
  caches [c1; c2] [k1; k2] /\ unify k1 k2 = Ok k /\
  OutputUse c1 (type_name ty) /\ conforms any c1 ty v /\ ~ conforms any (k_config k) ty v.
Proof.
  exists iface21, finder21. eexists. eexists. eexists. exists (opt "Node"), (VObj [("id", VStr "1"); ("name", VStr "ann")]).
  refine (conj _ (conj _ (conj _ (conj _ (conj _ (conj _ (conj _ _))))))).
  - intros c [<-|[<-|[]]]; apply wf_check_ok; vm_compute; reflexivity.
  - apply kinds_check_ok. vm_compute. reflexivity.
  - apply common_check_ok. vm_compute. reflexivity.
  - constructor; [reflexivity|]. constructor; [reflexivity|constructor].
  - reflexivity.
  - apply OutputUse_inside with "Query"; [now apply OutputUse_query|].
    refine (Holds_field iface21 "Query" _ "node" (plain (opt "Node")) eq_refl _). now left.
  - eapply (con_implementer _ _ _ _ _ "User"); [reflexivity|reflexivity|reflexivity|now left|].
    eapply con_object; [reflexivity|reflexivity| |]; cbn [type21 t_fields].
    + intros k v [H|[H|[]]]; injection H as <- <-; discriminate.
    + intros k v f [H|[H|[]]] G; injection H as <- <-; injection G as <-; (apply con_scalar; [reflexivity|discriminate|exact I]).
  - intros H. match type of H with conforms any ?c _ _ => set (c0 := c) in H end. vm_compute in c0.
    assert (X : forall m t, find_type c0 m = Some t -> kind_of c0 m = KObject -> In "Node" (t_implements t) -> m = "User").
    { intros m t F _ J. apply (oget_in scmp scmp_order) in F. cbn in F.
      destruct F as [F|[F|[F|[]]]]; injection F as <- <-; [destruct J|destruct J|reflexivity]. }
    inversion H as [| |? ? ? K|? ? e x ? K F J E|? ? t m K F H1 H2|? ? u m ? F|? ? t m ? K Km F J H2]; subst; try discriminate.
    + injection F as <-. refine (H1 "name" (VStr "ann") (or_intror (or_introl eq_refl)) _). reflexivity.
    + assert (m = "User") by (eapply X; eauto). subst m.
      inversion H2 as [| |? ? ? K'|? ? e x ? K' F' J' E'|? ? t' m' K' F' H1' H2'|? ? u m' ? F'|? ? t' m' ? K' Km' F' J' H2']; subst; try discriminate.
      * injection F' as <-. refine (H1' "name" (VStr "ann") (or_intror (or_introl eq_refl)) _). reflexivity.
      * apply (oget_in scmp scmp_order) in F'. cbn in F'.
        destruct F' as [F'|[F'|[F'|[]]]]; injection F' as <- <-; [destruct J'|destruct J'|destruct J' as [J'|[]]; discriminate].
Qed.
Print Assumptions C22_interface_implementers_refuted.

(** ** C49 *)

(** A type, enum or union is in the merged configuration exactly when it is in one of the
    files. *)
Theorem C49_definitions_are_kept : forall c0 rest k0 ks k,
  let cs := c0 :: rest in
  (forall c, In c cs -> well_formed c) -> caches cs (k0 :: ks) -> unify_all k0 ks = Ok k ->
  forall n,
    (find_type (k_config k) n <> None <-> exists c, In c cs /\ find_type c n <> None) /\
    (find_enum (k_config k) n <> None <-> exists c, In c cs /\ find_enum c n <> None) /\
    (find_union (k_config k) n <> None <-> exists c, In c cs /\ find_union c n <> None) /\
    (forall m, union_member (k_config k) n m <-> exists c, In c cs /\ union_member c n m).
Proof.
  intros c0 rest k0 ks k cs W C E n.
  exact (conj (proj1 (kept_types c0 rest k0 ks k W C E n)) (conj (proj1 (kept_enums c0 rest k0 ks k W C E n))
    (conj (proj1 (kept_unions c0 rest k0 ks k W C E n)) (kept_members c0 rest k0 ks k W C E n)))).
Qed.
Print Assumptions C49_definitions_are_kept.

(** What only one file defines is taken over unchanged. *)
Theorem C49_lone_definitions_are_unchanged : forall c0 rest k0 ks k,
  let cs := c0 :: rest in
  (forall c, In c cs -> well_formed c) -> caches cs (k0 :: ks) -> unify_all k0 ks = Ok k ->
  forall before c after n, cs = before ++ c :: after ->
    ((forall c', In c' (before ++ after) -> find_type c' n = None) -> find_type (k_config k) n = find_type c n) /\
    ((forall c', In c' (before ++ after) -> find_enum c' n = None) -> find_enum (k_config k) n = find_enum c n) /\
    ((forall c', In c' (before ++ after) -> find_union c' n = None) -> find_union (k_config k) n = find_union c n).
Proof.
  intros c0 rest k0 ks k cs W C E before c after n P.
  exact (conj (proj2 (kept_types c0 rest k0 ks k W C E n) before c after P) (conj (proj2 (kept_enums c0 rest k0 ks k W C E n) before c after P)
    (proj2 (kept_unions c0 rest k0 ks k W C E n) before c after P))).
Qed.
Print Assumptions C49_lone_definitions_are_unchanged.

(** Nothing a file says about a definition that stays is lost, and nothing is made up:
    guards and the providers they name, caches, resolvers, interfaces, defaults. *)
Theorem C49_members_are_kept : forall c0 rest k0 ks k,
  let cs := c0 :: rest in
  (forall c, In c cs -> well_formed c) -> caches cs (k0 :: ks) -> unify_all k0 ks = Ok k ->
  forall n t', find_type (k_config k) n = Some t' ->
    (t_protected t' <> None <-> exists t, type_in cs n t /\ t_protected t <> None) /\
    (forall p, named_by p (t_protected t') <-> exists t, type_in cs n t /\ named_by p (t_protected t)) /\
    (t_cache t' <> None <-> exists t, type_in cs n t /\ t_cache t <> None) /\
    (forall r, In r (t_resolvers t') <-> exists t, type_in cs n t /\ In r (t_resolvers t)) /\
    (forall i, In i (t_implements t') <-> exists t, type_in cs n t /\ In i (t_implements t)) /\
    forall fn f', oget scmp fn (t_fields t') = Some f' ->
      (f_protected f' <> None <-> exists f, field_in cs n fn f /\ f_protected f <> None) /\
      (forall p, named_by p (f_protected f') <-> exists f, field_in cs n fn f /\ named_by p (f_protected f)) /\
      (f_cache f' <> None <-> exists f, field_in cs n fn f /\ f_cache f <> None) /\
      (f_default f' <> None <-> exists f, field_in cs n fn f /\ f_default f <> None) /\
      (f_omit f' = true <-> exists f, field_in cs n fn f /\ f_omit f = true) /\
      (forall r, In r (f_resolvers f') <-> exists f, field_in cs n fn f /\ In r (f_resolvers f)) /\
      forall an a', oget scmp an (f_args f') = Some a' ->
        (arg_default a' <> None <-> exists a, arg_in cs n fn an a /\ arg_default a <> None).
Proof. exact members_kept. Qed.
Print Assumptions C49_members_are_kept.
Definition guarded49 : config := config21 "Query"
  [ ("Query", type21 [] [("users", {| f_type := TList (opt "User") true; f_args := []; f_doc := None; f_modify := None; f_omit := false;
       f_cache := Some 60%Z; f_default := None; f_protected := Some {| prot_id := Some ["jwt"] |}; f_discriminate := None;
       f_resolvers := [RHttp ["id"] "users"]; f_directives := [] |})]);
    ("User", type21 [] [("id", plain (req "ID"))]) ] [].
Example guarded49_merged :
  (forall c, In c [a21; guarded49] -> well_formed c) /\ caches [a21; guarded49] [cache21 a21; cache21 guarded49] /\
  match unify_all (cache21 a21) [cache21 guarded49] with
  | Ok k => exists t f, find_type (k_config k) "Query" = Some t /\ oget scmp "users" (t_fields t) = Some f /\
      named_by "jwt" (f_protected f) /\ f_resolvers f = [RHttp ["id"] "users"] /\ f_args f = []
  | Err _ => False
  end.
Proof.
  split; [|split].
  - intros c [<-|[<-|[]]]; apply wf_check_ok; vm_compute; reflexivity.
  - repeat constructor.
  - vm_compute. do 2 eexists. refine (conj eq_refl (conj eq_refl (conj _ (conj eq_refl eq_refl)))). do 2 eexists. refine (conj eq_refl (conj eq_refl _)). now left.
Qed.

(** The roots are those of the first file that has them; the settings are those of the
    first file. *)
Theorem C49_roots_and_settings_partial : forall c0 rest k0 ks k,
  let cs := c0 :: rest in
  (forall c, In c cs -> well_formed c) -> caches cs (k0 :: ks) -> unify_all k0 ks = Ok k ->
  (forall root, root = r_query \/ root = r_mutation \/ root = r_subscription -> forall n,
     root (c_schema (k_config k)) = Some n <->
     exists before c after, cs = before ++ c :: after /\ (forall c', In c' before -> root (c_schema c') = None) /\ root (c_schema c) = Some n) /\
  c_server (k_config k) = c_server c0 /\ c_upstream (k_config k) = c_upstream c0 /\
  c_links (k_config k) = c_links c0 /\ c_telemetry (k_config k) = c_telemetry c0.
Proof.
  intros c0 rest k0 ks k cs W C E. split; [|exact (first_settings c0 rest k0 ks k W C E)].
  intros root R. apply (kept_root c0 rest k0 ks k C E root). destruct R as [-> | [-> | ->]]; reflexivity.
Qed.
Print Assumptions C49_roots_and_settings_partial.
Example kept49 : find_type merged21 "Node" = find_type a21 "Node" /\ r_query (c_schema merged21) = Some "Query".
Proof. split; reflexivity. Qed.

(** The settings of a later file are lost, although the first file says nothing about
    them. *)
Definition with_port49 (c : config) (port : Z) : config :=
  {| c_server := {| s_enable_jit := None; s_apollo_tracing := None; s_batch_requests := None;
     s_headers := None; s_timeout := None; s_hostname := None; s_introspection := None;
     s_federation := None; s_pipeline_flush := None; s_port := Some port;
     s_query_validation := None; s_response_validation := None; s_script := None;
     s_showcase := None; s_vars := []; s_version := None; s_workers := None; s_routes := None |};
     c_upstream := c_upstream c; c_schema := c_schema c; c_types := c_types c; c_unions := c_unions c; c_enums := c_enums c;
     c_links := c_links c; c_telemetry := c_telemetry c |}.
Theorem C49_settings_of_later_files_refuted : exists c1 c2 k1 k2 k,
  (forall c, In c [c1; c2] -> well_formed c) /\ same_kinds [c1; c2] /\ common_fields [c1; c2] /\ implementers_are_no_inputs [c1; c2] /\
  caches [c1; c2] [k1; k2] /\ unify k1 k2 = Ok k /\
  s_port (c_server c1) = None /\ s_port (c_server c2) <> None /\ s_port (c_server (k_config k)) = None.
Proof.
  exists b21, (with_port49 b21 8000), (cache21 b21), (cache21 (with_port49 b21 8000)). eexists.
  assert (P : federation_check [b21; with_port49 b21 8000] = true) by (vm_compute; reflexivity).
  apply federation_check_ok in P as (P1 & P2 & P3 & P4).
  refine (conj P1 (conj P2 (conj P3 (conj P4 (conj _ (conj _ (conj _ (conj _ _)))))))); [repeat constructor|reflexivity|reflexivity|discriminate|reflexivity].
Qed.
Print Assumptions C49_settings_of_later_files_refuted.

(** The operations of a later file whose query type has another name cannot be asked
    for any more. *)
Definition one49 : config := config21 "Query" [("Query", type21 [] [("a", plain (opt "Int"))])] [].
Definition two49 : config := config21 "RootQuery" [("RootQuery", type21 [] [("b", plain (opt "Int"))])] [].
Theorem C49_other_roots_refuted : exists c1 c2 k1 k2 k n,
  (forall c, In c [c1; c2] -> well_formed c) /\ same_kinds [c1; c2] /\ common_fields [c1; c2] /\ implementers_are_no_inputs [c1; c2] /\
  caches [c1; c2] [k1; k2] /\ unify k1 k2 = Ok k /\ OutputUse c2 n /\ find_type (k_config k) n <> None /\ ~ OutputUse (k_config k) n.
Proof.
  exists one49, two49, (cache21 one49), (cache21 two49). eexists. exists "RootQuery".
  assert (P : federation_check [one49; two49] = true) by (vm_compute; reflexivity).
  apply federation_check_ok in P as (P1 & P2 & P3 & P4).
  refine (conj P1 (conj P2 (conj P3 (conj P4 (conj _ (conj eq_refl (conj _ (conj _ _)))))))).
  - repeat constructor.
  - now apply OutputUse_query.
  - discriminate.
  - match goal with |- ~ OutputUse ?c _ => set (c0 := c); vm_compute in c0 end.
    assert (X : forall n, OutputUse c0 n -> n = "Query" \/ n = "Int").
    { intros n H. induction H as [n H|n H|n m H IH Ho].
      - injection H as <-. auto.
      - discriminate.
      - destruct IH as [-> | ->]; inversion Ho as [? u ? F|? t fn f F J]; subst; try discriminate.
        injection F as <-. destruct J as [J|[]]. injection J as <- <-. auto. }
    intros H. apply X in H as [H|H]; discriminate.
Qed.
Print Assumptions C49_other_roots_refuted.

(** Two files that declare the same custom scalar cannot be merged at all, not even a
    file with itself. *)
Definition scalar49 : config := config21 "Query" [("Date", type21 [] []); ("Query", type21 [] [("today", plain (opt "Date"))])] [].
Theorem C49_custom_scalars_refuted : exists c k,
  well_formed c /\ same_kinds [c; c] /\ common_fields [c; c] /\ implementers_are_no_inputs [c; c] /\ caches [c] [k] /\
  unify k k = Err ["Cannot infer the usage of type and therefore merge it from the subgraph"].
Proof.
  exists scalar49, (cache21 scalar49).
  assert (P : federation_check [scalar49; scalar49] = true) by (vm_compute; reflexivity).
  apply federation_check_ok in P as (P1 & P2 & P3 & P4).
  refine (conj (P1 _ (or_introl eq_refl)) (conj P2 (conj P3 (conj P4 (conj _ _))))); [repeat constructor|reflexivity].
Qed.
Print Assumptions C49_custom_scalars_refuted.
