(** C83: the schema that clients are told of is the one that is written. *)
From Coq Require Import String Ascii ZArith NArith Bool Arith Lia List.
From Verif Require Import Base BaseFacts Ordered JsonModel TypeModel ConfigModel IrModel ComposeModel ScalarModel FieldModel FieldSpec SvModel SvSpec SvProofs.
From Verif Require FieldProps ShrinkModel ShrinkSpec ShrinkProofs ShrinkProps AmbModel DocModel BuilderModel.
Import ListNotations.
Open Scope string_scope.
Open Scope list_scope.

(** The root types are those of the configuration, and every type is told of once. *)
Theorem C83_roots : forall (IO : Type) (compile : string -> field -> resolver -> checked (option (ir IO)) blueprint_error) valid_templates m added fuel b,
  serve compile valid_templates m added fuel = Some (Ok b) ->
  r_query (c_schema (m_config m)) = Some (b_query b) /\ r_mutation (c_schema (m_config m)) = b_mutation b /\ NoDup (map fst (b_types b)).
Proof.
  intros IO compile vt m added fuel b H. apply served in H. destruct H as (q & defs & ds & Q & D & C & ->).
  destruct (schema_roots q (r_mutation (c_schema (m_config m))) ds) as [-> ->]. auto using schema_nodup.
Qed.
Print Assumptions C83_roots.

(** Whatever is told of is a declaration as it is written, or a built-in scalar, with its rule, that some field has as its type. *)
Theorem C83_as_written_partial : forall (IO : Type) (compile : string -> field -> resolver -> checked (option (ir IO)) blueprint_error) valid_templates m added fuel b n s,
  serve compile valid_templates m added fuel = Some (Ok b) -> In (n, s) (b_types b) ->
  as_written m added n s \/
  exists rule t d n', s = SScalar n None rule /\ built_in n rule /\ type_name t = n /\ field_type_in d t /\ as_written m added n' d.
Proof.
  intros IO compile vt m added fuel b n s H I. apply served in H. destruct H as (q & defs & ds & Q & D & C & ->).
  apply (nodup_aget n s) in I; [|apply schema_nodup]. apply definitions_made in D. destruct D as [_ W].
  apply compressed_part in C. destruct C as (keep & -> & _). apply schema_from in I. destruct I as [(d & I & <- & ->)|(t & rule & I & <- & F & ->)].
  - left. apply W. now apply filter_In in I.
  - right. apply in_flat_map in I. destruct I as (d & I & J). apply filter_In in I. exists rule, t, (to_type d), (title d).
    split; [reflexivity|]. split; [now apply find_scalar_built_in|]. split; [reflexivity|]. split; [now apply field_type_shown|]. apply W, I.
Qed.
Print Assumptions C83_as_written_partial.

(** Whatever a client can meet (C75) is told of, as it is written, if every name is declared once. *)
Theorem C83_met_partial : forall (IO : Type) (compile : string -> field -> resolver -> checked (option (ir IO)) blueprint_error) valid_templates m added fuel b defs,
  serve compile valid_templates m added fuel = Some (Ok b) -> to_definitions compile valid_templates m added = Ok defs -> declared_once m ->
  ShrinkSpec.conforming (plain_blueprint (b_query b) (b_mutation b) defs) ->
  forall n, ShrinkSpec.met (plain_blueprint (b_query b) (b_mutation b) defs) n -> declared m n ->
  exists s, In (n, s) (b_types b) /\ as_written m added n s.
Proof.
  intros IO compile vt m added fuel b defs H D O CF n M DE. apply served in H. destruct H as (q & defs' & ds & Q & D' & C & ->).
  rewrite D in D'. injection D' as <-. destruct (schema_roots q (r_mutation (c_schema (m_config m))) ds) as [Eq Em]. rewrite Eq, Em in *. clear Eq Em.
  pose proof (definitions_made _ _ _ _ _ D) as [T W]. assert (N : NoDup (map title defs)) by (rewrite T; exact O).
  assert (It : In n (map title defs)).
  { rewrite T, !in_app_iff. unfold declared in DE. tauto. }
  apply in_map_iff in It. destruct It as (d & <- & I). exists (to_type d). split; [|now apply W].
  pose proof C as C'. apply compressed_part in C. destruct C as (keep & -> & K). apply aget_In. apply schema_in; [now apply nodup_filter|].
  apply filter_In. split; [exact I|]. apply K; [exact I|]. unfold compressed in C'. destruct (ShrinkModel.compress fuel _) as [b'|] eqn:E; [|discriminate]. exists b'. split; [reflexivity|].
  apply in_map_iff. exists (plain d). split; [apply plain_title|]. eapply (ShrinkProps.C75_kept_partial _ _ _ E).
  - intros x y z Ix Iy Tx Ty. apply ShrinkProofs.titled_name in Tx. apply ShrinkProofs.titled_name in Ty. cbn in Ix, Iy. apply in_map_iff in Ix. apply in_map_iff in Iy.
    destruct Ix as (x' & <- & Ix). destruct Iy as (y' & <- & Iy). rewrite plain_title in Tx, Ty. f_equal. clear -N Ix Iy Tx Ty. subst z.
    induction defs as [|a l IH]; [destruct Ix|]. cbn in N. inversion N as [|? ? Na Nl]; subst. destruct Ix as [->|Ix], Iy as [->|Iy]; auto.
    + exfalso. apply Na. rewrite <- Ty. now apply in_map.
    + exfalso. apply Na. rewrite Ty. now apply in_map.
  - exact CF.
  - exact M.
  - cbn. now apply in_map.
  - apply ShrinkProofs.titled_name, plain_title.
Qed.
Print Assumptions C83_met_partial.

(** Nothing is missing: of the declared types, the roots are told of, so is whatever is named by what is told, and so are the objects of the
    interfaces that are told of. *)
Theorem C83_closed : forall (IO : Type) (compile : string -> field -> resolver -> checked (option (ir IO)) blueprint_error) valid_templates m added fuel b,
  serve compile valid_templates m added fuel = Some (Ok b) -> declared_once m -> (forall n, declared m n -> ~ reserved n) ->
  (forall n, declared m n -> n = b_query b \/ b_mutation b = Some n -> In n (map fst (b_types b))) /\
  (forall n s k, In (n, s) (b_types b) -> names_type s k -> declared m k -> In k (map fst (b_types b))) /\
  (forall i doc fs is o t, In (i, SInterface i doc fs is) (b_types b) -> In (o, t) (c_types (m_config m)) -> In i (t_implements t) ->
     t_fields t <> [] -> ~ is_input m o -> ~ is_interface m o -> In o (map fst (b_types b))).
Proof.
  intros IO compile vt m added fuel b H O NR. apply served in H. destruct H as (q & defs & ds & Q & D & C & ->). set (mu := r_mutation (c_schema (m_config m))) in *.
  destruct (schema_roots q mu ds) as [-> ->].
  pose proof (definitions_made _ _ _ _ _ D) as [T W]. assert (N : NoDup (map title defs)) by (rewrite T; exact O).
  assert (De : forall n, declared m n -> exists d, In d defs /\ title d = n).
  { intros n X. assert (It : In n (map title defs)) by (rewrite T, !in_app_iff; unfold declared in X; tauto). apply in_map_iff in It. destruct It as (d & E & I). eauto. }
  assert (De' : forall d, In d defs -> declared m (title d)).
  { intros d I. apply (in_map title) in I. rewrite T, !in_app_iff in I. unfold declared. tauto. }
  destruct (kept_walk _ _ _ _ _ C) as (r & R & K1 & K2).
  assert (N' : NoDup (map title ds)) by (apply compressed_part in C; destruct C as (keep & -> & _); now apply nodup_filter).
  assert (Told : forall n, declared m n -> In n r -> In n (map fst (b_types (schema_of q mu ds)))).
  { intros n X J. destruct (De n X) as (d & I & <-). apply told_title; [exact N'|now apply K1]. }
  assert (From : forall n s, In (n, s) (b_types (schema_of q mu ds)) -> (exists d, In d ds /\ title d = n /\ s = to_type d /\ In n r) \/ exists rule, s = SScalar n None rule).
  { intros n s I. apply (nodup_aget n s) in I; [|apply schema_nodup]. apply schema_from in I. destruct I as [(d & I & <- & ->)|(t' & rl & _ & _ & _ & ->)]; [left|right; eauto].
    exists d. destruct (K2 d I) as [J A]. repeat split; auto. }
  split; [|split].
  - intros n X Y. apply Told; [exact X|]. apply R, ShrinkProofs.w_root. unfold ShrinkModel.root_types. cbn [ShrinkModel.bp_query ShrinkModel.bp_mutation plain_blueprint].
    destruct Y as [-> | ->]; cbn; auto 10.
  - intros n s k I M X. apply Told; [exact X|]. destruct (From n s I) as [(d & J & <- & -> & Z)|(rule & ->)]; [|destruct M].
    destruct (walk_names q mu defs d k N (proj1 (K2 d J)) M) as (deps & G & In'). apply R. eapply ShrinkProofs.w_step; [apply R, Z|exact G|exact In'].
  - intros i doc fs is o t I X Y F NI NF. destruct (From _ _ I) as [(d & J & E & S & Z)|(rule & S)]; [|discriminate S].
    assert (X' : declared m o) by (left; apply in_map_iff; now exists (o, t)). apply Told; [exact X'|].
    destruct d as [n ? ? ?|n doc1 fs1 is1|n ? ?|n ? ?|n ? ?|n ? ?]; try discriminate S. cbn in E. subst n.
    destruct (De o X') as (d & L & E). pose proof (W d L) as A. rewrite E in A.
    assert (Ob : exists doc' fs', d = Object o doc' fs' (t_implements t)).
    { unfold declared_once in O. inversion A as [n t' fs0 own adds It Hf Hi Hn _ _ _ En Es|n t' fs0 own adds It Hf Hi Hn _ _ _ En Es|n t' fs0 own adds It Hf Hi _ _ _ En Es|n t' It Hf En Es|n e It Hf En Es|n u It En Es]; subst n.
      - assert (t' = t) by (eapply once_type; eauto). subst t'. destruct d; try discriminate Es. cbn in Es, E. injection Es as _ _ _ <-. subst name. eauto.
      - now destruct NF.
      - now destruct NI.
      - assert (t' = t) by (eapply once_type; eauto). subst t'. contradiction.
      - exfalso. eapply once_apart; [exact O|exact X|]. apply in_or_app. right. eapply in_keys. exact It.
      - exfalso. eapply once_apart; [exact O|exact X|]. apply in_or_app. left. eapply in_keys. exact It. }
    destruct Ob as (doc' & fs' & ->). destruct (walk_implements q mu defs _ _ _ _ _ _ _ _ N (proj1 (K2 _ J)) L Y) as (deps & G & In'). apply R. eapply ShrinkProofs.w_step; [apply R, Z|exact G|exact In'].
Qed.
Print Assumptions C83_closed.

(** The built-in scalars of fields are told of. *)
Theorem C83_scalars_of_fields : forall (IO : Type) (compile : string -> field -> resolver -> checked (option (ir IO)) blueprint_error) valid_templates m added fuel b n s t rule,
  serve compile valid_templates m added fuel = Some (Ok b) -> In (n, s) (b_types b) -> field_type_in s t -> built_in (type_name t) rule ->
  In (type_name t) (map fst (b_types b)).
Proof.
  intros IO compile vt m added fuel b n s t rule H I F B. apply served in H. destruct H as (q & defs & ds & Q & D & C & ->).
  apply (nodup_aget n s) in I; [|apply schema_nodup]. apply schema_from in I. destruct I as [(d & I & <- & ->)|(t' & r & I & <- & _ & ->)]; [|destruct F].
  eapply schema_scalar; [|apply built_in_find, B]. apply in_flat_map. exists d. split; [exact I|]. now apply field_type_shown.
Qed.
Print Assumptions C83_scalars_of_fields.

(** Declaring a scalar that exists, or an enum without values, is refused. *)
Theorem C83_refused : forall (IO : Type) (compile : string -> field -> resolver -> checked (option (ir IO)) blueprint_error) valid_templates m added fuel b,
  serve compile valid_templates m added fuel = Some (Ok b) ->
  (forall n t, In (n, t) (c_types (m_config m)) -> t_fields t = [] -> ~ In n ["Int"; "Float"; "String"; "Boolean"; "ID"] /\ forall rule, ~ built_in n rule) /\
  (forall n e, In (n, e) (c_enums (m_config m)) -> e_variants e <> []).
Proof.
  intros IO compile vt m added fuel b H. apply served in H. destruct H as (q & defs & ds & Q & D & _ & _). unfold to_definitions in D.
  destruct (all_checked _ (c_types (m_config m))) as [types|] eqn:A; [|destruct (all_checked _ (c_enums (m_config m))); discriminate].
  destruct (all_checked _ (c_enums (m_config m))) as [enums|] eqn:B; [|discriminate]. apply Field2Proofs.all_checked_ok in A. apply Field2Proofs.all_checked_ok in B. split.
  - intros n t I F. destruct (EntityProofs.Forall2_left _ _ _ _ A I) as (d & _ & E). unfold to_definition in E. cbn [fst snd] in E. unfold gtype_scalar in E. rewrite F in E.
    unfold to_scalar_type_definition in E. destruct (BuilderModel.is_predefined n) eqn:P; [discriminate|]. unfold BuilderModel.is_predefined in P. apply Bool.orb_false_iff in P. destruct P as [P P']. split.
    + intros J. cbn in J. repeat (destruct J as [<-|J]; [discriminate P|]). destruct J.
    + intros rule J. unfold built_in in J. cbn in J. repeat (destruct J as [J|J]; [injection J as <- <-; discriminate P'|]). destruct J.
  - intros n e I. destruct (EntityProofs.Forall2_left _ _ _ _ B I) as (d & _ & E). cbn [snd] in E. destruct (e_variants e); discriminate.
Qed.
Print Assumptions C83_refused.

(** ** A concrete configuration *)
Definition vty (n : string) : typ := TNamed n false.
Definition varg (t : string) (d : option string) (mo : option ConfigModel.modify) : arg := {| arg_type := vty t; arg_doc := Some "an argument"; arg_modify := mo; arg_default := d |}.
Definition vfield (t : typ) (args : list (string * arg)) (new : option string) (omit : bool) (rs : list resolver) : field :=
  {| f_type := t; f_args := args; f_doc := Some "a field"; f_modify := option_map (fun n => {| mod_name := Some n; mod_omit := None |}) new; f_omit := omit; f_cache := None; f_default := None;
     f_protected := None; f_discriminate := None; f_resolvers := rs; f_directives := [] |}.
Definition vtype (fs : list (string * field)) (is : list string) : gtype :=
  {| t_fields := fs; t_added := []; t_doc := Some "a type"; t_implements := is; t_cache := None; t_protected := None; t_resolvers := []; t_directives := [] |}.
Definition vconfig := FieldProps.xc.
Definition vserve (c : config) (inputs : list string) (interfaces : list (string * list string)) :=
  serve FieldProps.xcompile FieldProps.xvalid {| m_config := c; m_inputs := inputs; m_interfaces := interfaces; m_providers := [] |} (fun _ => []) 100.
Definition call : list resolver := [RHttp [] "/x"].

(** Every kind of declaration, a renamed field, one left out, and defaults. *)
Definition v83 : config :=
  vconfig
    [("Filter", vtype [("size", vfield (vty "Int") [] None false []); ("word", vfield (vty "String") [] None false [])] []);
     ("Node", vtype [("id", vfield (vty "ID") [] None false [])] []);
     ("Post", vtype [("at", vfield (vty "Stamp") [] None false []); ("by", vfield (vty "Email") [] (Some "author") false []); ("id", vfield (vty "ID") [] None false []); ("old", vfield (vty "Int") [] None true [])] ["Node"]);
     ("Query", vtype [("found", vfield (TList (vty "Found") true) [] None false call); ("kind", vfield (vty "Kind") [] None false call);
                      ("posts", vfield (vty "Node") [("filter", varg "Filter" (Some "{}") None)] None false call)] []);
     ("Stamp", vtype [] []); ("User", vtype [("name", vfield (vty "String") [] None false [])] [])]
    [("Found", {| u_types := ["Post"; "User"]; u_doc := None |})]
    [("Kind", {| e_variants := [("BIG", None); ("SMALL", Some ["little"])]; e_doc := Some "kinds" |})].
Definition v83_module : cmodule := {| m_config := v83; m_inputs := ["Filter"]; m_interfaces := [("Node", ["Post"])]; m_providers := [] |}.
Example C83_example :
  AmbModel.input_types 20 v83 = Some (m_inputs v83_module) /\ DocModel.interfaces_types_map 20 v83 = Some (m_interfaces v83_module) /\ declared_once v83_module /\
  exists b, vserve v83 ["Filter"] [("Node", ["Post"])] = Some (Ok b) /\
    map fst (b_types b) = ["Email"; "Filter"; "Node"; "Post"; "Query"; "Stamp"; "User"; "Found"; "Kind"] /\
    aget "Email" (b_types b) = Some (SScalar "Email" None Email) /\
    option_map (fun s => match s with SObject _ _ fs is => (map (fun f => (sf_name f, sf_type f)) fs, is) | _ => ([], []) end) (aget "Post" (b_types b))
      = Some ([("at", vty "Stamp"); ("author", vty "Email"); ("id", vty "ID")], ["Node"]) /\
    option_map (fun s => match s with SObject _ _ fs _ => map (fun f => map (fun a => (si_name a, si_type a, si_default a)) (sf_args f)) fs | _ => [] end) (aget "Query" (b_types b))
      = Some [[]; []; [("filter", vty "Filter", Some "{}")]].
Proof.
  split; [vm_compute; reflexivity|]. split; [vm_compute; reflexivity|]. split.
  - unfold declared_once. vm_compute. repeat constructor; cbn; intuition discriminate.
  - eexists. split; [vm_compute; reflexivity|]. repeat split.
Qed.
(** The hypotheses of [C83_met_partial]. *)
Example C83_example_met : exists b defs,
  vserve v83 ["Filter"] [("Node", ["Post"])] = Some (Ok b) /\ to_definitions FieldProps.xcompile FieldProps.xvalid v83_module (fun _ => []) = Ok defs /\
  ShrinkSpec.conforming (plain_blueprint (b_query b) (b_mutation b) defs) /\ ShrinkSpec.met (plain_blueprint (b_query b) (b_mutation b) defs) "Filter".
Proof.
  eexists _, _. split; [vm_compute; reflexivity|]. split; [vm_compute; reflexivity|]. split.
  - intros i fs is I. cbn in I. repeat (destruct I as [I|I]; [try discriminate I|]); [|destruct I].
    injection I as <- <- <-. split; [eexists _, _, _; split; [right; right; left; reflexivity|now left]|].
    intros o ofs ois J K. split; [intros x []|]. intros f a t n [<-|[]] [].
  - eapply ShrinkSpec.met_named; [apply ShrinkSpec.met_root; now left|right; right; right; left; reflexivity|constructor|].
    eapply ShrinkSpec.m_object; [right; right; left; reflexivity|]. right. eexists _, _. split; [now left|constructor].
Qed.
(** The hypotheses of [C83_closed], with a type that is named by an argument. *)
Example C83_example_closed : (forall n, declared v83_module n -> ~ reserved n) /\ exists b s,
  vserve v83 ["Filter"] [("Node", ["Post"])] = Some (Ok b) /\ In ("Query", s) (b_types b) /\ names_type s "Filter" /\ declared v83_module "Filter".
Proof.
  split.
  - intros n D (rest & ->). unfold declared in D. cbn in D. repeat match goal with H : _ \/ _ |- _ => destruct H | H : False |- _ => destruct H | H : _ = _ |- _ => discriminate H end.
  - eexists _, _. split; [vm_compute; reflexivity|]. split; [do 4 right; left; reflexivity|]. split; [|left; now left].
    left. eexists. split; [right; right; left; reflexivity|]. right. eexists. split; [now left|reflexivity].
Qed.

(** ** What is not so *)
(** Two fields of one type can be told of under the same name: a field renamed to the name of another is accepted.  (The library
    asserts that the names of the fields of a type differ.) *)
Theorem C83_names_of_fields_refuted : exists c b t,
  vserve c [] [] = Some (Ok b) /\ In ("Query", t) (c_types c) /\ NoDup (map fst (t_fields t)) /\
  exists doc fs is, In ("Query", SObject "Query" doc fs is) (b_types b) /\ ~ NoDup (map sf_name fs).
Proof.
  exists (vconfig [("Query", vtype [("a", vfield (vty "Int") [] (Some "b") false call); ("b", vfield (vty "Int") [] None false call)] [])] [] []).
  eexists _, _. split; [vm_compute; reflexivity|]. split; [left; reflexivity|]. split; [cbn; repeat constructor; cbn; intuition discriminate|].
  eexists _, _, _. split; [left; reflexivity|]. cbn. intros N. inversion N as [|? ? H _]. apply H. now left.
Qed.
Print Assumptions C83_names_of_fields_refuted.

(** The scalars of arguments are not told of, unless a field has the same type.  (The library refuses a schema with a type it has
    not been told of.) *)
Theorem C83_scalars_of_arguments_refuted : exists c b f a,
  vserve c [] [] = Some (Ok b) /\ built_in "Email" Email /\
  (exists doc fs is, In ("Query", SObject "Query" doc fs is) (b_types b) /\ In f fs) /\ In a (sf_args f) /\ si_type a = vty "Email" /\ ~ In "Email" (map fst (b_types b)).
Proof.
  exists (vconfig [("Query", vtype [("a", vfield (vty "Int") [("to", varg "Email" None None)] None false call)] [])] [] []).
  eexists _, _, _. split; [vm_compute; reflexivity|]. split; [right; left; reflexivity|]. split; [eexists _, _, _; split; [left; reflexivity|left; reflexivity]|].
  split; [left; reflexivity|]. split; [reflexivity|]. cbn. intros [H|[]]. discriminate.
Qed.
Print Assumptions C83_scalars_of_arguments_refuted.

(** An interface is told of without its documentation, the arguments of its fields and the interfaces it implements. *)
Theorem C83_interfaces_refuted : exists c b t f,
  vserve c [] [("Base", ["Post"]); ("Node", ["Post"])] = Some (Ok b) /\ DocModel.interfaces_types_map 20 c = Some [("Base", ["Post"]); ("Node", ["Post"])] /\
  In ("Node", t) (c_types c) /\ t_doc t = Some "a type" /\ t_implements t = ["Base"] /\ In ("id", f) (t_fields t) /\ f_args f <> [] /\
  exists fs, In ("Node", SInterface "Node" None fs []) (b_types b) /\ forall s, In s fs -> sf_args s = [] /\ sf_doc s = None.
Proof.
  set (id := vfield (vty "ID") [("style", varg "String" None None)] None false []).
  exists (vconfig [("Base", vtype [("id", id)] []); ("Node", vtype [("id", id)] ["Base"]); ("Post", vtype [("id", id)] ["Base"; "Node"]); ("Query", vtype [("n", vfield (vty "Node") [] None false call)] [])] [] []).
  eexists _, _, _. split; [vm_compute; reflexivity|]. split; [vm_compute; reflexivity|]. split; [right; left; reflexivity|]. split; [reflexivity|]. split; [reflexivity|]. split; [left; reflexivity|]. split; [discriminate|].
  eexists. split; [right; left; reflexivity|]. intros s [<-|[]]. now split.
Qed.
Print Assumptions C83_interfaces_refuted.

(** Neither the documentation of arguments nor that of unions is told. *)
Theorem C83_documentation_refuted : exists c b f a u sf sa,
  vserve c [] [] = Some (Ok b) /\
  (exists t, In ("Query", t) (c_types c) /\ In ("a", f) (t_fields t)) /\ In ("x", a) (f_args f) /\ arg_doc a = Some "an argument" /\
  (exists doc fs is, In ("Query", SObject "Query" doc fs is) (b_types b) /\ In sf fs) /\ sf_name sf = "a" /\ In sa (sf_args sf) /\ si_name sa = "x" /\ si_doc sa = None /\
  In ("Found", u) (c_unions c) /\ u_doc u = Some "what is found" /\ In ("Found", SUnion "Found" None (u_types u)) (b_types b).
Proof.
  exists (vconfig [("Query", vtype [("a", vfield (vty "Found") [("x", varg "Int" None None)] None false call)] []); ("User", vtype [("name", vfield (vty "String") [] None false [])] [])] [("Found", {| u_types := ["User"]; u_doc := Some "what is found" |})] []).
  eexists _, _, _, _, _, _. split; [vm_compute; reflexivity|]. split; [eexists; split; [left; reflexivity|left; reflexivity]|]. split; [left; reflexivity|]. split; [reflexivity|].
  split; [eexists _, _, _; split; [left; reflexivity|left; reflexivity]|]. split; [reflexivity|]. split; [left; reflexivity|]. split; [reflexivity|]. split; [reflexivity|]. split; [left; reflexivity|]. split; [reflexivity|]. right; right; left; reflexivity.
Qed.
Print Assumptions C83_documentation_refuted.

(** An argument that is to be renamed keeps its name. *)
Theorem C83_renamed_arguments_refuted : exists c b f a mo,
  vserve c [] [] = Some (Ok b) /\
  (exists t, In ("Query", t) (c_types c) /\ In ("a", f) (t_fields t)) /\ In ("x", a) (f_args f) /\ arg_modify a = Some mo /\ mod_name mo = Some "y" /\
  exists doc sf is, In ("Query", SObject "Query" doc [sf] is) (b_types b) /\ map si_name (sf_args sf) = ["x"].
Proof.
  exists (vconfig [("Query", vtype [("a", vfield (vty "Int") [("x", varg "Int" None (Some {| mod_name := Some "y"; mod_omit := None |}))] None false call)] [])] [] []).
  eexists _, _, _, _. split; [vm_compute; reflexivity|]. split; [eexists; split; [left; reflexivity|left; reflexivity]|]. split; [left; reflexivity|]. split; [reflexivity|]. split; [reflexivity|].
  eexists _, _, _. split; [left; reflexivity|reflexivity].
Qed.
Print Assumptions C83_renamed_arguments_refuted.

(** Of a type and an enum with the same name only the enum is told of. *)
Theorem C83_declared_twice_refuted : exists c b t,
  vserve c [] [] = Some (Ok b) /\ In ("Kind", t) (c_types c) /\ t_fields t <> [] /\ forall s, In ("Kind", s) (b_types b) -> s = SEnum "Kind" None ["BIG"].
Proof.
  exists (vconfig [("Kind", vtype [("name", vfield (vty "String") [] None false [])] []); ("Query", vtype [("a", vfield (vty "Kind") [] None false call)] [])] [] [("Kind", {| e_variants := [("BIG", None)]; e_doc := None |})]).
  eexists _, _. split; [vm_compute; reflexivity|]. split; [left; reflexivity|]. split; [discriminate|]. intros s [H|[H|[]]]; [now injection H as <-|discriminate].
Qed.
Print Assumptions C83_declared_twice_refuted.
