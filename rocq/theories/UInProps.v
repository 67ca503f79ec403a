(** Unions in arguments: theorems of property C72. *)
From Coq Require Import String Ascii ZArith Bool List Lia.
From Verif Require Import Base Ordered JsonModel TypeModel ConfigModel UInModel UInSpec UInProofs OrderedFacts.
Import ListNotations.
Open Scope string_scope.
Open Scope list_scope.

(** ** Variants for unions *)
(** A field whose arguments have unions anywhere inside becomes fields whose arguments have none.
    Together they take the same arguments as before. *)
Theorem C72_arguments_partial leaf c c' T g k f : union_input_type c = Some c' -> in_order c -> plain_names c ->
  oget scmp T (c_types c) = Some g -> oget scmp k (t_fields g) = Some f ->
  (forall x a, In (x, a) (f_args f) -> tame (c_types c) (c_unions c) (arg_type a)) -> apart g k ->
  exists g' variants, oget scmp T (c_types c') = Some g' /\ NoDup (map fst variants) /\
    (forall k' f', In (k', f') variants -> oget scmp k' (t_fields g') = Some f' /\ variant_name k k' /\ field_variant f f' /\
      forall x a, In (x, a) (f_args f') -> union_free (c_types c') (c_unions c') (type_name (arg_type a))) /\
    forall vals, args_fit leaf (c_types c) (c_unions c) f vals <->
      exists k' f', In (k', f') variants /\ args_fit leaf (c_types c') (c_unions c') f' vals.
Proof.
  unfold union_input_type. intros H [S F] P G K T' A. destruct (visit (c_types c) (c_unions c)) as [ts|] eqn:V; [|discriminate]. injection H as <-. cbn [c_types c_unions].
  eapply arguments_ok; eauto; intros; try (apply P; auto; fail); try (eapply F; eauto; fail).
Qed.
Print Assumptions C72_arguments_partial.

(** ** Everything else stays *)
Theorem C72_types_stay c c' : union_input_type c = Some c' -> in_order c -> plain_names c ->
  same_but_types c c' /\
  forall T g, oget scmp T (c_types c) = Some g -> exists g', oget scmp T (c_types c') = Some g' /\ same_but_fields g g' /\
    (forall k f, oget scmp k (t_fields g) = Some f ->
      (forall x a, In (x, a) (f_args f) -> union_free (c_types c) (c_unions c) (type_name (arg_type a))) -> oget scmp k (t_fields g') = Some f) /\
    (forall k' f', oget scmp k' (t_fields g') = Some f' -> exists k f, oget scmp k (t_fields g) = Some f /\ variant_name k k' /\ field_variant f f').
Proof.
  unfold union_input_type. intros H [S F] P. destruct (visit (c_types c) (c_unions c)) as [ts|] eqn:V; [|discriminate]. injection H as <-. split; [repeat split|].
  intros T g G. cbn [c_types c_unions]. destruct (others_ok (c_types c) (c_unions c)) with (ts' := ts) (T := T) (g := g) as (g' & A1 & A2 & A3 & A4); auto.
  - intros n g0 G0. apply (F n g0 G0).
  - exists g'. split; [exact A1|]. split; [exact A2|]. split; [exact A3|]. apply A4. intros k f K. destruct (F T g G) as [_ X]. eapply X; eauto.
Qed.
Print Assumptions C72_types_stay.
(** New types are copies of types, under the type's name and what follows two underscores. *)
Theorem C72_new_types c c' x t : union_input_type c = Some c' -> oget scmp x (c_types c') = Some t ->
  In x (map fst (c_types c)) \/ exists n g r, oget scmp n (c_types c) = Some g /\ x = (n ++ "__" ++ r)%string /\ same_but_fields g t.
Proof.
  unfold union_input_type. intros H. destruct (visit (c_types c) (c_unions c)) as [ts|] eqn:V; [|discriminate]. injection H as <-. cbn [c_types].
  exact (visit_named _ _ _ V x t).
Qed.
Print Assumptions C72_new_types.
(** Types that contain themselves do not keep it busy. *)
Theorem C72_always_ends c : exists c', union_input_type c = Some c'.
Proof.
  unfold union_input_type. destruct (visit (c_types c) (c_unions c)) as [ts|] eqn:V; [eauto|]. destruct (visit_ends _ _ V).
Qed.
Print Assumptions C72_always_ends.

(** ** Configurations *)
Definition wt (fs : list (string * field)) : gtype :=
  {| t_fields := fs; t_added := []; t_doc := None; t_implements := []; t_cache := None; t_protected := None; t_resolvers := []; t_directives := [] |}.
Definition wf_ (t : typ) (args : list (string * arg)) : field :=
  {| f_type := t; f_args := args; f_doc := None; f_modify := None; f_omit := false; f_cache := None; f_default := None; f_protected := None;
     f_discriminate := None; f_resolvers := []; f_directives := [] |}.
Definition wa (t : typ) : arg := {| arg_type := t; arg_doc := None; arg_modify := None; arg_default := None |}.
Definition wu (l : list string) : gunion := {| u_types := l; u_doc := None |}.
Definition wn (n : string) : typ := TNamed n false.
Definition wc (types : list (string * gtype)) (unions : list (string * gunion)) : config :=
  {| c_server := empty_server; c_upstream := empty_upstream; c_schema := {| r_query := Some "Query"; r_mutation := None; r_subscription := None |};
     c_types := types; c_unions := unions; c_enums := []; c_links := []; c_telemetry := empty_telemetry |}.
Definition leaves (n : string) (v : value) : Prop := match v with VNum _ => n = "Int" | VStr _ => n = "String" | _ => False end.

Definition by_id : gtype := wt [("id", wf_ (wn "Int") [])].
Definition by_name : gtype := wt [("name", wf_ (wn "String") [])].
Definition users_field : field := wf_ (wn "Int") [("by", wa (TNamed "Key" true)); ("in", wa (wn "Page"))].
Definition users : config :=
  wc [("ById", by_id); ("ByName", by_name); ("Page", wt [("after", wf_ (wn "Key") []); ("size", wf_ (TList (wn "Int") false) [])]);
      ("Query", wt [("count", wf_ (wn "Int") [("in", wa (wn "ById"))]); ("users", users_field)])] [("Key", wu ["ById"; "ByName"])].
Definition names (c : option config) : list (string * list string) :=
  match c with Some c => map (fun kt => (fst kt, map fst (t_fields (snd kt)))) (c_types c) | None => [] end.
Example C72_example_result : names (union_input_type users) =
  [("ById", ["id"]); ("ByName", ["name"]); ("Page", ["after"; "size"]); ("Page__after0", ["after"; "size"]); ("Page__after1", ["after"; "size"]);
   ("Query", ["count"; "usersVar0Var0"; "usersVar0Var1"; "usersVar1Var0"; "usersVar1Var1"])].
Proof. reflexivity. Qed.
Lemma oget_cases {V} (l : list (string * V)) k v : oget scmp k l = Some v -> In (k, v) l.
Proof. apply (oget_in scmp scmp_order). Qed.
Ltac each_of H := repeat (destruct H as [H|H]; [try (injection H as <- <-)|]); try contradiction.
Lemma plain_of n : (forall a b, n <> a ++ "__" ++ b)%string -> (forall a, n <> a ++ "_")%string -> plain_name n.
Proof. split; assumption. Qed.
Fixpoint no_under (s : string) : bool :=
  match s with "" => true | String c s => negb (Ascii.eqb c "_"%char) && no_under s end.
Lemma no_under_app a b : no_under (a ++ b)%string = (no_under a && no_under b)%bool.
Proof. induction a as [|c a IH]; [reflexivity|]. cbn. now rewrite IH, andb_assoc. Qed.
Lemma no_under_plain n : no_under n = true -> plain_name n.
Proof.
  intros H. split; intros a; [intros b|]; intros ->; rewrite !no_under_app in H; cbn in H; rewrite ?andb_false_r in H; discriminate.
Qed.
Definition plain_check (c : config) : bool := forallb (fun n => no_under n) (map fst (c_types c) ++ map fst (c_unions c)).
Lemma plain_checked c : plain_check c = true -> plain_names c.
Proof. intros H n I. apply no_under_plain. unfold plain_check in H. rewrite forallb_forall in H. apply H. apply in_app_iff. exact I. Qed.
Fixpoint nodupb (l : list string) : bool := match l with [] => true | x :: l => negb (existsb (String.eqb x) l) && nodupb l end.
Lemma nodupb_ok l : nodupb l = true -> NoDup l.
Proof.
  induction l as [|x l IH]; intros H; [constructor|]. cbn in H. apply andb_true_iff in H. destruct H as [A B]. constructor; [|auto].
  intros I. apply negb_true_iff in A. assert (existsb (String.eqb x) l = true) by (apply existsb_exists; exists x; split; [exact I|apply String.eqb_refl]). congruence.
Qed.
Definition order_check (c : config) : bool :=
  osortedb scmp (c_types c) && forallb (fun kt => osortedb scmp (t_fields (snd kt)) && forallb (fun kf => nodupb (map fst (f_args (snd kf)))) (t_fields (snd kt))) (c_types c).
Lemma order_checked c : order_check c = true -> in_order c.
Proof.
  unfold order_check. rewrite andb_true_iff, forallb_forall. intros [A B]. split; [now apply (osortedb_ok scmp scmp_order)|].
  intros n g G. apply oget_cases in G. specialize (B _ G). cbn in B. apply andb_true_iff in B. destruct B as [B1 B2]. split; [now apply (osortedb_ok scmp scmp_order)|].
  intros k f K. apply oget_cases in K. rewrite forallb_forall in B2. apply nodupb_ok. exact (B2 _ K).
Qed.
Lemma users_leaf n b : In n ["Int"; "String"] -> tame (c_types users) (c_unions users) (TNamed n b).
Proof. intros H. apply tame_leaf; cbn in H; each_of H; subst; try reflexivity; now apply no_under_plain. Qed.
Lemma users_int_free : union_free (c_types users) (c_unions users) "Int".
Proof.
  intros x R. assert (x = "Int") as ->; [|reflexivity]. induction R as [|m u x R -> U I|m g k f R -> U G F]; [reflexivity|discriminate|discriminate].
Qed.
Lemma users_id b : tame (c_types users) (c_unions users) (TNamed "ById" b).
Proof. eapply tame_object; [reflexivity|reflexivity|]. intros k f K. apply oget_cases in K. cbn in K. each_of K. split; [reflexivity|]. apply users_leaf. now left. Qed.
Lemma users_key b : tame (c_types users) (c_unions users) (TNamed "Key" b).
Proof.
  eapply tame_union; [reflexivity|discriminate|]. intros m I. cbn in I. each_of I; subst; [apply users_id|].
  eapply tame_object; [reflexivity|reflexivity|]. intros k f K. apply oget_cases in K. cbn in K. each_of K. split; [reflexivity|]. apply users_leaf. right. now left.
Qed.
Lemma users_page b : tame (c_types users) (c_unions users) (TNamed "Page" b).
Proof.
  eapply tame_object; [reflexivity|reflexivity|]. intros k f K. apply oget_cases in K. cbn in K. each_of K; (split; [reflexivity|]); [apply users_key|].
  apply tame_list; [apply users_leaf; now left|exact users_int_free].
Qed.
Example C72_example_applies : exists c' g, union_input_type users = Some c' /\ in_order users /\ plain_names users /\
  oget scmp "Query" (c_types users) = Some g /\ oget scmp "users" (t_fields g) = Some users_field /\
  (forall x a, In (x, a) (f_args users_field) -> tame (c_types users) (c_unions users) (arg_type a)) /\ apart g "users".
Proof.
  eexists. eexists. split; [reflexivity|]. split; [now apply order_checked|]. split; [now apply plain_checked|]. split; [reflexivity|]. split; [reflexivity|]. split.
  - intros x a I. cbn in I. each_of I; [apply users_key|apply users_page].
  - intros k2 r I. cbn in I. each_of I; subst; discriminate.
Qed.
(** These arguments fit. *)
Example C72_example_values : args_fit leaves (c_types users) (c_unions users) users_field
  [("by", VObj [("name", VStr "Ann")]); ("in", VObj [("after", VObj [("id", VNum (NInt 7))]); ("size", VList [VNum (NInt 1); VNull])])].
Proof.
  assert (Id : forall b, fits leaves (c_types users) (c_unions users) (TNamed "ById" b) (VObj [("id", VNum (NInt 7))])).
  { intros b. eapply fits_object; [reflexivity|reflexivity|discriminate| |].
    - intros k I. cbn in I. each_of I. subst k. eexists. reflexivity.
    - intros k f K. apply oget_cases in K. cbn in K. each_of K. cbn. apply fits_leaf; [reflexivity|intros; discriminate|discriminate|reflexivity]. }
  intros k a I. cbn in I. each_of I; cbn.
  - eapply (fits_union _ _ _ "Key" true _ "ByName"); [reflexivity|cbn; auto|]. eapply fits_object; [reflexivity|reflexivity|discriminate| |].
    + intros k I. cbn in I. each_of I. subst k. eexists. reflexivity.
    + intros k f K. apply oget_cases in K. cbn in K. each_of K. cbn. apply fits_leaf; [reflexivity|intros; discriminate|discriminate|reflexivity].
  - eapply fits_object; [reflexivity|reflexivity|discriminate| |].
    + intros k I. cbn in I. each_of I; subst k; eexists; reflexivity.
    + intros k f K. apply oget_cases in K. cbn in K. each_of K; cbn.
      * eapply (fits_union _ _ _ "Key" false _ "ById"); [reflexivity|cbn; auto|apply Id].
      * apply fits_list. intros v I. cbn in I. each_of I; subst v; [|constructor]. apply fits_leaf; [reflexivity|intros; discriminate|discriminate|reflexivity].
Qed.

(** ** What the hypotheses leave out *)
(** A type that contains itself beside a union still leads to the union. *)
Definition chain : config :=
  wc [("A", by_id); ("B", by_name); ("Node", wt [("key", wf_ (wn "U") []); ("next", wf_ (wn "Node") [])]); ("Query", wt [("find", wf_ (wn "Int") [("by", wa (wn "Node"))])])]
     [("U", wu ["A"; "B"])].
Theorem C72_recursive_types_refuted : exists c c' g k f x a, union_input_type c = Some c' /\ in_order c /\ plain_names c /\
  oget scmp "Query" (c_types c') = Some g /\ oget scmp k (t_fields g) = Some f /\ In (x, a) (f_args f) /\
  ~ union_free (c_types c') (c_unions c') (type_name (arg_type a)).
Proof.
  exists chain. do 2 eexists. exists "findVar0". do 2 eexists. exists (wa (wn "Node__key0")).
  split; [reflexivity|]. split; [now apply order_checked|]. split; [now apply plain_checked|]. split; [reflexivity|]. split; [reflexivity|]. split; [now left|].
  intros H. specialize (H "U"). cbn in H. assert (Some (wu ["A"; "B"]) = None) as X; [apply H|discriminate].
  eapply (reaches_field _ _ _ "Node" _ "key" (wf_ (wn "U") [])); [|reflexivity|reflexivity|reflexivity].
  eapply (reaches_field _ _ _ "Node__key0" _ "next" (wf_ (wn "Node") [])); [apply reaches_self|reflexivity|reflexivity|reflexivity].
Qed.
Print Assumptions C72_recursive_types_refuted.
(** A list may have had items of several members. *)
Definition many : config :=
  wc [("A", by_id); ("B", by_name); ("Query", wt [("find", wf_ (wn "Int") [("by", wa (TList (wn "U") false))])])] [("U", wu ["A"; "B"])].
Definition mixed : list (string * value) := [("by", VList [VObj [("id", VNum (NInt 1))]; VObj [("name", VStr "x")]])].
Theorem C72_lists_refuted : exists c c' g g' f, union_input_type c = Some c' /\ in_order c /\ plain_names c /\
  oget scmp "Query" (c_types c) = Some g /\ oget scmp "find" (t_fields g) = Some f /\ oget scmp "Query" (c_types c') = Some g' /\
  args_fit leaves (c_types c) (c_unions c) f mixed /\
  forall k' f', oget scmp k' (t_fields g') = Some f' -> ~ args_fit leaves (c_types c') (c_unions c') f' mixed.
Proof.
  exists many. do 4 eexists. split; [reflexivity|]. split; [now apply order_checked|]. split; [now apply plain_checked|]. split; [reflexivity|]. split; [reflexivity|]. split; [reflexivity|]. split.
  - intros k a I. cbn in I. each_of I. cbn. apply fits_list. intros v J. cbn in J. each_of J; subst v.
    + eapply (fits_union _ _ _ "U" false _ "A"); [reflexivity|cbn; auto|]. eapply fits_object; [reflexivity|reflexivity|discriminate| |].
      * intros k I. cbn in I. each_of I. subst k. eexists. reflexivity.
      * intros k f K. apply oget_cases in K. cbn in K. each_of K. cbn. apply fits_leaf; [reflexivity|intros; discriminate|discriminate|reflexivity].
    + eapply (fits_union _ _ _ "U" false _ "B"); [reflexivity|cbn; auto|]. eapply fits_object; [reflexivity|reflexivity|discriminate| |].
      * intros k I. cbn in I. each_of I. subst k. eexists. reflexivity.
      * intros k f K. apply oget_cases in K. cbn in K. each_of K. cbn. apply fits_leaf; [reflexivity|intros; discriminate|discriminate|reflexivity].
  - intros k' f' K F. apply oget_cases in K. cbn in K. each_of K.
    + specialize (F "by" _ (or_introl eq_refl)). cbn in F. inversion F as [|  |? ? ? L| | |]; subst. specialize (L _ (or_intror (or_introl eq_refl))).
      inversion L as [| | | ? ? ? ? ? U|? ? g m U G N K A|? ? ? U G N Lf]; subst; [discriminate| |destruct Lf]. cbn in G. injection G as <-.
      destruct (K "name" (or_introl eq_refl)) as (f & Ff). discriminate.
    + specialize (F "by" _ (or_introl eq_refl)). cbn in F. inversion F as [|  |? ? ? L| | |]; subst. specialize (L _ (or_introl eq_refl)).
      inversion L as [| | | ? ? ? ? ? U|? ? g m U G N K A|? ? ? U G N Lf]; subst; [discriminate| |destruct Lf]. cbn in G. injection G as <-.
      destruct (K "id" (or_introl eq_refl)) as (f & Ff). discriminate.
Qed.
Print Assumptions C72_lists_refuted.
(** A field that has the name of a variant takes its place. *)
Definition clash : config :=
  wc [("A", by_id); ("B", by_name); ("Query", wt [("find", wf_ (wn "Int") [("by", wa (wn "U"))]); ("findVar0", wf_ (wn "Int") [])])] [("U", wu ["A"; "B"])].
Theorem C72_field_names_refuted : exists c c' g u, union_input_type c = Some c' /\ in_order c /\ plain_names c /\
  oget scmp "U" (c_unions c) = Some u /\ In "A" (u_types u) /\ oget scmp "Query" (c_types c') = Some g /\
  forall k f, oget scmp k (t_fields g) = Some f -> ~ In "A" (map (fun xa => type_name (arg_type (snd xa))) (f_args f)).
Proof.
  exists clash. do 3 eexists. split; [reflexivity|]. split; [now apply order_checked|]. split; [now apply plain_checked|]. split; [reflexivity|]. split; [now left|]. split; [reflexivity|].
  intros k f K. apply oget_cases in K. cbn in K. each_of K; cbn; intros I; each_of I; discriminate.
Qed.
Print Assumptions C72_field_names_refuted.
(** A type that has the name of a copy is replaced by it. *)
Definition taken : config :=
  wc [("A", by_id); ("B", by_name); ("Page", wt [("after", wf_ (wn "U") [])]); ("Page__after0", wt [("total", wf_ (wn "Int") [])]);
      ("Query", wt [("find", wf_ (wn "Page__after0") [("by", wa (wn "Page"))])])] [("U", wu ["A"; "B"])].
Theorem C72_type_names_refuted : exists c c' n g g', union_input_type c = Some c' /\ in_order c /\
  oget scmp n (c_types c) = Some g /\ oget scmp n (c_types c') = Some g' /\ map fst (t_fields g) = ["total"] /\ map fst (t_fields g') = ["after"].
Proof.
  exists taken. eexists. exists "Page__after0". do 2 eexists. split; [reflexivity|]. split; [now apply order_checked|]. split; [reflexivity|]. split; [reflexivity|]. split; reflexivity.
Qed.
Print Assumptions C72_type_names_refuted.
(** A field with a union without members goes away, though its argument could be left out. *)
Definition nobody : config := wc [("Query", wt [("find", wf_ (wn "Int") [("by", wa (wn "U"))])])] [("U", wu [])].
Theorem C72_empty_union_refuted : exists c c' g g' f, union_input_type c = Some c' /\ in_order c /\ plain_names c /\
  oget scmp "Query" (c_types c) = Some g /\ oget scmp "find" (t_fields g) = Some f /\ args_fit leaves (c_types c) (c_unions c) f [] /\
  oget scmp "Query" (c_types c') = Some g' /\ t_fields g' = [].
Proof.
  exists nobody. do 4 eexists. split; [reflexivity|]. split; [now apply order_checked|]. split; [now apply plain_checked|]. split; [reflexivity|]. split; [reflexivity|]. split; [|split; reflexivity].
  intros k a I. cbn in I. each_of I. apply fits_null_name.
Qed.
Print Assumptions C72_empty_union_refuted.
