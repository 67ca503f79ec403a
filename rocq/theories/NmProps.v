(** C87: names that a language model suggests for generated types. *)
From Coq Require Import String Ascii ZArith NArith Bool Lia List Permutation.
From Verif Require Import Base Ordered OrderedFacts JsonModel TypeModel ConfigModel RenameModel RenameSpec ImpModel NmModel NmSpec NmProofs.
Import ListNotations.
Open Scope string_scope.
Open Scope list_scope.

(** ** The names *)
(** Whatever the answers are: only generated types that are no roots get new names, each one that was suggested for it and is the name of no type;
    no name is given twice.  A generated type keeps its name only if all that was suggested is taken, or if its name is that of a root in other case. *)
Theorem C87_names : forall lowercase generated ask fuel c names waits,
  infer lowercase generated ask fuel c = Some (names, waits) -> osorted scmp (c_types c) ->
  NoDup (map fst names) /\ NoDup (map snd names) /\
  (forall k v, In (k, v) names ->
     (exists t l, In (k, t) (c_types c) /\ answered ask t l /\ In v l) /\ find_type c v = None /\ ~ is_root c k /\ exists r, k = (generated ++ r)%string) /\
  (forall k t r, In (k, t) (c_types c) -> k = (generated ++ r)%string -> (forall n, is_root c n -> lowercase n <> lowercase k) -> (exists v, In (k, v) names) \/
     exists l, answered ask t l /\ forall v, In v l -> find_type c v <> None \/ In v (map snd names)).
Proof.
  intros lw g ask fuel c names ws H S. destruct (infer_names lw g ask fuel c names ws H S) as (A & B & C & D & _). split; [exact A|]. split; [exact B|]. split; [exact C|].
  intros k t r I E N. apply (D k t r I E). unfold is_root_operation_type. cbn.
  assert (X : forall o, (forall n, o = Some n -> is_root c n) -> match o with Some n => String.eqb (lw n) (lw k) | None => false end = false).
  { intros [n|] Hn; [|reflexivity]. apply String.eqb_neq. apply N. now apply Hn. }
  rewrite !X; [reflexivity|intros n E'; right; now right|intros n E'; right; now left|intros n E'; now left].
Qed.
Print Assumptions C87_names.

(** ** The renamed configuration *)
(** In whatever order the new names are used, renaming succeeds, all definitions and references are renamed alike and the roots are as they were,
    provided that no suggestion is the name of an enum or a union. *)
Theorem C87_renaming_is_consistent_partial : forall lowercase generated ask fuel c names waits names',
  infer lowercase generated ask fuel c = Some (names, waits) -> osorted scmp (c_types c) -> proper_roots c ->
  (forall t l v, answered ask t l -> In v l -> find_enum c v = None /\ find_union c v = None) ->
  Permutation names names' ->
  exists c', rename_types names' c = Ok c' /\ consistently_renamed names' c c' /\ c_schema c' = c_schema c.
Proof. exact infer_consistent. Qed.
Print Assumptions C87_renaming_is_consistent_partial.

(** ** It ends *)
(** If every question is answered at last, however often it fails before, then there are names. *)
Theorem C87_ends : forall lowercase generated ask c,
  (forall t q n, asked t q -> exists m l, n <= m /\ ask m q = Suggestions l) ->
  exists fuel names waits, infer lowercase generated ask fuel c = Some (names, waits).
Proof.
  intros lw g ask c H. destruct (from_ends ask c (to_be_processed lw g c) (used_at_first g c) 0) as (fuel & [names ws] & E); [|exists fuel, names, ws; exact E].
  intros k t n _. apply (H t _ n). apply asked_of.
Qed.
Print Assumptions C87_ends.

(** The waits after failures of the service: 3, 18 and 648 seconds, and from then on sixty times the last. *)
Theorem C87_waits : forall lowercase generated ask fuel c names waits,
  infer lowercase generated ask fuel c = Some (names, waits) -> osorted scmp (c_types c) ->
  forall ws, In ws waits -> exists j, ws = map wait (seq 0 j).
Proof. intros lw g ask fuel c names ws H S. exact (proj2 (proj2 (proj2 (proj2 (infer_names lw g ask fuel c names ws H S))))). Qed.
Print Assumptions C87_waits.

(** ** A case *)
Definition fld87 (t : string) : field :=
  {| f_type := TNamed t false; f_args := []; f_doc := None; f_modify := None; f_omit := false; f_cache := None; f_default := None; f_protected := None;
     f_discriminate := None; f_resolvers := []; f_directives := [] |}.
Definition obj87 (fs : list (string * field)) : gtype :=
  {| t_fields := fs; t_added := []; t_doc := None; t_implements := []; t_cache := None; t_protected := None; t_resolvers := []; t_directives := [] |}.
Definition conf87 (types : list (string * gtype)) (enums : list (string * genum)) : config :=
  {| c_server := empty_server; c_upstream := empty_upstream; c_schema := {| r_query := Some "Query"; r_mutation := None; r_subscription := None |};
     c_types := types; c_unions := []; c_enums := enums; c_links := []; c_telemetry := empty_telemetry |}.
Definition app87 : config := conf87
  [("GEN__1", obj87 [("friend", fld87 "GEN__2"); ("name", fld87 "String")]); ("GEN__2", obj87 [("name", fld87 "String")]); ("Query", obj87 [("user", fld87 "GEN__1")])] [].
(** The first question fails; both types get the same suggestions. *)
Definition ask87 (n : nat) (q : question) : outcome := match n with O => GenAIError | _ => Suggestions ["Query"; "GEN__2"; "User"; "Friend"] end.
Definition id87 (s : string) : string := s.
Lemma sorted87 : osorted scmp (c_types app87).
Proof. repeat (apply osorted_cons; [intros k v H; repeat destruct H as [H|H]; try injection H as <- <-; try reflexivity; destruct H|]). apply osorted_nil. Qed.
Lemma roots87 types enums : (exists g, oget scmp "Query" types = Some g) -> proper_roots (conf87 types enums).
Proof. intros [g G]. split; cbn; [intros q E; injection E as <-; unfold find_type; cbn; congruence|discriminate|discriminate]. Qed.
Example C87_example : infer id87 "GEN__" ask87 2 app87 = Some ([("GEN__1", "User"); ("GEN__2", "Friend")], [[3%Z]; []]) /\
  osorted scmp (c_types app87) /\ proper_roots app87 /\ (forall t l v, answered ask87 t l -> In v l -> find_enum app87 v = None /\ find_union app87 v = None).
Proof. split; [vm_compute; reflexivity|]. split; [exact sorted87|]. split; [apply roots87; eexists; reflexivity|]. intros. split; reflexivity. Qed.
Example C87_renamed_example : exists c', rename_types [("GEN__2", "Friend"); ("GEN__1", "User")] app87 = Ok c' /\ map fst (c_types c') = ["Friend"; "Query"; "User"].
Proof. eexists. split; vm_compute; reflexivity. Qed.
Example C87_ends_example : forall (t : gtype) q n, asked t q -> exists m l, n <= m /\ ask87 m q = Suggestions l.
Proof. intros t q n _. exists (S n). eexists. split; [lia|reflexivity]. Qed.

(** ** What does not hold *)
(** Suggestions are not compared with the names of enums. *)
Definition clash87 : config := conf87 [("GEN__1", obj87 [("status", fld87 "Status")]); ("Query", obj87 [("user", fld87 "GEN__1")])]
  [("Status", {| e_variants := []; e_doc := None |})].
Theorem C87_names_are_new_refuted : exists ask fuel c names waits c' n,
  infer id87 "GEN__" ask fuel c = Some (names, waits) /\ proper_roots c /\ rename_types names c = Ok c' /\
  (forall m, find_type c m = None \/ find_enum c m = None) /\ find_type c' n <> None /\ find_enum c' n <> None.
Proof.
  exists (fun _ _ => Suggestions ["Status"]), 1, clash87. eexists _, _, _, "Status". split; [vm_compute; reflexivity|]. split; [apply roots87; eexists; reflexivity|]. split; [vm_compute; reflexivity|].
  split; [|split; discriminate]. intros m. unfold find_type, find_enum. cbn [clash87 conf87 c_types c_enums oget]. destruct (scmp m "Status") eqn:E; [|right; reflexivity|right; reflexivity].
  apply (to_eq scmp scmp_order) in E. subst m. left. reflexivity.
Qed.
Print Assumptions C87_names_are_new_refuted.

(** Nor with the names of built-in scalars: a text becomes an object. *)
Theorem C87_scalars_stay_scalars_refuted : exists ask fuel c names waits c' f,
  infer id87 "GEN__" ask fuel c = Some (names, waits) /\ proper_roots c /\ rename_types names c = Ok c' /\ find_type c "String" = None /\
  (exists g, find_type c "Query" = Some g /\ oget scmp "name" (t_fields g) = Some f /\ f_type f = TNamed "String" false) /\
  (exists g, find_type c' "Query" = Some g /\ oget scmp "name" (t_fields g) = Some f) /\ find_type c' "String" <> None.
Proof.
  exists (fun _ _ => Suggestions ["String"]), 1, (conf87 [("GEN__1", obj87 [("id", fld87 "Int")]); ("Query", obj87 [("name", fld87 "String"); ("user", fld87 "GEN__1")])] []).
  eexists _, _, _, (fld87 "String"). split; [vm_compute; reflexivity|]. split; [apply roots87; eexists; reflexivity|]. split; [vm_compute; reflexivity|]. split; [reflexivity|].
  split; [eexists; repeat split; reflexivity|]. split; [eexists; split; vm_compute; reflexivity|discriminate].
Qed.
Print Assumptions C87_scalars_stay_scalars_refuted.

(** Where the service does not answer, generating never ends. *)
Theorem C87_always_ends_refuted : exists ask c, forall fuel, infer id87 "GEN__" ask fuel c = None.
Proof.
  exists (fun _ _ => OtherError), app87. intros fuel. unfold infer. change (to_be_processed id87 "GEN__" app87) with [("GEN__1", obj87 [("friend", fld87 "GEN__2"); ("name", fld87 "String")]); ("GEN__2", obj87 [("name", fld87 "String")])].
  cbn [infer_from]. rewrite loop_stuck; [reflexivity|]. intros n. exists OtherError. auto.
Qed.
Print Assumptions C87_always_ends_refuted.

(** The waits are not limited to 60 seconds, nor to anything. *)
Theorem C87_waits_are_limited_refuted : forall limit : Z, exists ask c fuel names waits ws w,
  infer id87 "GEN__" ask fuel c = Some (names, waits) /\ In ws waits /\ In w ws /\ (limit < w)%Z.
Proof.
  intros limit. set (k := Z.to_nat limit). exists (fun n _ => if Nat.leb n k then GenAIError else Suggestions ["A"]), (conf87 [("GEN__1", obj87 [])] []), (S (S k)). unfold infer.
  change (to_be_processed id87 "GEN__" (conf87 [("GEN__1", obj87 [])] [])) with [("GEN__1", obj87 [])]. cbn [infer_from].
  rewrite (loop_failures _ (question_of (obj87 [])) ["A"] (S k) 0 0 []).
  - eexists _, _, _, (wait k). split; [reflexivity|]. split; [now left|]. split; [apply in_map, in_seq; lia|]. pose proof (wait_grows k). unfold k in *. lia.
  - intros m L. cbn. now rewrite (proj2 (Nat.leb_le m k)) by lia.
  - change (0 + S k) with (S k). cbv beta. now rewrite (proj2 (Nat.leb_nle (S k) k)) by lia.
Qed.
Print Assumptions C87_waits_are_limited_refuted.
