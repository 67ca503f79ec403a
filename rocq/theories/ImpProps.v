(** Names of types from names of fields: theorems of property C77. *)
From Coq Require Import String Ascii ZArith Bool Arith List Lia.
From Verif Require Import Base BaseFacts Ordered OrderedFacts JsonModel TypeModel ConfigModel BuilderModel AmbModel RenameModel RenameSpec RenameProofs RenameProps ImpModel ImpSpec ImpProofs.
Import ListNotations.
Open Scope string_scope.
Open Scope list_scope.

(** ** The names *)
(** No two types get the same name, no type gets two, and no name is that of a type. *)
Theorem C77_distinct singular pascal lowercase c : let names := improved_names singular pascal lowercase c in
  NoDup (map fst names) /\ NoDup (map snd names) /\ forall v, In v (map snd names) -> find_type c v = None.
Proof.
  cbn zeta. pose proof (improved_fine singular pascal lowercase c) as F. split; [|split; [exact (fi_values _ _ _ _ _ F)|exact (fi_new _ _ _ _ _ F)]].
  apply (osorted_nodup scmp scmp_order). exact (fi_sorted _ _ _ _ _ F).
Qed.
Print Assumptions C77_distinct.

(** The name of a type is what most of its fields are called, in the singular, but for names of types
    and names that an earlier type got; of equals, the one that is not first met in a root type. *)
Theorem C77_most_used singular pascal lowercase c n v : let names := improved_names singular pascal lowercase c in
  In (n, v) names -> composite c n /\ exists s, v = pascal s /\ 0 < uses singular c n s /\
    forall s', 0 < uses singular c n s' -> preferred singular lowercase c n s' s -> find_type c (pascal s') <> None \/ exists n', scmp n' n = Lt /\ In (n', pascal s') names.
Proof.
  cbn zeta. intros H. pose proof (improved_fine singular pascal lowercase c) as F. destruct (fi_best _ _ _ _ _ F n v H) as (m & s & st & A & B & E & X).
  destruct (candidate_field singular pascal lowercase c n m s st A B) as (Cm & U & P & Ps). split; [exact Cm|]. exists s. split; [exact E|]. split; [exact P|]. intros s' L Pf.
  destruct (used_candidate singular pascal lowercase c n s' Cm L) as (m' & st' & A' & B' & U').
  assert (m' = m). { pose proof (gd_sorted _ _ (generate_good singular lowercase c)) as So. pose proof (in_oget scmp scmp_order n m _ So A) as O1. pose proof (in_oget scmp scmp_order n m' _ So A') as O2. congruence. }
  subst m'. destruct (candidate_field singular pascal lowercase c n m s' st' A B') as (_ & _ & _ & Ps'). apply (X s' st' B'). intros Na. apply Na. unfold cmp_pair, key. cbn [fst snd].
  rewrite U, U', Ps, Ps'. destruct Pf as [Lt_|(Eq_ & [(F1 & F2)|(F1 & F2)])].
  - apply Nat.compare_lt_iff in Lt_. now rewrite Lt_.
  - rewrite Eq_, Nat.compare_refl, F1, F2. reflexivity.
  - rewrite Eq_, Nat.compare_refl, F1, Nat.compare_refl. exact F2.
Qed.
Print Assumptions C77_most_used.

(** A type that keeps its name had no choice. *)
Theorem C77_no_choice singular pascal lowercase c n s : let names := improved_names singular pascal lowercase c in
  composite c n -> 0 < uses singular c n s -> ~ In n (map fst names) -> find_type c (pascal s) <> None \/ exists n', n' <> n /\ In (n', pascal s) names.
Proof.
  cbn zeta. intros Cm U N. destruct (used_candidate singular pascal lowercase c n s Cm U) as (m & st & A & B & _). pose proof (improved_fine singular pascal lowercase c) as F.
  unfold improved_names, converge in *. destruct (unnamed pascal c n m s st B _ ([], []) A N) as [X|X]; [now left|right]. apply (fi_converged _ _ _ _ _ F) in X.
  apply in_map_iff in X. destruct X as ([n' v] & E & X). cbn in E. subst v. exists n'. split; [|exact X]. intros ->. apply N, in_map_iff. eexists. split; [|exact X]. reflexivity.
Qed.
Print Assumptions C77_no_choice.

(** ** The renaming *)
Theorem C77_consistent_partial singular pascal lowercase c : closed c -> apart singular pascal c -> proper_roots c ->
  exists c', improve_type_names singular pascal lowercase c = Ok c' /\ consistently_renamed (improved_names singular pascal lowercase c) c c' /\
    forall n, is_predefined n = true -> find_type c n = None -> find_type c' n = None.
Proof.
  intros Cl Ap Pr. set (names := improved_names singular pascal lowercase c). destruct (C77_distinct singular pascal lowercase c) as (D1 & D2 & D3).
  pose proof (C77_most_used singular pascal lowercase c) as M. cbn zeta in *. fold names in D1, D2, D3, M.
  assert (Fld : forall n v, In (n, v) names -> defined c n /\ find_enum c v = None /\ find_union c v = None /\ is_predefined v = false).
  { intros n v H. destruct (M n v H) as (Cm & s & E & U & _). destruct (uses_field singular c n s U) as (k & t & f & x & A & B & Tn & Sg). subst n s v. split; [now apply (Cl k t f x)|now apply (Ap k t f x)]. }
  assert (Fr : fresh_names names c).
  { assert (New : forall v, In v (map snd names) -> ~ defined c v).
    { intros v H Df. pose proof (D3 v H) as T. apply in_map_iff in H. destruct H as ([n v'] & E & H). cbn in E. subst v'. destruct (Fld n v H) as (_ & En & Un & _). destruct Df as [X|[X|X]]; congruence. }
    split; [exact D1|exact D2|exact New|]. intros v H K. apply (New v H). apply in_map_iff in K. destruct K as ([n w] & E & K). cbn in E. subst n. exact (proj1 (Fld v w K)). }
  destruct (proj2 (C37_fails_only_on_missing_names names c Fr Pr)) as (c' & R).
  { intros k K. apply in_map_iff in K. destruct K as ([n w] & E & K). cbn in E. subst n. exact (proj1 (Fld k w K)). }
  exists c'. split; [exact R|]. pose proof (C37_renaming_is_consistent_partial names c c' Fr Pr R) as Cr. split; [exact Cr|].
  intros n Pn T. destruct (find_type c' n) as [t'|] eqn:T'; [|reflexivity]. destruct (proj2 (cr_types _ _ _ Cr) n t' T') as (n0 & t & E & T0 & _).
  unfold new_name in E. destruct (aget n0 names) as [v|] eqn:G; [|congruence]. subst v. apply aget_In in G. destruct (Fld n0 n G) as (_ & _ & _ & X). congruence.
Qed.
Print Assumptions C77_consistent_partial.

(** ** Examples *)
(** A plural ends in s; upper and lower case of letters. *)
Fixpoint drop_s (s : string) : string :=
  match s with "s" => "" | String a r => String a (drop_s r) | EmptyString => EmptyString end.
Definition upper (a : ascii) : ascii := if Nat.leb 97 (nat_of_ascii a) && Nat.leb (nat_of_ascii a) 122 then ascii_of_nat (nat_of_ascii a - 32) else a.
Definition lower (a : ascii) : ascii := if Nat.leb 65 (nat_of_ascii a) && Nat.leb (nat_of_ascii a) 90 then ascii_of_nat (nat_of_ascii a + 32) else a.
Definition capital (s : string) : string := match s with String a r => String (upper a) r | EmptyString => EmptyString end.
Fixpoint lowered (s : string) : string := match s with String a r => String (lower a) (lowered r) | EmptyString => EmptyString end.
Definition improve : config -> result config unit := improve_type_names drop_s capital lowered.

Definition some (n : string) : field := fld (TList (TNamed n false) false).
Definition blog : config := conf (Some "Query") None None
  [("Query", obj [("user", fld (named "T1")); ("users", some "T1")]);
   ("T1", obj [("name", fld (named "String")); ("posts", some "T2")]);
   ("T2", obj [("author", fld (named "T1")); ("date", fld (named "Date"))])] [].
Example C77_example_result : improve blog = Ok (conf (Some "Query") None None
  [("Post", obj [("author", fld (named "User")); ("date", fld (named "Date"))]);
   ("Query", obj [("user", fld (named "User")); ("users", some "User")]);
   ("User", obj [("name", fld (named "String")); ("posts", some "Post")])] []).
Proof. vm_compute. reflexivity. Qed.
Definition closed_check (c : config) : bool :=
  forallb (fun kt => forallb (fun fx => match find_type c (type_name (f_type (snd fx))), find_enum c (type_name (f_type (snd fx))), find_union c (type_name (f_type (snd fx))) with
    | None, None, None => is_predefined (type_name (f_type (snd fx))) | _, _, _ => true end) (t_fields (snd kt))) (c_types c).
Lemma closed_checked c : closed_check c = true -> closed c.
Proof.
  unfold closed_check. intros H k t f x I J Cm. rewrite forallb_forall in H. specialize (H _ I). cbn in H. rewrite forallb_forall in H. specialize (H _ J). cbn in H. unfold defined, composite in *.
  destruct (find_type c _); [left; discriminate|]. destruct (find_enum c _); [right; left; discriminate|]. destruct (find_union c _); [right; right; discriminate|congruence].
Qed.
Lemma no_root_differs c q : c_schema c = {| r_query := Some q; r_mutation := None; r_subscription := None |} -> find_type c q <> None -> proper_roots c.
Proof. intros E F. split; rewrite E; cbn; intros x H; congruence. Qed.
Example C77_example_applies : closed blog /\ apart drop_s capital blog /\ proper_roots blog /\ uses drop_s blog "T1" "user" = 2 /\ uses drop_s blog "T1" "author" = 1 /\ preferred drop_s lowered blog "T1" "user" "author" /\
  composite blog "T1" /\ improved_names drop_s capital lowered blog = [("T1", "User"); ("T2", "Post")].
Proof.
  split; [now apply closed_checked|]. split; [|split; [now apply (no_root_differs _ "Query")|split; [reflexivity|split; [reflexivity|split; [left; vm_compute; auto|split; [discriminate|vm_compute; reflexivity]]]]]].
  intros k t f x I J Cm. cbn in I. destruct I as [I|[I|[I|[]]]]; injection I as <- <-; cbn in J; destruct J as [J|[J|[]]]; injection J as <- <-; vm_compute; auto; discriminate Cm.
Qed.

(** ** What does not hold *)
(** A type may get the name of a predefined scalar: fields of that scalar then are of the type. *)
Definition shop : config := conf (Some "Query") None None
  [("Query", obj [("date", fld (named "Day")); ("today", fld (named "Date"))]); ("Day", obj [("number", fld (named "Int"))])] [].
Theorem C77_scalars_refuted : exists c c' t t', closed c /\ proper_roots c /\ improve c = Ok c' /\
  find_type c "Query" = Some t /\ find_type c' "Query" = Some t' /\ oget scmp "today" (t_fields t) = oget scmp "today" (t_fields t') /\
  oget scmp "today" (t_fields t) = Some (fld (named "Date")) /\ ~ composite c "Date" /\ composite c' "Date".
Proof.
  exists shop. eexists _, _, _. split; [now apply closed_checked|]. split; [now apply (no_root_differs _ "Query")|]. split; [vm_compute; reflexivity|].
  repeat (split; [vm_compute; reflexivity|]). split; [discriminate|]. vm_compute. discriminate.
Qed.
Print Assumptions C77_scalars_refuted.

(** An enum may get the name of another enum, which is lost, and a field of the one may be left with a name
    that nothing has. *)
Definition with_enums (l : list (string * genum)) (c : config) : config :=
  {| c_server := c_server c; c_upstream := c_upstream c; c_schema := c_schema c; c_types := c_types c; c_unions := c_unions c; c_enums := l; c_links := c_links c; c_telemetry := c_telemetry c |}.
Definition colours (l : list string) : genum := {| e_variants := map (fun n => (n, None)) l; e_doc := None |}.
Definition lamps : config := with_enums [("Shade", colours ["DARK"]); ("Tint", colours ["RED"])]
  (conf (Some "Query") None None [("Query", obj [("tint", fld (named "Shade")); ("zone", fld (named "Tint"))])] []).
Theorem C77_enums_refuted : exists c c' e, closed c /\ proper_roots c /\ improve c = Ok c' /\ (exists n, find_enum c n = Some e) /\ (forall n, find_enum c' n <> Some e) /\ ~ closed c'.
Proof.
  exists lamps. eexists _, (colours ["RED"]). split; [now apply closed_checked|]. split; [now apply (no_root_differs _ "Query")|]. split; [vm_compute; reflexivity|].
  split; [exists "Tint"; reflexivity|]. split.
  - intros n. unfold find_enum. intros H. apply (oget_in scmp scmp_order) in H. cbn in H. repeat (destruct H as [H|H]; [discriminate H|]). exact H.
  - intros H. destruct (H _ _ _ _ (or_introl eq_refl) (or_introl eq_refl) eq_refl) as [X|[X|X]]; now apply X.
Qed.
Print Assumptions C77_enums_refuted.

(** A field of an unknown type makes the whole configuration fail. *)
Theorem C77_unknown_types_refuted : exists c, proper_roots c /\ improve c = Err tt.
Proof. exists (conf (Some "Query") None None [("Query", obj [("user", fld (named "Missing"))])] []). split; [now apply (no_root_differs _ "Query")|vm_compute; reflexivity]. Qed.
Print Assumptions C77_unknown_types_refuted.

(** A type that has the name of its fields already gets another one, and gets it back the next time. *)
Definition posts : config := conf (Some "Query") None None
  [("Post", obj [("id", fld (named "ID"))]); ("Query", obj [("article", fld (named "Post")); ("post", fld (named "Post")); ("posts", some "Post")])] [].
Theorem C77_stable_refuted : exists c c', closed c /\ apart drop_s capital c /\ proper_roots c /\ improve c = Ok c' /\ c' <> c /\ improve c' = Ok c.
Proof.
  exists posts. eexists. split; [now apply closed_checked|]. split.
  { intros k t f x I J _. cbn in I. destruct I as [I|[I|[]]]; injection I as <- <-; cbn in J; repeat (destruct J as [J|J]; [injection J as <- <-; vm_compute; auto|]); destruct J. }
  split; [now apply (no_root_differs _ "Query")|]. split; [vm_compute; reflexivity|]. split; [intros H; discriminate H|vm_compute; reflexivity].
Qed.
Print Assumptions C77_stable_refuted.
