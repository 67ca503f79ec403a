(** Removal of unused definitions: theorems of property C75. *)
From Coq Require Import String Bool Arith List Lia.
From Verif Require Import Base BaseFacts TypeModel ShrinkModel ShrinkSpec ShrinkProofs.
Import ListNotations.
Open Scope string_scope.
Open Scope list_scope.

(** ** The end *)
Theorem C75_ends b : exists enough, forall fuel, enough <= fuel -> exists b', compress fuel b = Some b'.
Proof.
  exists (S (length (rev (root_types b)) + pending (build_dependency_graph (bp_defs b)) [])). intros fuel L. unfold compress.
  destruct (identify_referenced_types _ _ _ _) as [r|] eqn:E; [eauto|]. exfalso. revert E. apply identify_ends. lia.
Qed.
Print Assumptions C75_ends.

(** ** What is kept *)
(** Definitions are kept as they are and in their order, or removed, by their name. *)
Theorem C75_unchanged fuel b b' : compress fuel b = Some b' ->
  bp_query b' = bp_query b /\ bp_mutation b' = bp_mutation b /\
  exists keep : string -> bool, bp_defs b' = filter (fun d => keep (bdef_name d)) (bp_defs b) /\ forall n, root b n -> keep n = true.
Proof.
  intros H. destruct (compress_kept b fuel b' H) as (r & R & ->). split; [reflexivity|]. split; [reflexivity|].
  exists (fun n => smem n (always_kept ++ r)). split; [reflexivity|]. intros n Rn. apply smem_In, in_app_iff. right. apply R. now apply root_walked.
Qed.
Print Assumptions C75_unchanged.

(** Whatever a client can meet is kept. *)
Theorem C75_kept_partial fuel b b' : compress fuel b = Some b' -> distinct b -> conforming b ->
  forall n d, met b n -> In d (bp_defs b) -> titled d n -> In d (bp_defs b').
Proof.
  intros H D C n d M I T. destruct (compress_kept b fuel b' H) as (r & R & ->). cbn [bp_defs]. apply filter_In. split; [exact I|].
  apply titled_name in T. subst n. apply smem_In, in_app_iff. right. apply R. now apply met_walked.
Qed.
Print Assumptions C75_kept_partial.

(** The types of introspection are kept. *)
Theorem C75_introspection_kept fuel b b' : compress fuel b = Some b' ->
  forall n d, In n ["__Schema"; "__Type"; "__Field"; "__InputValue"; "__EnumValue"; "__Directive"; "__DirectiveLocation"] -> In d (bp_defs b) -> titled d n -> In d (bp_defs b').
Proof.
  intros H n d I Id T. destruct (compress_kept b fuel b' H) as (r & R & ->). cbn [bp_defs]. apply filter_In. split; [exact Id|]. apply titled_name in T. subst n.
  apply smem_In, in_app_iff. left. unfold always_kept. do 3 right. exact I.
Qed.
Print Assumptions C75_introspection_kept.

(** No definition that is kept names one that is removed, and no interface loses an object. *)
Theorem C75_closed_partial fuel b b' : compress fuel b = Some b' -> distinct b -> conforming b -> values_apart b ->
  (forall n, defined b n -> ~ internal n) ->
  (forall d m, In d (bp_defs b') -> mentions d m -> defined b m -> defined b' m) /\
  (forall i fs is o ofs ois, In (BInterface i fs is) (bp_defs b') -> In (BObject o ofs ois) (bp_defs b) -> In i ois -> In (BObject o ofs ois) (bp_defs b')).
Proof.
  intros H D C V N. pose proof (C75_kept_partial fuel b b' H D C) as K.
  assert (Met : forall d n, In d (bp_defs b') -> titled d n -> met b n).
  { intros d n I T. destruct (compress_kept b fuel b' H) as (r & R & ->). cbn [bp_defs] in I. apply filter_In in I. destruct I as [I S].
    assert (Df : defined b n) by (exists d; auto). apply titled_name in T. rewrite T in S. apply smem_In, in_app_iff in S. destruct S as [S|S].
    - cbn in S. specialize (N n Df). unfold internal in N.
      repeat (destruct S as [<-|S]; [first [apply met_root; unfold root; now auto | exfalso; apply N; eexists; reflexivity]|]). contradiction.
    - apply R in S. apply walked_met in S; [|exact V]. destruct S as [S|S]; [exact S|contradiction]. }
  split.
  - intros d m I M (dm & Im & Tm). exists dm. split; [|exact Tm]. eapply K; [|exact Im|exact Tm].
    assert (Ib : In d (bp_defs b)) by (destruct (compress_kept b fuel b' H) as (r & _ & ->); cbn [bp_defs] in I; now apply filter_In in I).
    eapply met_named; [exact (Met d _ I (proj2 (titled_name d _) eq_refl))|exact Ib|now apply titled_name|exact M].
  - intros i fs is o ofs ois I IO J. eapply K; [|exact IO|constructor].
    assert (Ib : In (BInterface i fs is) (bp_defs b)) by (destruct (compress_kept b fuel b' H) as (r & _ & ->); cbn [bp_defs] in I; now apply filter_In in I).
    eapply met_object; [eapply Met; [exact I|constructor]|exact Ib|exact IO|exact J].
Qed.
Print Assumptions C75_closed_partial.

(** Whatever is kept can be met, or has a name that belongs to introspection. *)
Theorem C75_unused_removed_partial fuel b b' : compress fuel b = Some b' -> values_apart b ->
  forall d n, In d (bp_defs b') -> titled d n -> met b n \/ internal n.
Proof.
  intros H V d n I T. destruct (compress_kept b fuel b' H) as (r & R & ->). cbn [bp_defs] in I. apply filter_In in I. destruct I as [I S].
  assert (Df : defined b n) by (exists d; auto). apply titled_name in T. rewrite T in S. apply smem_In, in_app_iff in S. destruct S as [S|S].
  - cbn in S. repeat (destruct S as [<-|S]; [first [left; apply met_root; unfold root; now auto | right; eexists; reflexivity]|]). contradiction.
  - apply R in S. apply walked_met in S; [|exact V]. destruct S as [S|S]; [now left|contradiction].
Qed.
Print Assumptions C75_unused_removed_partial.

(** A second removal removes nothing. *)
Theorem C75_once fuel fuel' b b' b'' : compress fuel b = Some b' -> compress fuel' b' = Some b'' -> b'' = b'.
Proof. apply compress_again. Qed.
Print Assumptions C75_once.

(** ** A blueprint *)
Definition bt (n : string) : typ := TNamed n false.
Definition bf (n t : string) : bfield := {| bf_name := n; bf_type := bt t; bf_args := [] |}.
Definition bfa (n t a at_ : string) : bfield := {| bf_name := n; bf_type := bt t; bf_args := [(a, TList (TNamed at_ true) true)] |}.
Definition pets : list bdef :=
  [BObject "Query" [bf "node" "Node"; bf "pet" "Pet"] []; BInterface "Node" [bfa "name" "String" "filter" "Filter"] [];
   BObject "Cat" [bfa "name" "String" "filter" "Filter"; bf "mood" "Mood"] ["Node"]; BObject "Dog" [bf "bark" "Sound"] [];
   BObject "Lost" [bf "again" "Lost"] []; BUnion "Pet" ["Cat"; "Dog"]; BEnum "Mood" ["HAPPY"; "Loud"]; BInput "Filter" [("by", bt "Deep")]; BInput "Deep" [("x", bt "Int")];
   BScalar "Sound"; BScalar "Unused"; BObject "Roots" [bf "ok" "Boolean"] []].
Definition pet_shop : blueprint := {| bp_query := "Query"; bp_mutation := Some "Roots"; bp_defs := pets |}.
Example C75_example_result fuel : compress (40 + fuel) pet_shop = Some {| bp_query := "Query"; bp_mutation := Some "Roots"; bp_defs :=
  [BObject "Query" [bf "node" "Node"; bf "pet" "Pet"] []; BInterface "Node" [bfa "name" "String" "filter" "Filter"] [];
   BObject "Cat" [bfa "name" "String" "filter" "Filter"; bf "mood" "Mood"] ["Node"]; BObject "Dog" [bf "bark" "Sound"] [];
   BUnion "Pet" ["Cat"; "Dog"]; BEnum "Mood" ["HAPPY"; "Loud"]; BInput "Filter" [("by", bt "Deep")]; BInput "Deep" [("x", bt "Int")];
   BScalar "Sound"; BObject "Roots" [bf "ok" "Boolean"] []] |}.
Proof. destruct fuel; vm_compute; reflexivity. Qed.

Example C75_example_introspection fuel : compress (40 + fuel) {| bp_query := "Query"; bp_mutation := None; bp_defs := [BObject "Query" [bf "ok" "Boolean"] []; BObject "__Schema" [bf "types" "__Type"] []; BObject "__Type" [] []; BObject "__Other" [] []] |} =
  Some {| bp_query := "Query"; bp_mutation := None; bp_defs := [BObject "Query" [bf "ok" "Boolean"] []; BObject "__Schema" [bf "types" "__Type"] []; BObject "__Type" [] []] |}.
Proof. destruct fuel; vm_compute; reflexivity. Qed.
Lemma distinct_check b : NoDup (map bdef_name (bp_defs b)) -> distinct b.
Proof.
  intros N d d' n I I' T T'. apply titled_name in T, T'. revert I I'. induction (bp_defs b) as [|x l IH]; [contradiction|]. cbn in N. inversion N as [|? ? X Y]; subst.
  intros [->|I] [E|I']; [assumption| | |now apply IH].
  - exfalso. apply X. rewrite <- T'. now apply in_map.
  - subst. exfalso. apply X. rewrite T'. now apply in_map.
Qed.
Ltac pick H := repeat (destruct H as [H|H]; [first [discriminate H|injection H; clear H; intros; subst]|]); [..|contradiction H].
Example C75_example_applies : distinct pet_shop /\ conforming pet_shop /\ values_apart pet_shop /\ (forall n, defined pet_shop n -> ~ internal n) /\ met pet_shop "Deep".
Proof.
  split.
  { apply distinct_check. cbn. repeat (constructor; [cbn; intros X; repeat (destruct X as [X|X]; [discriminate X|]); exact X|]). constructor. }
  split.
  { intros i fs is I. cbn in I. pick I. split.
    - do 3 eexists. split; [right; right; left; reflexivity|now left].
    - intros o ofs ois I J. cbn in I. pick I; try contradiction. split; [intros m []|]. intros f a t n F A N. destruct F as [<-|[]]. eexists. exists t. split; [now left|]. auto. }
  split.
  { intros e vs v I J (d & Id & T). cbn in I. pick I. apply titled_name in T. cbn in J. destruct J as [<-|[<-|[]]]; cbn in Id; repeat (destruct Id as [<-|Id]; [discriminate T|]); contradiction. }
  split.
  { intros n (d & Id & T) (r & ->). apply titled_name in T. cbn in Id. repeat (destruct Id as [<-|Id]; [discriminate T|]); contradiction. }
  assert (Q : met pet_shop "Query") by (apply met_root; now left).
  assert (N : met pet_shop "Node") by (eapply met_named; [exact Q|left; reflexivity|constructor|eapply m_object; [left; reflexivity|left; constructor]]).
  assert (F : met pet_shop "Filter").
  { eapply met_named; [exact N|right; left; reflexivity|constructor|eapply m_interface; [left; reflexivity|right; do 2 eexists; split; [left; reflexivity|repeat constructor]]]. }
  eapply met_named; [exact F|do 7 right; left; reflexivity|constructor|eapply m_input; [left; reflexivity|constructor]].
Qed.

(** ** What does not hold *)
(** The types of the arguments of an interface's fields are not followed: if no object implements
    the interface, its definition names a type that is gone. *)
Definition lonely : blueprint := {| bp_query := "Query"; bp_mutation := None; bp_defs :=
  [BObject "Query" [bf "node" "Node"] []; BInterface "Node" [bfa "name" "String" "filter" "Filter"] []; BInput "Filter" [("x", bt "Int")]] |}.
Theorem C75_arguments_refuted : exists b b' d m, distinct b /\ values_apart b /\ (forall fuel, compress (20 + fuel) b = Some b') /\
  In d (bp_defs b') /\ mentions d m /\ defined b m /\ ~ defined b' m.
Proof.
  exists lonely, {| bp_query := "Query"; bp_mutation := None; bp_defs := [BObject "Query" [bf "node" "Node"] []; BInterface "Node" [bfa "name" "String" "filter" "Filter"] []] |},
    (BInterface "Node" [bfa "name" "String" "filter" "Filter"] []), "Filter".
  split; [apply distinct_check; cbn; repeat (constructor; [cbn; intros X; repeat (destruct X as [X|X]; [discriminate X|]); exact X|]); constructor|].
  split; [intros e vs v I; cbn in I; exfalso; repeat (destruct I as [I|I]; [discriminate I|]); contradiction|].
  split; [intros [|fuel]; vm_compute; reflexivity|]. split; [right; now left|].
  split; [eapply m_interface; [left; reflexivity|right; do 2 eexists; split; [left; reflexivity|repeat constructor]]|].
  split; [eexists; split; [do 2 right; left; reflexivity|constructor]|]. intros (d & I & T). apply titled_name in T. cbn in I. repeat (destruct I as [<-|I]; [discriminate T|]). contradiction.
Qed.
Print Assumptions C75_arguments_refuted.

(** Nor are the interfaces of an interface, even if objects implement it. *)
Definition parents : blueprint := {| bp_query := "Query"; bp_mutation := None; bp_defs :=
  [BObject "Query" [bf "entity" "Entity"] []; BInterface "Entity" [bf "id" "Int"] ["Node"]; BInterface "Node" [bf "id" "Int"] []; BObject "Item" [bf "id" "Int"] ["Entity"]] |}.
Theorem C75_parents_refuted : exists b b' d m, distinct b /\ values_apart b /\ (forall fuel, compress (20 + fuel) b = Some b') /\
  In d (bp_defs b') /\ mentions d m /\ defined b m /\ ~ defined b' m /\ exists o fs is i ifs, d = BInterface i ifs [m] /\ In (BObject o fs is) (bp_defs b') /\ In i is.
Proof.
  exists parents, {| bp_query := "Query"; bp_mutation := None; bp_defs := [BObject "Query" [bf "entity" "Entity"] []; BInterface "Entity" [bf "id" "Int"] ["Node"]; BObject "Item" [bf "id" "Int"] ["Entity"]] |},
    (BInterface "Entity" [bf "id" "Int"] ["Node"]), "Node".
  split; [apply distinct_check; cbn; repeat (constructor; [cbn; intros X; repeat (destruct X as [X|X]; [discriminate X|]); exact X|]); constructor|].
  split; [intros e vs v I; cbn in I; exfalso; repeat (destruct I as [I|I]; [discriminate I|]); contradiction|].
  split; [intros [|fuel]; vm_compute; reflexivity|]. split; [right; now left|]. split; [apply m_interface_implements; now left|].
  split; [eexists; split; [do 2 right; left; reflexivity|constructor]|]. split.
  - intros (d & I & T). apply titled_name in T. cbn in I. repeat (destruct I as [<-|I]; [discriminate T|]). contradiction.
  - do 5 eexists. split; [reflexivity|]. split; [do 2 right; left; reflexivity|now left].
Qed.
Print Assumptions C75_parents_refuted.

(** The values of an enum count as the names of types. *)
Definition values_ : blueprint := {| bp_query := "Query"; bp_mutation := None; bp_defs :=
  [BObject "Query" [bf "kind" "Kind"] []; BEnum "Kind" ["User"; "Post"]; BObject "User" [bf "id" "Int"] []] |}.
Theorem C75_unused_refuted : exists b d n, distinct b /\ conforming b /\ (forall fuel, compress (20 + fuel) b = Some b) /\ In d (bp_defs b) /\ titled d n /\ ~ met b n /\ ~ internal n.
Proof.
  exists values_, (BObject "User" [bf "id" "Int"] []), "User".
  split; [apply distinct_check; cbn; repeat (constructor; [cbn; intros X; repeat (destruct X as [X|X]; [discriminate X|]); exact X|]); constructor|].
  split; [intros i fs is I; cbn in I; exfalso; repeat (destruct I as [I|I]; [discriminate I|]); contradiction|].
  split; [intros [|fuel]; vm_compute; reflexivity|]. split; [do 2 right; now left|]. split; [constructor|]. split; [|intros (r & E); discriminate E].
  assert (K : forall n, met values_ n -> n <> "User" /\ (n = "User" \/ n = "Query" \/ n = "Mutation" \/ n = "Subscription" \/ n = "Kind")).
  { intros n M. induction M as [n R|n d m M IH I T X|i fs is o ofs ois M IH I IO J].
    - destruct R as [->|[R|[->|[->| ->]]]]; try discriminate R; split; try discriminate; cbn; auto.
    - destruct IH as [N _]. cbn in I. destruct I as [<-|[<-|[<-|[]]]]; apply titled_name in T; cbn in T; subst n; [| |congruence].
      + inversion X; subst; [|contradiction]. destruct H3 as [<-|[]]. destruct H4 as [Y|(a & t & [] & _)]. inversion Y; subst. split; [discriminate|auto 10].
      + inversion X.
    - cbn in I. exfalso. repeat (destruct I as [I|I]; [discriminate I|]); contradiction. }
  intros M. now destruct (K _ M).
Qed.
Print Assumptions C75_unused_refuted.
