(** Checking the premises of the federation theorems by computation. *)
From Coq Require Import String Ascii ZArith NArith Bool Arith Lia List.
From Verif Require Import Base BaseFacts Ordered OrderedFacts JsonModel TypeModel BuilderModel ConfigModel RenameSpec AmbModel AmbSpec AmbProofs FedModel FedSpec FedProofs.
Import ListNotations.
Open Scope string_scope.
Open Scope list_scope.

Definition absent {V} (n : string) (m : list (string * V)) : bool := match oget scmp n m with None => true | Some _ => false end.
Lemma absent_ok {V} n (m : list (string * V)) : absent n m = true -> oget scmp n m = None.
Proof. unfold absent. destruct (oget scmp n m); [discriminate|auto]. Qed.
Fixpoint distinct (l : list string) : bool := match l with [] => true | a :: t => negb (smem a t) && distinct t end.
Lemma distinct_ok l : distinct l = true -> NoDup l.
Proof.
  induction l as [|a l IH]; cbn; [constructor|]. intros H. apply andb_true_iff in H as [A B]. constructor; [|auto].
  apply negb_true_iff, smem_false in A. auto.
Qed.

Definition wf_check (c : config) : bool :=
  osortedb scmp (c_types c) && osortedb scmp (c_enums c) && osortedb scmp (c_unions c) &&
  forallb (fun nu => absent (fst nu) (c_types c) && negb (is_predefined (fst nu)) &&
                     forallb (fun m => absent m (c_unions c)) (u_types (snd nu))) (c_unions c) &&
  forallb (fun ne => absent (fst ne) (c_types c) && absent (fst ne) (c_unions c) && negb (is_predefined (fst ne))) (c_enums c) &&
  forallb (fun nt => osortedb scmp (t_fields (snd nt)) && forallb (fun kf => distinct (map fst (f_args (snd kf)))) (t_fields (snd nt))) (c_types c).

Lemma some_in {V} n (m : list (string * V)) : oget scmp n m <> None -> exists v, In (n, v) m.
Proof. destruct (oget scmp n m) as [v|] eqn:G; [|congruence]. intros _. exists v. now apply (oget_in scmp scmp_order). Qed.

Lemma wf_check_ok c : wf_check c = true -> well_formed c.
Proof.
  unfold wf_check. intros H. repeat match goal with X : _ && _ = true |- _ => apply andb_true_iff in X as [X ?] end.
  rewrite forallb_forall in *. rename H2 into U, H1 into En, H0 into T.
  assert (Ts : osorted scmp (c_types c)) by (apply osortedb_ok; [exact scmp_order|auto]).
  constructor.
  - constructor; [auto| | |].
    + intros n D. apply some_in in D as (u & D). specialize (U _ D). cbn in U. apply andb_true_iff in U as [U _]. apply andb_true_iff in U as [A B].
      split; [now apply absent_ok|now apply negb_true_iff].
    + intros n D. apply some_in in D as (e & D). specialize (En _ D). cbn in En. apply andb_true_iff in En as [_ B]. now apply negb_true_iff.
    + intros n u m F I. apply (oget_in scmp scmp_order) in F. specialize (U _ F). cbn in U. apply andb_true_iff in U as [_ U].
      rewrite forallb_forall in U. now apply absent_ok, U.
  - apply osortedb_ok; [exact scmp_order|auto].
  - apply osortedb_ok; [exact scmp_order|auto].
  - intros n D. apply some_in in D as (e & D). specialize (En _ D). cbn in En. apply andb_true_iff in En as [En _]. apply andb_true_iff in En as [A B].
    split; now apply absent_ok.
  - intros n t F. apply (oget_in scmp scmp_order) in F. specialize (T _ F). apply andb_true_iff in T as [T _]. apply osortedb_ok; [exact scmp_order|auto].
  - intros n t fn f F I. apply (oget_in scmp scmp_order) in F. specialize (T _ F). apply andb_true_iff in T as [_ T].
    rewrite forallb_forall in T. specialize (T _ I). now apply distinct_ok.
Qed.

Definition kind_eqb (a b : kind) : bool :=
  match a, b with KUnion, KUnion | KEnum, KEnum | KObject, KObject | KScalar, KScalar => true | _, _ => false end.
Lemma kind_eqb_ok a b : kind_eqb a b = true -> a = b.
Proof. destruct a, b; cbn; congruence. Qed.

(** All names that may be used in a configuration. *)
Definition used_names (c : config) : list string := root_names c ++ mentions c ++ map fst (c_types c).
Lemma served_used c n : Served c n -> In n (used_names c).
Proof.
  unfold used_names. intros H. rewrite !in_app_iff. destruct H as [n H|n m _ H|n m t _ F _].
  - apply output_mentioned in H. rewrite in_app_iff in H. tauto.
  - right. left. eapply held_mentioned; eauto.
  - right. right. apply (oget_in scmp scmp_order) in F. apply in_map_iff. now exists (m, t).
Qed.
Definition kinds_check (cs : list config) : bool :=
  forallb (fun c => forallb (fun c' => forallb (fun n =>
    (absent n (c_types c') && absent n (c_enums c') && absent n (c_unions c')) || kind_eqb (kind_of c n) (kind_of c' n)) (used_names c)) cs) cs.
Lemma kinds_check_ok cs : kinds_check cs = true -> same_kinds cs.
Proof.
  unfold kinds_check. intros H c c' n I I' U D. rewrite forallb_forall in H. specialize (H c I). rewrite forallb_forall in H. specialize (H c' I').
  rewrite forallb_forall in H. assert (J : In n (used_names c)).
  { destruct U as [U|U]; [|now apply served_used]. apply input_mentioned in U. unfold used_names. rewrite !in_app_iff. tauto. }
  specialize (H n J). apply orb_true_iff in H as [H|H]; [|now apply kind_eqb_ok].
  apply andb_true_iff in H as [H C]. apply andb_true_iff in H as [A B]. apply absent_ok in A, B, C. destruct D as [D|[D|D]]; contradiction.
Qed.

Definition common_check (cs : list config) : bool :=
  forallb (fun c => forallb (fun n =>
    existsb (fun k => forallb (fun c' => match find_type c' n with
                                         | Some t => match t_fields t with [] => true | _ => negb (absent k (t_fields t)) end
                                         | None => true
                                         end) cs)
      ("" :: match find_type c n with Some t => map fst (t_fields t) | None => [] end)) (mentions c)) cs.
Lemma common_check_ok cs : common_check cs = true -> common_fields cs.
Proof.
  unfold common_check. intros H c n I U. rewrite forallb_forall in H. specialize (H c I). rewrite forallb_forall in H.
  specialize (H n (input_mentioned c n U)). apply existsb_exists in H as (k & _ & H). exists k. intros c' t I' F N.
  rewrite forallb_forall in H. specialize (H c' I'). rewrite F in H. destruct (t_fields t) as [|x l]; [congruence|].
  apply negb_true_iff in H. unfold absent in H. destruct (oget scmp k (x :: l)); congruence.
Qed.

(** The names held by a type, those sent and those received. *)
Definition held (c : config) (n : string) : list string :=
  match find_union c n with Some u => u_types u | None => [] end ++
  match find_type c n with Some t => map (fun kf => type_name (f_type (snd kf))) (t_fields t) | None => [] end.
Lemma held_ok c n m : In m (held c n) <-> Holds c n m.
Proof.
  unfold held. rewrite in_app_iff. split.
  - intros [H|H].
    + destruct (find_union c n) eqn:U; [|destruct H]. econstructor; eauto.
    + destruct (find_type c n) eqn:T; [|destruct H]. apply in_map_iff in H as ([fn f] & <- & I). eapply Holds_field; eauto.
  - intros H. destruct H as [n u m U I|n t fn f F I].
    + rewrite U. auto.
    + rewrite F. right. apply in_map_iff. exists (fn, f). auto.
Qed.
Definition outs (c : config) : list string :=
  match output_types (walk_fuel c) c with Some s => s ++ flat_map (held c) s | None => [] end.
Definition ins (c : config) : list string :=
  match input_types (walk_fuel c) c with
  | Some s => map (fun a => type_name (arg_type a)) (arguments c) ++ flat_map (held c) s
  | None => mentions c
  end.
Lemma outs_ok c n : tidy c -> In n (outs c) -> OutputUse c n.
Proof.
  unfold outs. intros T I. destruct (output_types (walk_fuel c) c) as [s|] eqn:E; [|destruct I]. destruct (output_types_ok c T _ _ E) as [O _].
  apply in_app_iff in I as [I|I]; [now apply O|]. apply in_flat_map in I as (m & J & I). apply held_ok in I.
  eapply OutputUse_inside; [apply O; exact J|auto].
Qed.
Lemma ins_ok c n : tidy c -> InputUse c n -> In n (ins c).
Proof.
  unfold ins. intros T U. destruct (input_types (walk_fuel c) c) as [s|] eqn:E; [|now apply input_mentioned]. destruct (input_types_ok c T _ _ E) as [_ I].
  apply in_app_iff. destruct U as [n (q & t & fn & f & an & a & F & J & K & ->)|n m U H].
  - left. apply in_map_iff. exists a. split; [auto|]. apply arguments_in; [apply T|]. exists q, t, fn, f, an. auto.
  - right. apply in_flat_map. exists n. split; [|now apply held_ok]. apply I; [eapply holds_composite; eauto|auto].
Qed.
(** A set that has the roots and with a type what it holds and its implementers. *)
Definition reached (c : config) (n : string) : list string :=
  held c n ++ flat_map (fun kt => if smem n (t_implements (snd kt)) then [fst kt] else []) (c_types c).
Fixpoint reach (c : config) (fuel : nat) (s : list string) : list string :=
  match fuel with
  | O => s
  | S k => reach c k (fold_left (fun acc n => if smem n acc then acc else n :: acc) (flat_map (reached c) s) s)
  end.
Definition served (c : config) : list string :=
  let s := reach c (List.length (c_types c)) (root_names c) in
  if forallb (fun n => smem n s) (root_names c) && forallb (fun n => forallb (fun m => smem m s) (reached c n)) s then s else used_names c.
Lemma served_ok c n : Served c n -> In n (served c).
Proof.
  unfold served. destruct (forallb _ (root_names c) && _) eqn:E; [|apply served_used]. apply andb_true_iff in E as [R C].
  set (s := reach _ _ _) in *. clearbody s. rewrite forallb_forall in R, C.
  assert (X : forall a b, In a s -> In b (reached c a) -> In b s).
  { intros a b I J. specialize (C a I). rewrite forallb_forall in C. now apply smem_In, C. }
  assert (Ro : forall a, In a (root_names c) -> In a s) by (intros a I; now apply smem_In, R).
  assert (O : forall n, OutputUse c n -> In n s).
  { clear n. intros q H. induction H as [n H|n H|n m H IH Ho].
    - apply Ro. unfold root_names. rewrite H. cbn. auto.
    - apply Ro. unfold root_names. rewrite H. rewrite in_app_iff. cbn. auto.
    - apply (X n); [auto|]. unfold reached. rewrite in_app_iff. left. now apply held_ok. }
  intros H. induction H as [n H|n m H IH Ho|n m t H IH F I]; [auto| |].
  - apply (X n); [auto|]. unfold reached. rewrite in_app_iff. left. now apply held_ok.
  - apply (X n); [auto|]. unfold reached. rewrite in_app_iff. right. apply in_flat_map. exists (m, t). split; [now apply (oget_in scmp scmp_order)|].
    cbn. apply smem_In in I. rewrite I. now left.
Qed.
Definition implementers_check (cs : list config) : bool :=
  forallb (fun c => forallb (fun c' => forallb (fun n => smem n (outs c) || negb (smem n (ins c'))) (served c)) cs) cs.
Lemma implementers_check_ok cs : (forall c, In c cs -> well_formed c) -> implementers_check cs = true -> implementers_are_no_inputs cs.
Proof.
  unfold implementers_check. intros W H c c' n I I' S. rewrite forallb_forall in H. specialize (H c I). rewrite forallb_forall in H. specialize (H c' I').
  rewrite forallb_forall in H. specialize (H n (served_ok c n S)). apply orb_true_iff in H as [H|H].
  - left. apply outs_ok; [apply (wf_tidy c (W c I))|]. now apply smem_In.
  - right. intros U. apply negb_true_iff, smem_false in H. apply H. apply ins_ok; [apply (wf_tidy c' (W c' I'))|auto].
Qed.

Definition federation_check (cs : list config) : bool := forallb wf_check cs && kinds_check cs && common_check cs && implementers_check cs.
Lemma federation_check_ok cs : federation_check cs = true ->
  (forall c, In c cs -> well_formed c) /\ same_kinds cs /\ common_fields cs /\ implementers_are_no_inputs cs.
Proof.
  unfold federation_check. intros H. repeat match goal with X : _ && _ = true |- _ => apply andb_true_iff in X as [X ?] end.
  assert (W : forall c, In c cs -> well_formed c) by (intros c I; apply wf_check_ok; rewrite forallb_forall in H; auto).
  refine (conj W (conj _ (conj _ _))); [now apply kinds_check_ok|now apply common_check_ok|now apply implementers_check_ok].
Qed.
