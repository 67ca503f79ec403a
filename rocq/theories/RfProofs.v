(** Proofs about servers that describe themselves (C95). *)
From Coq Require Import String Ascii Bool List Lia.
From Verif Require Import Base MustacheModel MustacheSpec MustacheProofs LinksModel LinksSpec LinksProofs ScModel RfModel RfSpec.
Import ListNotations.
Open Scope string_scope.
Open Scope list_scope.

Section Queue.
  Context {B : Type}.
  Variable r r' : string -> option (pfile B).
  Variable P : string -> Prop.
  Hypothesis same : forall i, P i -> r i = r' i.
  Hypothesis closed : forall i p, P i -> r i = Some p -> Forall P (f_imports p).
  Lemma all_same : forall l, Forall P l -> resolve_all r l = resolve_all r' l.
  Proof. induction 1 as [|i l H _ IH]; [reflexivity|]. cbn. now rewrite (same i H), IH. Qed.
  Lemma all_closed : forall l ps, Forall P l -> resolve_all r l = Some ps -> Forall (fun p => Forall P (f_imports p)) ps.
  Proof.
    induction l as [|i l IH]; intros ps F; cbn; [intros [= <-]; constructor|]. inversion F; subst. destruct (r i) as [p|] eqn:E; [|discriminate]. destruct (resolve_all r l) as [qs|]; [|discriminate]. intros [= <-]. constructor; [now apply (closed i)|auto].
  Qed.
  Lemma take_queue : forall ps queue known, Forall (fun p : pfile B => Forall P (f_imports p)) ps -> Forall (fun p => Forall P (f_imports p)) queue -> Forall (fun p => Forall P (f_imports p)) (fst (fold_left take_import ps (queue, known))).
  Proof.
    induction ps as [|p ps IH]; intros queue known F Q; [exact Q|]. inversion F; subst. cbn [fold_left take_import]. destruct (smem (f_name p) (akeys known)); [now apply IH|]. apply IH; [assumption|]. apply Forall_app. split; [exact Q|now constructor].
  Qed.
  Lemma queue_same : forall fuel queue known, Forall (fun p => Forall P (f_imports p)) queue -> resolve_queue fuel r queue known = resolve_queue fuel r' queue known.
  Proof.
    induction fuel as [|n IH]; intros [|f rest] known Q; try reflexivity. cbn [resolve_queue]. inversion Q; subst. rewrite <- (all_same _ H1). destruct (resolve_all r (f_imports f)) as [ps|] eqn:E; [|reflexivity].
    pose proof (take_queue ps rest known (all_closed _ _ H1 E) H2) as T. destruct (fold_left take_import ps (rest, known)) as [q k]. now apply IH.
  Qed.
  Lemma dependencies_same : forall fuel root, Forall P (f_imports root) -> resolve_dependencies fuel r root = resolve_dependencies fuel r' root.
  Proof. intros fuel root H. unfold resolve_dependencies. rewrite queue_same; [reflexivity|]. now constructor. Qed.
End Queue.
Lemma render_braceless : forall env s, braceless s -> s <> "" -> s <> """" -> render env (parse s) = s.
Proof.
  intros env s N E Q. rewrite (parse_written [Literal s] s); [|now apply W_text|intros [[= X]|[]]; contradiction]. cbn. apply StringFacts.str_app_nil_r || reflexivity.
Qed.
Section Server.
  Context {B : Type}.
  Variable quoted : string -> string.
  Variable env : string -> option string.
  Variable server : string -> option reflection.
  Variable decode : string -> option (pfile B).
  Notation file := (get_file quoted env server decode).
  Notation service := (get_by_service quoted env server decode).
  Hypothesis T : no_templates quoted server decode.
  Hypothesis M : names_as_asked quoted server decode.
  Notation gv i p := (gives server decode (for_file quoted i) p).

  Lemma exec : forall key v, braceless (body quoted key v) -> execute quoted env server key v = server (body quoted key v).
  Proof. intros key v H. unfold execute. rewrite render_braceless; [reflexivity|exact H|discriminate|]. unfold body. discriminate. Qed.
  Lemma given : forall q f, match server q with Some r => request_proto decode r | None => None end = Some f <-> gives server decode q f.
  Proof.
    intros q f. unfold gives, request_proto. destruct (server q) as [r|]; [|split; [discriminate|intros (r & t & m & [=] & _)]]. destruct (r_files r) as [[|t more]|] eqn:E.
    - split; [discriminate|intros (r' & t & m & [= <-] & R & _)]. congruence.
    - split; [intros D; exists r, t, more; auto|]. intros (r' & t' & m & [= <-] & R & D). congruence.
    - split; [discriminate|intros (r' & t & m & [= <-] & R & _)]. congruence.
  Qed.
  Lemma file_iff : forall i p, braceless (for_file quoted i) -> file i = Some p <-> gv i p.
  Proof. intros i p H. unfold get_file. rewrite (exec "file_by_filename" i H). apply given. Qed.
  Lemma service_iff : forall s p, braceless (for_service quoted s) -> service s = Some p <-> gives server decode (for_service quoted s) p.
  Proof. intros s p H. unfold get_by_service. rewrite (exec "file_containing_symbol" s H). apply given. Qed.
  Definition plain_file (i : string) : option (pfile B) := match take_until (for_file quoted i) with None => file i | Some _ => None end.
  Lemma plain_iff : forall i p, plain_file i = Some p <-> braceless (for_file quoted i) /\ gv i p.
  Proof.
    intros i p. unfold plain_file. destruct (take_until (for_file quoted i)) as [x|] eqn:E.
    - split; [discriminate|]. intros [H _]. apply take_until_none in H. congruence.
    - apply take_until_none in E. rewrite (file_iff i p E). tauto.
  Qed.
  Lemma reached_iff : forall q root i, gives server decode q root -> Reached (fun i p => plain_file i = Some p) root i <-> Reached (fun i p => gv i p) root i.
  Proof.
    intros q root i G. destruct T as (_ & _ & T3). split.
    - apply reached_ext. intros j p H. now apply plain_iff in H.
    - intros R. induction R as [i I|j p i R IH J I].
      + now constructor.
      + apply reached_on with j p; [exact IH| |exact I]. apply plain_iff. split; [|exact J]. clear IH. destruct R as [j J'|k p' j _ K J']; [exact (T3 _ _ _ G J')|exact (T3 _ _ _ K J')].
  Qed.
  Lemma reached_plain : forall q root i, gives server decode q root -> Reached (fun i p => gv i p) root i -> braceless (for_file quoted i).
  Proof. intros q root i G R. destruct T as (_ & _ & T3). destruct R as [i I|j p i _ J I]; [exact (T3 _ _ _ G I)|exact (T3 _ _ _ J I)]. Qed.
  Lemma resolve_same : forall fuel q root, gives server decode q root -> resolve_dependencies fuel file root = resolve_dependencies fuel plain_file root.
  Proof.
    intros fuel q root G. destruct T as (_ & _ & T3). apply dependencies_same with (P := fun i => braceless (for_file quoted i)).
    - intros i H. unfold plain_file. apply take_until_none in H. now rewrite H.
    - intros i p H E. apply (file_iff i p H) in E. apply Forall_forall. intros j J. exact (T3 _ _ _ E J).
    - apply Forall_forall. intros j J. exact (T3 _ _ _ G J).
  Qed.
  Lemma plain_named : forall i p, plain_file i = Some p -> f_name p = i.
  Proof. intros i p H. apply plain_iff in H as [_ H]. now apply M. Qed.
  Notation fetched := (fetch_service quoted env server decode).
  Lemma service_files : forall fuel s files, braceless (for_service quoted s) -> fetched fuel s = Some (Some files) -> files_of quoted server decode s files.
  Proof.
    intros fuel s files H. unfold fetch_service. destruct (service s) as [root|] eqn:S; [|discriminate]. apply (service_iff s root H) in S. destruct (f_package root) as [pk|] eqn:P; [|discriminate].
    rewrite (resolve_same _ _ _ S). intros R. destruct (dependencies_exact plain_file plain_named fuel root files R) as (deps & -> & N & D1 & D2).
    exists root, deps. split; [reflexivity|]. split; [exact S|]. split; [congruence|]. split; [exact N|]. cbn. split.
    - intros p. rewrite D1. split; intros (i & R1 & R2).
      + exists i. apply (reached_iff _ _ _ S) in R1. apply plain_iff in R2 as [_ R2]. auto.
      + exists i. split; [now apply (reached_iff _ _ _ S)|]. apply plain_iff. split; [exact (reached_plain _ _ _ S R1)|exact R2].
    - intros i R1. apply (reached_iff _ _ _ S) in R1. destruct (D2 i R1) as (p & P1 & P2). apply plain_iff in P1 as [_ P1]. eauto.
  Qed.
  Lemma service_fails : forall fuel s, braceless (for_service quoted s) -> fetched fuel s = Some None ->
    (forall f, ~ gives server decode (for_service quoted s) f) \/ (exists root, gives server decode (for_service quoted s) root /\ (f_package root = None \/ exists i, Reached (fun i p => gv i p) root i /\ forall p, ~ gv i p)).
  Proof.
    intros fuel s H. unfold fetch_service. destruct (service s) as [root|] eqn:S.
    - apply (service_iff s root H) in S. intros R. right. exists root. split; [exact S|]. destruct (f_package root); [right|now left]. rewrite (resolve_same _ _ _ S) in R.
      destruct (dependencies_fail plain_file plain_named fuel root R) as (i & I & N). apply (reached_iff _ _ _ S) in I. exists i. split; [exact I|]. intros p G. assert (E : plain_file i = Some p) by (apply plain_iff; split; [exact (reached_plain _ _ _ S I)|exact G]). congruence.
    - intros _. left. intros f G. apply (service_iff s f H) in G. congruence.
  Qed.
  Lemma listed : forall l, list_all_files quoted env server = Some l <-> lists quoted server l.
  Proof.
    intros l. unfold list_all_files. rewrite (exec "list_services" "" (proj1 T)). change (body quoted "list_services" "") with (for_services quoted). unfold lists. destruct (server (for_services quoted)) as [r|].
    - split; [eauto|]. now intros (r' & [= <-] & H).
    - split; [discriminate|]. now intros (r' & [=] & H).
  Qed.
  Lemma all_files : forall fuel l sets, Forall (fun s => braceless (for_service quoted s)) l -> fetch_all quoted env server decode fuel l = Some (Some sets) -> Forall2 (files_of quoted server decode) (others l) sets.
  Proof.
    intros fuel. induction l as [|s l IH]; intros sets F; cbn [fetch_all]; [intros [= <-]; constructor|]. inversion F; subst. unfold others. cbn [filter]. change own with "grpc.reflection.v1alpha.ServerReflection". destruct (String.eqb s _); [now apply IH|].
    destruct (fetched fuel s) as [[files|]|] eqn:E; try discriminate. destruct (fetch_all _ _ _ _ fuel l) as [[r|]|]; try discriminate. intros [= <-]. constructor; [now apply service_files with fuel|now apply IH].
  Qed.
  Lemma all_fails : forall fuel l, Forall (fun s => braceless (for_service quoted s)) l -> fetch_all quoted env server decode fuel l = Some None -> exists s, In s l /\ s <> own /\ fetched fuel s = Some None.
  Proof.
    intros fuel. induction l as [|s l IH]; intros F; cbn [fetch_all]; [discriminate|]. inversion F; subst. destruct (String.eqb_spec s "grpc.reflection.v1alpha.ServerReflection") as [->|N].
    - intros E. destruct (IH H2 E) as (t & I & O). exists t. split; [now right|exact O].
    - destruct (fetched fuel s) as [[files|]|] eqn:E; try discriminate.
      + destruct (fetch_all _ _ _ _ fuel l) as [[r|]|]; try discriminate. intros _. destruct (IH H2 eq_refl) as (t & I & O). exists t. split; [now right|exact O].
      + intros _. exists s. split; [now left|auto].
  Qed.
  Lemma service_ends : forall names s, braceless (for_service quoted s) -> (forall q f i, gives server decode q f -> In i (f_imports f) -> In i names) -> fetched (S (List.length names)) s <> None.
  Proof.
    intros names s H N. unfold fetch_service. destruct (service s) as [root|] eqn:S; [|discriminate]. apply (service_iff s root H) in S. destruct (f_package root); [|discriminate]. rewrite (resolve_same _ _ _ S).
    apply (dependencies_end plain_file plain_named). intros i R. apply (reached_iff _ _ _ S) in R. destruct R as [i I|j p i _ J I]; [exact (N _ _ _ S I)|exact (N _ _ _ J I)].
  Qed.
  Lemma all_ends : forall names l, Forall (fun s => braceless (for_service quoted s)) l -> (forall q f i, gives server decode q f -> In i (f_imports f) -> In i names) -> fetch_all quoted env server decode (S (List.length names)) l <> None.
  Proof.
    intros names l F N. induction F as [|s l H F IH]; cbn [fetch_all]; [discriminate|]. destruct (String.eqb s _); [exact IH|]. pose proof (service_ends names s H N). destruct (fetched _ s) as [[files|]|]; [|discriminate|contradiction].
    destruct (fetch_all _ _ _ _ _ l) as [[r|]|]; [discriminate|discriminate|contradiction].
  Qed.
End Server.
