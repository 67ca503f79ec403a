(** Proofs about [tailcall init] (C91). *)
From Coq Require Import String Ascii Bool Arith Lia List Permutation.
From Verif Require Import Base StringFacts TiModel TiSpec.
Import ListNotations.
Open Scope string_scope.
Open Scope list_scope.

Lemma aget_aset {A} : forall (k k' : string) (v : A) m, aget k (aset k' v m) = if String.eqb k k' then Some v else aget k m.
Proof.
  intros k k' v m. induction m as [|[a b] m IH]; cbn; [reflexivity|]. destruct (String.eqb_spec k' a) as [->|N]; cbn.
  - destruct (String.eqb k a); reflexivity.
  - destruct (String.eqb_spec k a) as [->|N']; [|exact IH]. destruct (String.eqb_spec a k') as [->|_]; [now destruct N|reflexivity].
Qed.
Lemma amem_aget {A} : forall (k : string) (m : list (string * A)), amem k m = match aget k m with Some _ => true | None => false end.
Proof. intros k m. unfold amem. destruct (aget k m); reflexivity. Qed.
Lemma begins_substring : forall n s, begins (substring 0 n s) s.
Proof.
  unfold begins. induction n as [|n IH]; intros s; [exists s; destruct s; reflexivity|]. destruct s as [|c s]; [now exists ""|]. destruct (IH s) as [r E]. exists r. cbn. now rewrite <- E.
Qed.
Lemma begins_self : forall s, begins s s.
Proof. intros s. exists "". now rewrite str_app_nil_r. Qed.
Lemma begins_nothing : forall s, begins "" s.
Proof. intros s. now exists s. Qed.

(** ** One file *)
(** What a step on the file [p] does, from [s] to [s']: [vs] is what can be found meanwhile *)
Definition on_file (p content : string) (free : seen -> Prop) (s : state) (r : bool * state) : Prop :=
  exists vs, found (snd r) = vs ++ found s /\
    (forall v, In v vs -> v_folder v = v_folder (s_now s) /\ (forall q, q <> p -> aget q (v_files v) = aget q (v_files (s_now s))) /\ incl (v_agreed (s_now s)) (v_agreed v) /\
       (aget p (v_files v) = aget p (v_files (s_now s)) \/ (free v /\ exists t, aget p (v_files v) = Some (Text t) /\ begins t content))) /\
    (fst r = true -> aget p (v_files (s_now (snd r))) = Some (Text content) \/
       (aget p (v_files (s_now s)) <> None /\ aget p (v_files (s_now (snd r))) = aget p (v_files (s_now s)))).
Lemma now_found : forall s s' vs, found s' = vs ++ found s -> s_now s' = s_now s \/ In (s_now s') vs.
Proof. intros s s' [|v vs] E; unfold found in E; injection E as -> _; [now left|right; now left]. Qed.
Lemma write_on_file : forall p content s (free : seen -> Prop),
  (forall v, v_agreed v = v_agreed (s_now s) -> free v) -> on_file p content free s (write p content s).
Proof.
  intros p content s free F. unfold write. assert (N : s_now (snd (next_write s)) = s_now s /\ s_past (snd (next_write s)) = s_past s) by (unfold next_write; destruct (s_writes s); split; reflexivity).
  destruct (next_write s) as [o s1]. cbn [snd] in N. destruct N as [N1 N2].
  assert (U : on_file p content free s (false, s1)).
  { exists []. split; [unfold found; cbn; now rewrite N1, N2|]. split; [intros v []|discriminate]. }
  rewrite N1. destruct (v_folder (s_now s)) eqn:Fo; cbn [negb]; [|exact U]. clear U.
  assert (V : forall t v, begins t content -> v_folder v = v_folder (s_now s) -> v_agreed v = v_agreed (s_now s) -> (forall q, q <> p -> aget q (v_files v) = aget q (v_files (s_now s))) ->
    v_folder (with_file p (Text t) v) = true /\ (forall q, q <> p -> aget q (v_files (with_file p (Text t) v)) = aget q (v_files (s_now s))) /\ incl (v_agreed (s_now s)) (v_agreed (with_file p (Text t) v)) /\
    (aget p (v_files (with_file p (Text t) v)) = aget p (v_files (s_now s)) \/ (free (with_file p (Text t) v) /\ exists t0, aget p (v_files (with_file p (Text t) v)) = Some (Text t0) /\ begins t0 content))).
  { intros t v B Fv Av Qv. split; [cbn; congruence|]. split; [|split].
    - intros q Q. cbn. rewrite aget_aset. destruct (String.eqb_spec q p); [contradiction|]. now apply Qv.
    - cbn. rewrite Av. apply incl_refl.
    - right. split; [apply F; exact Av|]. exists t. split; [cbn; rewrite aget_aset, String.eqb_refl; reflexivity|exact B]. }
  pose proof (V "" (s_now s) (begins_nothing _) eq_refl eq_refl (fun q _ => eq_refl)) as V1.
  destruct o as [|n|n].
  - exists []. split; [unfold found; cbn; now rewrite N1, N2|]. split; [intros v []|discriminate].
  - eexists [_; _]. split; [unfold found; cbn; rewrite N1, N2; reflexivity|]. rewrite Fo. split; [|discriminate]. intros v [<-|[<-|[]]].
    + apply V; [apply begins_substring|cbn; reflexivity|reflexivity|]. intros q Q. cbn. rewrite aget_aset. destruct (String.eqb_spec q p); [contradiction|reflexivity].
    + exact V1.
  - eexists [_; _; _]. split; [unfold found; cbn; rewrite N1, N2; reflexivity|]. rewrite Fo. split.
    + intros v [<-|[<-|[<-|[]]]].
      * apply V; [apply begins_self|cbn; reflexivity|reflexivity|]. intros q Q. cbn. rewrite !aget_aset. destruct (String.eqb_spec q p); [contradiction|reflexivity].
      * apply V; [apply begins_substring|cbn; reflexivity|reflexivity|]. intros q Q. cbn. rewrite aget_aset. destruct (String.eqb_spec q p); [contradiction|reflexivity].
      * exact V1.
    + intros _. left. cbn. rewrite aget_aset, String.eqb_refl. reflexivity.
Qed.
Lemma on_file_weaken : forall p content (f g : seen -> Prop) s r, (forall v, f v -> g v) -> on_file p content f s r -> on_file p content g s r.
Proof.
  intros p content f g s r W (vs & E & H & D). exists vs. split; [exact E|]. split; [|exact D]. intros v I. destruct (H v I) as (A & B & C & [Q|(Fv & T)]); (split; [exact A|]; split; [exact B|]; split; [exact C|]); [now left|right].
  split; [now apply W|exact T].
Qed.
Lemma confirm_on_file : forall p content s, on_file p content (fun v => aget p (v_files (s_now s)) = None \/ In p (v_agreed v)) s (confirm_and_write p content s).
Proof.
  intros p content s. unfold confirm_and_write. rewrite amem_aget. destruct (aget p (v_files (s_now s))) as [f|] eqn:G.
  - assert (N : s_now (snd (prompt s)) = s_now s /\ s_past (snd (prompt s)) = s_past s) by (unfold prompt; destruct (s_answers s); split; reflexivity).
    destruct (prompt s) as [a s1]. cbn [snd] in N. destruct N as [N1 N2]. destruct a.
    + set (v1 := {| v_folder := v_folder (s_now s1); v_files := v_files (s_now s1); v_agreed := p :: v_agreed (s_now s1) |}).
      destruct (write_on_file p content (show v1 s1) (fun v => In p (v_agreed v))) as (vs & E & H & D).
      { intros v A. rewrite A. now left. }
      exists (vs ++ [v1]). split; [rewrite E, <- app_assoc; f_equal; unfold found; cbn; now rewrite N1, N2|]. split.
      * intros v I. apply in_app_or in I as [I|[<-|[]]].
        -- destruct (H v I) as (A & B & C & Q). cbn in A, B, C, Q. rewrite N1 in *. split; [exact A|]. split; [exact B|]. split; [intros x X; apply C; now right|].
           destruct Q as [Q|(Q & T)]; [left; now rewrite Q|right]. split; [now right|exact T].
        -- unfold v1. rewrite N1. cbn. split; [reflexivity|]. split; [reflexivity|]. split; [intros x X; now right|now left].
      * intros Ok. destruct (D Ok) as [Q|[Z Q]]; [now left|right]. cbn in Z, Q. rewrite N1 in Z, Q. split; [congruence|now rewrite Q].
    + exists []. split; [unfold found; cbn; now rewrite N1, N2|]. split; [intros v []|]. intros _. right. split; [congruence|]. cbn. now rewrite N1.
    + exists []. split; [unfold found; cbn; now rewrite N1, N2|]. split; [intros v []|discriminate].
  - apply write_on_file. intros v _. now left.
Qed.

(** ** All files *)
Section All.
  Variables rc rc_schema : string.
  Variable parse_yaml : string -> option yaml.
  Variable print_yaml : yaml -> string.
  Variable main_text : source -> string.
  Variable main_schema : string.
  Variable v0 : seen.
  Variable choice : option source.
  Notation want := (wanted rc rc_schema parse_yaml print_yaml main_text main_schema (v_files v0) choice).
  Definition may (p : string) (v : seen) : Prop :=
    aget p (v_files v0) = None \/ In p (v_agreed v) \/ (p = ".graphqlrc.yml" /\ aget p (v_files v0) = Some Unreadable).
  Definition good (v : seen) : Prop :=
    forall p, aget p (v_files v) = aget p (v_files v0) \/ (may p v /\ exists t content, aget p (v_files v) = Some (Text t) /\ want p content /\ begins t content).
  Definition settled (v : seen) (p : string) : Prop :=
    (exists content, want p content /\ aget p (v_files v) = Some (Text content)) \/ (aget p (v_files v0) <> None /\ aget p (v_files v) = aget p (v_files v0)).
  Definition inv (done : list string) (s : state) : Prop :=
    Forall good (found s) /\ (forall q, ~ In q done -> aget q (v_files (s_now s)) = aget q (v_files v0)) /\ Forall (settled (s_now s)) done.
  Lemma step_inv : forall done p content s r, inv done s -> ~ In p done -> want p content ->
    on_file p content (may p) s r -> Forall good (found (snd r)) /\ (fst r = true -> inv (p :: done) (snd r)).
  Proof.
    intros done p content s [ok s'] (G & U & S) N W (vs & E & H & D). cbn [fst snd] in *. assert (Gn : good (s_now s)) by now inversion G.
    assert (V : Forall good (found s')).
    { rewrite E. apply Forall_app. split; [|exact G]. apply Forall_forall. intros v I. destruct (H v I) as (_ & B & C & Q). intros q. destruct (String.eqb_spec q p) as [->|Nq].
      - rewrite <- (U p N). destruct Q as [Q|(M & t & T & B')]; [left; exact Q|right]. split; [exact M|]. exists t, content. auto.
      - rewrite (B q Nq). destruct (Gn q) as [Q'|([M|[M|M]] & T)]; [now left| | |]; right; (split; [|exact T]); unfold may; auto. }
    split; [exact V|]. intros Ok. specialize (D Ok).
    assert (K : forall q, q <> p -> aget q (v_files (s_now s')) = aget q (v_files (s_now s))).
    { intros q Nq. destruct (now_found s s' vs E) as [->|I]; [reflexivity|]. now apply H. }
    split; [exact V|]. split.
    - intros q Nq. rewrite K by (intros ->; apply Nq; now left). apply U. intros I. apply Nq. now right.
    - constructor.
      + destruct D as [D|[Z D]]; [left; eauto|right]. rewrite (U p N) in Z, D. auto.
      + rewrite Forall_forall in S |- *. intros q I. assert (Nq : q <> p) by (intros ->; contradiction). unfold settled. rewrite (K q Nq). exact (S q I).
  Qed.
  Lemma confirm_inv : forall done p content s, inv done s -> ~ In p done -> want p content ->
    Forall good (found (snd (confirm_and_write p content s))) /\ (fst (confirm_and_write p content s) = true -> inv (p :: done) (snd (confirm_and_write p content s))).
  Proof.
    intros done p content s I N W. apply (step_inv done p content s); auto. eapply on_file_weaken; [|apply confirm_on_file]. intros v [Q|Q]; unfold may; [left|auto].
    destruct I as (_ & U & _). rewrite <- (U p N). exact Q.
  Qed.
  Lemma yml_inv : forall done s, inv done s -> ~ In ".graphqlrc.yml" done ->
    Forall good (found (snd (confirm_and_write_yml parse_yaml print_yaml s))) /\
    (fst (confirm_and_write_yml parse_yaml print_yaml s) = true -> inv (".graphqlrc.yml" :: done) (snd (confirm_and_write_yml parse_yaml print_yaml s))).
  Proof.
    intros done s I N. unfold confirm_and_write_yml, read. pose proof I as (G & U & _). rewrite (U _ N). destruct (aget ".graphqlrc.yml" (v_files v0)) as [[t|]|] eqn:A.
    - destruct (parse_yaml t) as [y|] eqn:Y; [|split; [exact G|discriminate]]. apply confirm_inv; auto. eapply w_merged; eauto.
    - apply (step_inv done _ (print_yaml default_graphqlrc) s); auto; [apply w_new; congruence|]. apply write_on_file. intros v _. right. right. auto.
    - apply (step_inv done _ (print_yaml default_graphqlrc) s); auto; [apply w_new; congruence|]. apply write_on_file. intros v _. left. exact A.
  Qed.
  Lemma next_inv : forall done x f, Forall good (found (snd x)) -> (fst x = true -> inv done (snd x)) ->
    (forall s, inv done s -> Forall good (found (snd (f s))) /\ (fst (f s) = true -> choice <> None /\ exists l, inv l (snd (f s)) /\ forall p content, want p content -> In p l)) ->
    Forall good (found (snd (next x f))) /\ (fst (next x f) = true -> choice <> None /\ exists l, inv l (snd (next x f)) /\ forall p content, want p content -> In p l).
  Proof. intros done [ok s] f G I H. cbn [next fst snd] in *. destruct ok; [apply H; auto|]. split; [exact G|discriminate]. Qed.
  Lemma init_inv : forall can s, s_now s = v0 -> s_past s = [] ->
    let r := init rc rc_schema parse_yaml print_yaml main_text main_schema can choice s in
    Forall good (found (snd r)) /\ (fst r = true -> choice <> None /\ exists l, inv l (snd r) /\ forall p content, want p content -> In p l).
  Proof.
    intros can s E P. cbv zeta. unfold init. assert (G0 : good v0) by (intros p; now left).
    assert (S : forall s1, s_now s1 = v0 -> s_past s1 = [] -> inv [] s1).
    { intros s1 E1 P1. split; [unfold found; rewrite E1, P1; constructor; [exact G0|constructor]|]. split; [intros q _; now rewrite E1|constructor]. }
    assert (C : Forall good (found (snd (create_directory can s))) /\ (fst (create_directory can s) = true -> inv [] (snd (create_directory can s)))).
    { unfold create_directory. destruct (v_folder (s_now s)); [split; [apply (S s E P)|intros _; now apply S]|].
      assert (N : s_now (snd (prompt s)) = v0 /\ s_past (snd (prompt s)) = []) by (unfold prompt; destruct (s_answers s); split; auto). destruct (prompt s) as [a s1]. cbn [snd] in N. destruct N as [N1 N2].
      destruct a; [destruct can| |]; try (split; [apply (S s1 N1 N2)|intros _; now apply S]).
      set (v1 := {| v_folder := true; v_files := v_files (s_now s1); v_agreed := v_agreed (s_now s1) |}).
      assert (G1 : good v1) by (intros p; left; unfold v1; cbn; now rewrite N1).
      assert (V : Forall good (found (show v1 s1))) by (unfold found; cbn; rewrite N1, N2; apply Forall_cons; [exact G1|apply Forall_cons; [exact G0|apply Forall_nil]]).
      split; [exact V|]. intros _. split; [exact V|]. split; [intros q _; cbn; now rewrite N1|constructor]. }
    refine (next_inv [] _ _ _ _ _); [exact (proj1 C)|exact (proj2 C)|]. clear C S. intros s' I. destruct choice as [src|] eqn:Ch; [|split; [apply I|discriminate]]. try rewrite <- Ch in I; try rewrite <- Ch.
    assert (Nm : want (main_name src) (main_text src)) by (destruct src; constructor; exact Ch).
    destruct (confirm_inv [] ".tailcallrc.graphql" rc s' I) as [G1 R1]; [intros []|constructor|]. refine (next_inv _ _ _ G1 R1 _). clear G1 R1 I. intros s1 I.
    destruct (yml_inv _ s1 I) as [G2 R2]; [cbn; intuition discriminate|]. refine (next_inv _ _ _ G2 R2 _). clear G2 R2 I. intros s2 I.
    destruct (confirm_inv _ ".tailcallrc.schema.json" rc_schema s2 I) as [G3 R3]; [cbn; intuition discriminate|constructor|]. refine (next_inv _ _ _ G3 R3 _). clear G3 R3 I. intros s3 I.
    destruct (confirm_inv _ (main_name src) (main_text src) s3 I) as [G4 R4]; [destruct src; cbn; intuition discriminate|exact Nm|]. refine (next_inv _ _ _ G4 R4 _). clear G4 R4 I. intros s4 I.
    destruct (confirm_inv _ "main.graphql" main_schema s4 I) as [G R]; [destruct src; cbn; intuition discriminate|constructor|]. split; [exact G|]. intros Ok. split; [congruence|]. eexists. split; [exact (R Ok)|].
    intros p content W. destruct W as [| |Q|Q| | |]; cbn; auto 7; rewrite Ch in Q; injection Q as ->; cbn; auto 7.
  Qed.
End All.

(** ** Without agreement *)
Definition never (s : state) : Prop := ~ In Yes (s_answers s) /\ Forall (fun v => v_agreed v = []) (found s).
Lemma write_never : forall p content s, never s -> never (snd (write p content s)).
Proof.
  intros p content s [A F]. unfold write, next_write. assert (N : v_agreed (s_now s) = []) by now inversion F.
  destruct (s_writes s) as [|o rest]; cbn [snd s_now s_past]; destruct (v_folder (s_now s)); cbn; try (split; assumption). destruct o; cbn; (split; [exact A|]); unfold found in *; cbn; auto 8.
Qed.
Lemma confirm_never : forall p content s, never s -> never (snd (confirm_and_write p content s)).
Proof.
  intros p content s I. unfold confirm_and_write. destruct (amem p (v_files (s_now s))); [|now apply write_never]. destruct I as [A F]. unfold prompt.
  destruct (s_answers s) as [|a rest] eqn:E; [split; [cbn; rewrite E; intros []|exact F]|]. destruct a; [exfalso; apply A; now left| |]; (split; [intros Q; apply A; now right|exact F]).
Qed.
Lemma yml_never : forall parse print s, never s -> never (snd (confirm_and_write_yml parse print s)).
Proof.
  intros parse print s I. unfold confirm_and_write_yml. destruct (read _ s) as [t|]; [|now apply write_never]. destruct (parse t); [now apply confirm_never|exact I].
Qed.
Lemma next_never : forall x f, never (snd x) -> (forall s, never s -> never (snd (f s))) -> never (snd (next x f)).
Proof. intros [[|] s] f I H; cbn in *; auto. Qed.
Lemma init_never : forall rc rc_schema parse print main_text main_schema can choice s, never s -> never (snd (init rc rc_schema parse print main_text main_schema can choice s)).
Proof.
  intros until s. intros I. unfold init. apply next_never.
  - unfold create_directory. destruct (v_folder (s_now s)); [exact I|]. destruct I as [A F]. unfold prompt. destruct (s_answers s) as [|a rest] eqn:E; [split; [cbn; rewrite E; intros []|exact F]|].
    destruct a; [exfalso; apply A; now left| |]; (split; [intros Q; apply A; now right|exact F]).
  - intros s0 I0. destruct choice as [src|]; [|exact I0]. apply next_never; [now apply confirm_never|]. intros s1 I1. apply next_never; [now apply yml_never|]. intros s2 I2.
    apply next_never; [now apply confirm_never|]. intros s3 I3. apply next_never; [now apply confirm_never|]. intros s4 I4. now apply confirm_never.
Qed.
(** ** Without a folder *)
Lemma confirm_nofolder : forall p content s, v_folder (s_now s) = false -> v_files (s_now s) = [] -> fst (confirm_and_write p content s) = false /\ s_now (snd (confirm_and_write p content s)) = s_now s /\ s_past (snd (confirm_and_write p content s)) = s_past s.
Proof.
  intros p content s F E. unfold confirm_and_write. rewrite E. cbn. unfold write, next_write. destruct (s_writes s); cbn; rewrite F; auto.
Qed.

(** ** Merging *)
Lemma aget_app {A} : forall (k : string) (a b : list (string * A)), aget k (a ++ b) = match aget k a with Some v => Some v | None => aget k b end.
Proof. intros k a b. induction a as [|[k' v] a IH]; cbn; [reflexivity|]. destruct (String.eqb k k'); [reflexivity|exact IH]. Qed.
Lemma aget_none {A} : forall (k : string) (m : list (string * A)), ~ In k (map fst m) <-> aget k m = None.
Proof.
  intros k m. induction m as [|[k' v] m IH]; cbn; [tauto|]. destruct (String.eqb_spec k k') as [->|N]; [split; [tauto|discriminate]|]. rewrite <- IH. split; [tauto|]. intros H [Q|Q]; [now apply N|contradiction].
Qed.
Lemma swap_remove_aget : forall k0 m, NoDup (map fst m) -> In k0 (map fst m) ->
  forall k, aget k (swap_remove k0 m) = if String.eqb k k0 then None else aget k m.
Proof.
  intros k0 m ND I k. unfold swap_remove. destruct (rev m) as [|[kf vf] front] eqn:R.
  - assert (m = []) by (rewrite <- (rev_involutive m), R; reflexivity). subst. destruct I.
  - assert (E : m = rev front ++ [(kf, vf)]) by (rewrite <- (rev_involutive m), R; reflexivity). set (f := rev front) in *. clearbody f. clear R front. subst m.
    rewrite map_app in ND, I. cbn [map fst] in ND, I.
    assert (ND' : NoDup (kf :: map fst f)) by (apply (Permutation_NoDup (l := map fst f ++ [kf])); [|exact ND]; apply Permutation_sym, Permutation_cons_append).
    apply NoDup_cons_iff in ND' as [Nf NDf]. cbn [fst]. rewrite aget_app. cbn [aget]. destruct (String.eqb_spec kf k0) as [->|N].
    + destruct (String.eqb_spec k k0) as [->|N']; [now apply aget_none|]. destruct (aget k f); reflexivity.
    + assert (I' : In k0 (map fst f)) by (apply in_app_or in I as [Q|[Q|[]]]; [exact Q|contradiction]). clear I ND.
      induction f as [|[a b] f IH]; [destruct I'|]. cbn [map fst] in *. apply NoDup_cons_iff in NDf as [Na NDf]. destruct (String.eqb_spec a k0) as [->|Na0].
      * assert (Z : map (fun kv : string * yaml => if String.eqb (fst kv) k0 then (kf, vf) else kv) f = f).
        { rewrite <- (map_id f) at 2. apply map_ext_in. intros [x y] X. cbn. destruct (String.eqb_spec x k0) as [->|_]; [|reflexivity]. destruct Na. apply (in_map fst) in X. exact X. }
        rewrite Z. cbn. destruct (String.eqb_spec k k0) as [->|Nk].
        -- destruct (String.eqb_spec k0 kf) as [->|_]; [now destruct N|]. now apply aget_none.
        -- destruct (String.eqb_spec k kf) as [->|_]; [|destruct (aget k f); reflexivity]. assert (G : aget kf f = None) by (apply aget_none; intros Q; apply Nf; now right). now rewrite G.
      * destruct I' as [Q|I']; [contradiction|]. assert (Nf' : ~ In kf (map fst f)) by (intros Q; apply Nf; now right). specialize (IH Nf' NDf I'). cbn. destruct (String.eqb_spec k a) as [->|Nk].
        -- destruct (String.eqb_spec a k0); [contradiction|reflexivity].
        -- exact IH.
Qed.
Lemma merge_default : forall m, keys_once m -> exists m', merge_yaml (YMapping m) default_graphqlrc = YMapping m' /\
  (forall k, k <> "schema" -> aget k m' = aget k m) /\
  aget "schema" m' = Some (match aget "schema" m with Some old => merge_yaml old (YSequence globs) | None => YSequence globs end).
Proof.
  intros m ND. unfold default_graphqlrc. cbn [merge_yaml]. change [YString "./.tailcallrc.graphql"; YString "./*.graphql"] with globs. eexists. split; [reflexivity|].
  destruct (aget "schema" m) as [old|] eqn:E.
  - assert (I : In "schema" (map fst m)) by (destruct (in_dec string_dec "schema" (map fst m)) as [Q|Q]; [exact Q|apply aget_none in Q; congruence]).
    split; [intros k N|]; rewrite aget_app, (swap_remove_aget "schema" m ND I).
    + destruct (String.eqb_spec k "schema"); [contradiction|]. destruct (aget k m); [reflexivity|]. cbn [aget]. destruct (String.eqb_spec k "schema"); [contradiction|reflexivity].
    + rewrite String.eqb_refl. cbn [aget]. rewrite String.eqb_refl. reflexivity.
  - split; [intros k N|]; rewrite aget_app; [|rewrite E; reflexivity]. destruct (aget k m); [reflexivity|]. cbn [aget]. destruct (String.eqb_spec k "schema"); [contradiction|reflexivity].
Qed.
