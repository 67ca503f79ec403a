(** Configurations generated from proto files: the whole of them. *)
From Coq Require Import String Ascii ZArith NArith Bool Arith List Lia.
From Verif Require Import Base BaseFacts StringFacts Ordered OrderedFacts TypeModel ConfigModel BuilderModel UrlModel PgModel PgSpec PgProofs Pg2Proofs.
Import ListNotations.
Open Scope string_scope.
Open Scope list_scope.

Section Induction.
  Variable P : message -> Prop.
  Hypothesis H : forall n b e nested o f, Forall P nested -> P (Message n b e nested o f).
  Fixpoint message_nested_ind (m : message) : P m :=
    match m with
    | Message n b e nested o f =>
        H n b e nested o f ((fix all l : Forall P l := match l with [] => Forall_nil _ | m :: l => Forall_cons _ (message_nested_ind m) (all l) end) nested)
    end.
End Induction.

Section Files.
  Variable camel : string -> string.
  Variable grpc_text : string -> option string -> string -> string.
  Variable query url : string.
  Variable files : list pfile.
  Hypothesis WF : well_formed files.
  Notation step := (step camel grpc_text query url files).
  Notation good := (good query files).
  Notation plain := (plain files).
  Notation holds_message := (holds_message camel files).
  Notation holds_method := (holds_method camel grpc_text query url).
  Notation apart := (names_apart query files).

  Lemma step_namespace ns x : step x (with_namespace ns x).
  Proof. split; auto. intros [A B C D]. split; auto. intros Ap. destruct (D Ap). now split. Qed.
  Lemma step_comments f c x : In f files -> pl_comments f = Some c -> step x (with_comments (Some c) x).
  Proof. intros I E. split; auto; [intros P; rewrite (P f I) in E; discriminate|]. intros [A B C D]. split; auto. intros Ap. destruct (D Ap). now split. Qed.
  Lemma step_map q m x : message_at files q m -> is_map_entry m = true -> step x (with_map (String.concat "." q) x).
  Proof. intros M T. split; auto; [now right|]. intros [A B C D]. split; auto; [intros s [<-|I]; [eauto|now apply A]|]. intros Ap. destruct (D Ap). now split. Qed.

  (** ** Enums *)
  Definition stands_enum (x : context) (p : list string) (e : penum) : Prop :=
    oget scmp (title p) (x_enums x) <> None /\ (apart -> plain -> x_comments x = None -> holds_enum x p e).
  Lemma stands_enum_step x x' p e : step x x' -> enum_at files p e -> (plain -> x_comments x = None) -> stands_enum x p e -> stands_enum x' p e.
  Proof. intros St E N [A B]. split; [now apply (s_enums _ _ _ _ _ _ _ St)|]. intros Ap Pl _. apply (s_enum _ _ _ _ _ _ _ St Ap Pl (N Pl) p e E). auto. Qed.

  Lemma variants_in l : forall acc v, In v (fold_left (fun l v => sins scmp v l) l acc) <-> In v l \/ In v acc.
  Proof.
    induction l as [|a l IH]; intros acc v; cbn [fold_left]; [cbn; tauto|]. rewrite IH. rewrite (sins_in scmp scmp_order). cbn. intuition.
  Qed.
  Lemma enum_step q e parent number i x : enum_at files (q ++ [pe_name e]) e -> (exists a r, x_namespace x = String.concat "." a :: r /\ Forall word a /\ q = a ++ r) ->
    let x' := append_enum parent number x (i, e) in
    step x x' /\ x_namespace x' = x_namespace x /\ stands_enum x' (q ++ [pe_name e]) e.
  Proof.
    intros E (a & r & Ns & Wa & ->). cbn zeta. pose proof (wf_enums _ WF _ _ E) as W. unfold append_enum. cbn [fst snd].
    apply Forall_app in W. destruct W as [Wp We]. apply Forall_app in Wp. destruct Wp as [_ Wr]. inversion We as [|? ? We' _ ]; subst.
    rewrite Ns, gparse_words by assumption. rewrite object_words. set (ge := {| e_variants := _; e_doc := _ |}).
    assert (H : plain -> x_comments x = None -> holds_enum (with_enums (oins scmp (title ((a ++ r) ++ [pe_name e])) ge (x_enums x)) x) ((a ++ r) ++ [pe_name e]) e).
    { intros Pl N. exists ge. cbn. rewrite (oget_oins_same scmp scmp_order). split; [reflexivity|]. intros [v al]. rewrite in_map_iff. cbn [fst snd]. split.
      - intros (w & E1 & I). injection E1 as -> <-. split; [reflexivity|]. apply variants_in in I. destruct I as [I|[]]. apply in_map_iff in I. destruct I as ([k w] & <- & I). apply indexed_in in I. apply nth_error_In in I.
        unfold enum_variant, get_comments. rewrite N. cbn [snd]. rewrite word_normal; [exact I|]. now apply (wf_values _ WF _ e w E).
      - intros [-> I]. exists v. split; [reflexivity|]. apply variants_in. left. apply in_map_iff. apply In_nth_error in I. destruct I as (k & I). exists (k, v). split; [|now apply indexed_in].
        unfold enum_variant, get_comments. rewrite N. cbn [snd]. apply word_normal. apply nth_error_In in I. now apply (wf_values _ WF _ e v E). }
    split; [|split; [exact Ns|]].
    - split; auto.
      + intros n G. cbn. destruct (String.eqb_spec n (title ((a ++ r) ++ [pe_name e]))) as [->|D]; [now rewrite (oget_oins_same scmp scmp_order)|]. now rewrite (oget_oins_other scmp scmp_order) by congruence.
      + intros [A B C D]. split; auto. intros Ap. destruct (D Ap) as [T1 T2 T3 T4]. split; auto. intros n F. cbn in F. destruct (String.eqb_spec n (title ((a ++ r) ++ [pe_name e]))) as [->|Dn]; [eauto|]. rewrite (oget_oins_other scmp scmp_order) in F by congruence. now apply T3.
      + intros Ap Pl N p e' E' (ge' & G & V). destruct (list_eq_dec string_dec p ((a ++ r) ++ [pe_name e])) as [->|D]; [rewrite (wf_unique_enums _ WF _ e' e E' E); auto|].
        exists ge'. cbn. rewrite (oget_oins_other scmp scmp_order); [auto|]. intros F. apply D. eapply (na_enums _ _ Ap); eauto.
    - split; [cbn; now rewrite (oget_oins_same scmp scmp_order)|]. auto.
  Qed.
  Lemma enums_step q parent number : forall enums i x, (forall e, In e enums -> enum_at files (q ++ [pe_name e]) e) -> (exists a r, x_namespace x = String.concat "." a :: r /\ Forall word a /\ q = a ++ r) ->
    (plain -> x_comments x = None) ->
    let x' := fold_left (append_enum parent number) (indexed i enums) x in
    step x x' /\ x_namespace x' = x_namespace x /\ forall e, In e enums -> stands_enum x' (q ++ [pe_name e]) e.
  Proof.
    induction enums as [|e enums IH]; intros i x A Ns Pl; cbn [indexed fold_left]; cbn zeta.
    - split; [apply step_refl|]. split; [reflexivity|]. intros e [].
    - destruct (enum_step q e parent number i x (A e (or_introl eq_refl)) Ns) as (S1 & N1 & T1). cbn zeta in S1, N1, T1. set (x1 := append_enum parent number x (i, e)) in *.
      assert (Pl1 : plain -> x_comments x1 = None) by (intros P; apply (s_comments _ _ _ _ _ _ _ S1 P); auto).
      destruct (IH (S i) x1) as (S2 & N2 & T2); [intros e' I; apply A; now right|now rewrite N1|exact Pl1|]. cbn zeta in S2, N2, T2. set (x2 := fold_left _ _ x1) in *.
      split; [eapply step_trans; eassumption|]. split; [congruence|]. intros e' [<-|I]; [|auto]. apply (stands_enum_step x1); auto. apply A. now left.
  Qed.

  (** ** Messages *)
  Definition stands (x : context) (p : list string) (m : message) : Prop :=
    sees x (title p) /\ (apart -> holds_message x p m) /\ forall e, In e (message_enums m) -> stands_enum x (p ++ [pe_name e]) e.
  Lemma stands_step x x' p m : step x x' -> message_at files p m -> is_map_entry m = false -> (plain -> x_comments x = None) -> stands x p m -> stands x' p m.
  Proof.
    intros St M N Pl (A & B & C). split; [now apply (step_sees _ _ _ _ _ _ _ _ St)|]. split; [intros Ap; apply (s_message _ _ _ _ _ _ _ St Ap p m M N); auto|].
    intros e I. apply (stands_enum_step x x' _ e St); auto. right. exists p, m. auto.
  Qed.
  Definition covers (x : context) (q : list string) (ms : list message) : Prop := forall r m, declares ms r m -> is_map_entry m = false -> stands x (q ++ r) m.
  Lemma covers_step x x' q ms : step x x' -> (forall r m, declares ms r m -> message_at files (q ++ r) m) -> (plain -> x_comments x = None) -> covers x q ms -> covers x' q ms.
  Proof. intros St A Pl C r m D N. apply (stands_step x x' _ m St); auto. Qed.
  Definition mapped (x : context) (q : list string) (ms : list message) : Prop := forall m, In m ms -> is_map_entry m = true -> In (String.concat "." (q ++ [message_name m])) (x_maps x).

  Definition fine_message (m : message) : Prop := forall path a r x, x_namespace x = String.concat "." a :: r -> Forall word a -> (plain -> x_comments x = None) ->
    (forall p m', declares [m] p m' -> message_at files ((a ++ r) ++ p) m') -> good x ->
    exists x', append_message camel path m x = Ok x' /\ step x x' /\ x_namespace x' = x_namespace x /\ covers x' (a ++ r) [m] /\ mapped x' (a ++ r) [m].
  Lemma declares_one m p m' ms : declares [m] p m' -> In m ms -> declares ms p m'.
  Proof.
    intros D I. inversion D; subst; [match goal with H : In _ [_] |- _ => destruct H as [<-|[]] end; now constructor|].
    match goal with H : In _ [_] |- _ => destruct H as [<-|[]] end. eapply Inside; eassumption.
  Qed.
  Lemma declares_split m ms p m' : declares (m :: ms) p m' -> declares [m] p m' \/ declares ms p m'.
  Proof.
    intros D. inversion D; subst; match goal with H : In _ (_ :: _) |- _ => destruct H as [<-|H] end.
    - left. constructor. now left.
    - right. now constructor.
    - left. eapply Inside; [now left|eassumption|eassumption].
    - right. eapply Inside; eassumption.
  Qed.

  (** Messages in turn, whatever the path of each is. *)
  Lemma fine_list (run : nat -> list message -> context -> result context pg_error) (path : nat -> list nat) :
    (forall i x, run i [] x = Ok x) -> (forall i m l x, run i (m :: l) x = match append_message camel (path i) m x with Ok x => run (S i) l x | Err e => Err e end) ->
    forall l, Forall fine_message l -> forall i a r x, x_namespace x = String.concat "." a :: r -> Forall word a -> (plain -> x_comments x = None) ->
    (forall p m', declares l p m' -> message_at files ((a ++ r) ++ p) m') -> good x ->
    exists x', run i l x = Ok x' /\ step x x' /\ x_namespace x' = x_namespace x /\ covers x' (a ++ r) l /\ mapped x' (a ++ r) l.
  Proof.
    intros R0 R1. induction 1 as [|m l F _ IH]; intros i a r x Ns Wa Pl A G.
    - exists x. rewrite R0. split; [reflexivity|]. split; [apply step_refl|]. split; [reflexivity|]. split; [|intros m []]. intros p m D. inversion D; subst; match goal with H : In _ [] |- _ => destruct H end.
    - rewrite R1. destruct (F (path i) a r x Ns Wa Pl) as (x1 & -> & S1 & N1 & C1 & M1); [intros p m' D; apply A; apply (declares_one m); [exact D|now left]|exact G|].
      assert (Pl1 : plain -> x_comments x1 = None) by (intros P; apply (s_comments _ _ _ _ _ _ _ S1 P); auto).
      destruct (IH (S i) a r x1) as (x2 & -> & S2 & N2 & C2 & M2); [congruence|exact Wa|exact Pl1| |now apply (s_good _ _ _ _ _ _ _ S1)|].
      { intros p m' D. apply A. inversion D; subst; [constructor; now right|eapply Inside; [right; eassumption|eassumption|eassumption]]. }
      exists x2. split; [reflexivity|]. split; [eapply step_trans; eassumption|]. split; [congruence|]. split.
      + intros p m' D N. apply declares_split in D. destruct D as [D|D]; [|now apply C2]. apply (stands_step x1 x2 _ m' S2); auto. apply A. apply (declares_one m); [exact D|now left].
      + intros m' [<-|I] T; [apply (s_maps _ _ _ _ _ _ _ S2); apply M1; [now left|exact T]|now apply M2].
  Qed.

  Lemma all_fine : forall m, fine_message m.
  Proof.
    apply message_nested_ind. intros name map_entry enums nested oneofs fields F path a r x Ns Wa Pl A G. set (m := Message name map_entry enums nested oneofs fields) in *.
    assert (M : message_at files ((a ++ r) ++ [name]) m) by (apply (A [name] m), (Declared [m] m); now left).
    pose proof (wf_messages _ WF _ _ M) as W. apply Forall_app in W. destruct W as [War Wn]. apply Forall_app in War. destruct War as [_ Wr]. inversion Wn as [|? ? Wn' _]; subst.
    cbn [m append_message]. rewrite Ns, gparse_words by assumption. destruct map_entry.
    - rewrite gid_words. eexists. split; [reflexivity|]. split; [now apply (step_map _ m)|]. split; [exact Ns|]. split.
      + intros p m' D N. inversion D; subst; match goal with H : In _ [_] |- _ => destruct H as [<-|[]] end; discriminate.
      + intros m' [<-|[]] _. now left.
    - set (x0 := with_namespace ((String.concat "." a :: r) ++ [name]) x).
      assert (S0 : step x x0) by apply step_namespace.
      destruct (enums_step ((a ++ r) ++ [name]) path 4 enums 0 x0) as (S1 & N1 & E1).
      { intros e I. right. exists ((a ++ r) ++ [name]), m. auto. }
      { exists a, (r ++ [name]). split; [reflexivity|]. split; [exact Wa|now rewrite app_assoc]. }
      { exact Pl. }
      cbn zeta in S1, N1, E1. unfold append_enums. set (x1 := fold_left _ _ x0) in *.
      assert (Pl1 : plain -> x_comments x1 = None) by (intros P; apply (s_comments _ _ _ _ _ _ _ S1 P); cbn; auto).
      set (go := (fix go (i : nat) (l : list message) (x : context) : result context pg_error := match l with [] => Ok x | m :: l => match append_message camel (path ++ [3; i]) m x with Ok x => go (S i) l x | Err e => Err e end end)).
      destruct (fine_list go (fun i => path ++ [3; i]) (fun i x => eq_refl) (fun i m l x => eq_refl) nested F 0 a (r ++ [name]) x1) as (x2 & -> & S2 & N2 & C2 & M2).
      { rewrite N1. reflexivity. } { exact Wa. } { exact Pl1. }
      { intros p m' D. rewrite (app_assoc a), <- (app_assoc (a ++ r)). apply A. cbn [app]. apply (Inside [m] m); [now left|reflexivity|exact D]. }
      { apply (s_good _ _ _ _ _ _ _ S1), (s_good _ _ _ _ _ _ _ S0), G. }
      assert (Pl2 : plain -> x_comments x2 = None) by (intros P; apply (s_comments _ _ _ _ _ _ _ S2 P); auto).
      set (x3 := with_namespace (removelast (x_namespace x2)) x2). assert (S3 : step x2 x3) by apply step_namespace.
      assert (S03 : step x x3) by (eapply step_trans; [|exact S3]; eapply step_trans; [|exact S2]; eapply step_trans; eassumption).
      assert (G3 : good x3) by now apply (s_good _ _ _ _ _ _ _ S03).
      destruct (append_fields_parts camel files WF x3 ((a ++ r) ++ [name]) m path (plain_type [] (get_comments x3 path) []) M eq_refl (gd_maps _ _ _ G3)) as (base & gs & Ef & P).
      { intros m' I T. cbn [x3 with_namespace x_maps]. rewrite <- (app_assoc a). now apply M2. }
      cbn [m message_fields message_oneofs] in Ef. rewrite Ef. rewrite object_words.
      destruct (insert_message camel grpc_text query url files WF x3 ((a ++ r) ++ [name]) m base gs (get_comments x3 path) M eq_refl P) as (S4 & Se & Ho).
      set (T := add_all base _) in *.
      assert (X : match oneofs with 0 => insert_type (title ((a ++ r) ++ [name])) T x3 | S _ => insert_oneofs (title ((a ++ r) ++ [name])) T gs x3 end = insert_oneofs (title ((a ++ r) ++ [name])) T gs x3).
      { destruct oneofs; [|reflexivity]. destruct P as (_ & L & _). destruct gs; [reflexivity|discriminate]. }
      rewrite X. clear X. set (x4 := insert_oneofs _ T gs x3) in *. exists x4. split; [reflexivity|]. split; [eapply step_trans; eassumption|].
      assert (S24 : step x2 x4) by (eapply step_trans; eassumption). split; [|split].
      + unfold x4. destruct (insert_oneofs_is (title ((a ++ r) ++ [name])) T gs x3) as [One Many].
        assert (D : {Forall (fun g => length g <= 1) gs} + {~ Forall (fun g => length g <= 1) gs}) by (apply Forall_dec; intros g; apply le_dec).
        assert (N3 : x_namespace x3 = x_namespace x) by (cbn [x3 with_namespace x_namespace]; rewrite N2, N1; cbn [x0 with_namespace x_namespace]; rewrite removelast_app by discriminate; cbn [removelast]; rewrite app_nil_r; symmetry; exact Ns).
        destruct D as [D|D]; [rewrite (One D); rewrite <- Ns; exact N3|]. destruct (Many D) as (ts & u & -> & _). rewrite <- Ns; exact N3.
      + assert (Se' : forall e, In e enums -> stands_enum x4 (((a ++ r) ++ [name]) ++ [pe_name e]) e).
        { intros e I. apply (stands_enum_step x1 x4); auto; [eapply step_trans; eassumption|]. right. exists ((a ++ r) ++ [name]), m. auto. }
        intros p m' D N. inversion D as [ms m0 I E1' E2'|ms m0 p' m0' I N0 D' E1' E2']; subst; destruct I as [<-|[]].
        * split; [exact Se|]. split; [intros _; exact Ho|exact Se'].
        * cbn [message_name m message_nested] in *. assert (E : (a ++ r) ++ name :: p' = (a ++ (r ++ [name])) ++ p') by (rewrite <- !app_assoc; reflexivity). rewrite E.
          apply (stands_step x2 x4 _ m' S24); auto. rewrite <- E. now apply A.
      + intros m' [<-|[]] T'. discriminate.
  Qed.

  (** ** Methods *)
  Notation rooted := (rooted query).
  Lemma method_step q svc d path i x : Forall word q -> method_at files (q ++ [svc; pd_name d]) d -> x_namespace x = [String.concat "." q] ->
    exists x', append_method camel grpc_text query url svc path (i, d) x = Ok x' /\ step x x' /\ x_namespace x' = x_namespace x /\ (apart -> rooted x -> holds_method x' (q ++ [svc; pd_name d]) d).
  Proof.
    intros Wq D Ns. pose proof (wf_methods _ WF _ _ D) as W. apply Forall_app in W. destruct W as [_ W]. inversion W as [|? ? Ws W2]; subst. inversion W2 as [|? ? Wd _]; subst. clear W W2.
    destruct (wf_calls _ WF _ _ D) as [In' Out]. unfold append_method. cbn [fst snd]. rewrite Ns. change ([String.concat "." q] ++ [svc]) with (String.concat "." q :: [svc]). rewrite gparse_words; [|exact Wd|exact Wq|apply Forall_cons; [exact Ws|constructor]].
    rewrite gid_words, method_words. assert (Eq : (q ++ [svc]) ++ [pd_name d] = q ++ [svc; pd_name d]) by now rewrite <- app_assoc. rewrite Eq. set (p := q ++ [svc; pd_name d]) in *.
    (* the argument *)
    assert (I : exists input, get_input_type (pd_input d) = Ok input /\
       match input with
       | None => String.eqb (pd_input d) "" || String.eqb (pd_input d) empty_message = true
       | Some g => String.eqb (pd_input d) "" || String.eqb (pd_input d) empty_message = false /\ exists q' m, refers (pd_input d) q' /\ message_at files q' m /\ is_map_entry m = false /\ object_text g = title q' /\ gn_name g = last q' ""
       end).
    { unfold get_input_type. rewrite (orb_comm (String.eqb _ ".google.protobuf.Empty")). change ".google.protobuf.Empty" with empty_message. destruct (String.eqb (pd_input d) "" || String.eqb (pd_input d) empty_message) eqn:B; [now exists None|].
      apply orb_false_iff in B. destruct B as [B1 B2]. apply String.eqb_neq in B1, B2. destruct In' as [In'|[In'|(q' & m & R & M & N)]]; [contradiction|contradiction|].
      destruct (ref_title q' (message_nonempty files q' m M) (wf_messages _ WF q' m M)) as (g & G & T & L). unfold refers in R. rewrite R, G. exists (Some g). split; [reflexivity|]. split; [reflexivity|]. exists q', m. repeat split; auto. }
    assert (O : exists output, get_output_type (pd_output d) = Ok output /\ known files (object_text output) /\
       if String.eqb (pd_output d) empty_message then object_text output = "Empty" else exists q', refers (pd_output d) q' /\ Forall word q' /\ object_text output = title q').
    { unfold get_output_type. change ".google.protobuf.Empty" with empty_message. destruct (String.eqb (pd_output d) empty_message) eqn:B.
      - eexists. split; [reflexivity|]. split; [now left|reflexivity].
      - apply String.eqb_neq in B. destruct Out as [Out|(q' & m & R & M & N)]; [contradiction|].
        destruct (ref_title q' (message_nonempty files q' m M) (wf_messages _ WF q' m M)) as (g & G & T & L). unfold refers in R. rewrite R, G. exists g. split; [reflexivity|]. split; [right; exists q'; rewrite T; eauto 6|]. exists q'. rewrite T. split; [reflexivity|]. split; [exact (wf_messages _ WF q' m M)|reflexivity]. }
    destruct I as (input & -> & I), O as (output & -> & Ko & O).
    set (ab := match input with Some g => _ | None => _ end). destruct ab as [args body] eqn:Eab. unfold ab in Eab. clear ab.
    set (f := plain_field _ _ _ _). set (tx := match oget scmp query (x_types x) with Some t => (t, x) | None => _ end). destruct tx as [t x1] eqn:Etx. unfold tx in Etx. clear tx.
    assert (X1 : x_types x1 = x_types x /\ x_unions x1 = x_unions x /\ x_enums x1 = x_enums x /\ x_maps x1 = x_maps x /\ x_namespace x1 = x_namespace x /\ x_comments x1 = x_comments x /\
       (x_root x = Some query -> x_root x1 = Some query) /\ (rooted x -> x_root x1 = Some query) /\
       (oget scmp query (x_types x) = Some t \/ oget scmp query (x_types x) = None /\ t = plain_type [] None [])).
    { unfold Pg2Proofs.rooted. destruct (oget scmp query (x_types x)) as [t0|] eqn:E; injection Etx as <- <-.
      - repeat split; auto. intros R. apply R. discriminate.
      - repeat split; auto. }
    destruct X1 as (X1 & X2 & X3 & X4 & X5 & X6 & X7 & X8 & X9). set (x' := insert_type query _ x1). exists x'. split; [reflexivity|].
    set (T := insert_field (method_title p) f t) in *.
    assert (Gq : oget scmp query (x_types x') = Some T) by (cbn; apply (oget_oins_same scmp scmp_order)).
    assert (Go : forall n, n <> query -> oget scmp n (x_types x') = oget scmp n (x_types x)) by (intros n E; cbn; rewrite X1; apply (oget_oins_other scmp scmp_order); congruence).
    assert (St : forall n, oget scmp n (x_types x) <> None -> oget scmp n (x_types x') <> None) by (intros n E; destruct (String.eqb_spec n query) as [->|Dn]; [rewrite Gq; discriminate|now rewrite Go]).
    assert (Ho : x_root x' = Some query -> holds_method x' p d).
    { intros R. split; [exact R|]. exists T, f, body. split; [exact Gq|]. split; [cbn; apply (oget_oins_same scmp scmp_order)|]. split; [reflexivity|]. split.
      - destruct input as [g|].
        + destruct I as [-> (q' & m & R' & M & N & Tg & Lg)]. injection Eab as <- <-. exists q', (camel (gn_name g)). eexists. split; [exact R'|]. split; [exact (wf_messages _ WF q' m M)|]. split; [now rewrite Lg|]. split; [reflexivity|]. split; [cbn; now rewrite Tg|reflexivity].
        + rewrite I. injection Eab as <- <-. split; reflexivity.
      - destruct (String.eqb (pd_output d) empty_message); [cbn; now rewrite O|]. destruct O as (q' & R' & W' & E). exists q'. split; [exact R'|]. split; [exact W'|]. cbn. now rewrite E. }
    assert (Kf : known files (type_name (f_type f)) /\ forall a b, In (a, b) (f_args f) -> known files (type_name (arg_type b))).
    { split; [exact Ko|]. intros a b J. cbn [f plain_field f_args] in J. destruct input as [g|]; injection Eab as <- <-; [|destruct J]. destruct J as [J|[]]. injection J as <- <-. cbn [arg_type type_name]. destruct I as [_ (q' & m & R' & M & N & Tg & Lg)]. rewrite Tg. right. exists q'. split; [right; eauto|reflexivity]. }
    split; [|split; [rewrite <- Ns; exact X5|intros Ap R; apply Ho, X8, R]].
    split.
    - intros _ N. cbn. congruence.
    - exact St.
    - intros n. cbn. now rewrite X2.
    - intros n. cbn. now rewrite X3.
    - intros n. cbn. now rewrite X4.
    - intros G. split.
      + cbn. rewrite X4. exact (gd_maps _ _ _ G).
      + intros n t' E. destruct (String.eqb_spec n query) as [->|Dn].
        * rewrite Gq in E. injection E as <-. cbn [T insert_field t_implements t_fields].
          assert (Kt : (forall i0, In i0 (t_implements t) -> oget scmp i0 (x_types x) <> None) /\ forall k f0, In (k, f0) (t_fields t) -> known files (type_name (f_type f0)) /\ forall a b, In (a, b) (f_args f0) -> known files (type_name (arg_type b))).
          { destruct X9 as [E|[_ ->]]; [exact (gd_types _ _ _ G query t E)|]. split; [intros ? []|intros ? ? []]. }
          split; [intros i0 J; apply St; now apply Kt|]. intros k f0 J. apply (oins_in scmp scmp_order) in J. destruct J as [[-> ->]|J]; [exact Kf|]. eapply (proj2 Kt). apply J.
        * rewrite Go in E by exact Dn. destruct (gd_types _ _ _ G n t' E) as [A B]. split; [intros i0 J; now apply St, A|exact B].
      + intros n u v A B. apply St. cbn in A. rewrite X2 in A. now apply (gd_unions _ _ _ G n u).
      + intros Ap. destruct (gd_only _ _ _ G Ap) as [T1 T2 T3 T4]. split.
        * intros n E. destruct (String.eqb_spec n query) as [->|Dn]; [now left|]. rewrite Go in E by exact Dn. now apply T1.
        * intros n E. cbn in E. rewrite X2 in E. now apply T2.
        * intros n E. cbn in E. rewrite X3 in E. now apply T3.
        * intros t' k f0 A B. rewrite Gq in A. injection A as <-. cbn [T insert_field t_fields] in B. apply (oins_in scmp scmp_order) in B. destruct B as [[-> ->]|B]; [eauto|]. destruct X9 as [E|[_ ->]]; [now apply (T4 t k f0)|destruct B].
    - intros _ R _. cbn. now apply X8.
    - intros Ap p' m' M' N' H. apply (holds_kept camel files x); [|cbn; now rewrite X2|exact H]. intros n U. apply Go. intros ->. now apply (na_query _ _ Ap p' m').
    - intros Ap p' d' D' H. destruct (list_eq_dec string_dec p' p) as [->|Dp].
      + rewrite (wf_unique_methods _ WF p d' d D' D). apply Ho, X7, H.
      + destruct H as (R & t1 & f1 & b1 & Q & Fq & H). split; [cbn; now apply X7|]. exists T, f1, b1. split; [exact Gq|]. split; [|exact H]. cbn [T insert_field t_fields].
        rewrite (oget_oins_other scmp scmp_order); [|intros E; apply Dp; symmetry in E; eapply (na_methods _ _ Ap); eauto]. destruct X9 as [E|[E _]]; congruence.
    - intros Ap Pl N p' e E (ge & A & B). exists ge. split; [cbn; now rewrite X3|exact B].
  Qed.

  Lemma methods_step q svc path : Forall word q -> forall l i x, (forall d, In d l -> method_at files (q ++ [svc; pd_name d]) d) -> x_namespace x = [String.concat "." q] ->
    exists x', append_methods camel grpc_text query url svc path (indexed i l) x = Ok x' /\ step x x' /\ x_namespace x' = x_namespace x /\
      (apart -> rooted x -> forall d, In d l -> holds_method x' (q ++ [svc; pd_name d]) d).
  Proof.
    intros Wq. induction l as [|d l IH]; intros i x A Ns; cbn [indexed append_methods].
    - exists x. split; [reflexivity|]. split; [apply step_refl|]. split; [reflexivity|]. intros _ _ d [].
    - destruct (method_step q svc d path i x Wq (A d (or_introl eq_refl)) Ns) as (x1 & -> & S1 & N1 & H1). destruct (IH (S i) x1) as (x2 & -> & S2 & N2 & H2); [intros e I; apply A; now right|congruence|].
      exists x2. split; [reflexivity|]. split; [eapply step_trans; eassumption|]. split; [congruence|]. intros Ap R d' [<-|I].
      + apply (s_method _ _ _ _ _ _ _ S2 Ap); [apply A; now left|now apply H1].
      + apply H2; [exact Ap|now apply (s_root _ _ _ _ _ _ _ S1)|exact I].
  Qed.
  Lemma services_step q : Forall word q -> forall l i x, (forall s d, In s l -> In d (ps_methods s) -> method_at files (q ++ [ps_name s; pd_name d]) d) -> x_namespace x = [String.concat "." q] ->
    exists x', append_services camel grpc_text query url (indexed i l) x = Ok x' /\ step x x' /\
      (apart -> rooted x -> forall s d, In s l -> In d (ps_methods s) -> holds_method x' (q ++ [ps_name s; pd_name d]) d).
  Proof.
    intros Wq. induction l as [|s l IH]; intros i x A Ns; cbn [indexed append_services].
    - exists x. split; [reflexivity|]. split; [apply step_refl|]. intros _ _ s d [].
    - destruct (methods_step q (ps_name s) [6; i] Wq (ps_methods s) 0 x (fun d I => A s d (or_introl eq_refl) I) Ns) as (x1 & -> & S1 & N1 & H1). destruct (IH (S i) x1) as (x2 & -> & S2 & H2); [intros s' d I J; apply A; [now right|exact J]|congruence|].
      exists x2. split; [reflexivity|]. split; [eapply step_trans; eassumption|]. intros Ap R s' d [<-|I] J.
      + apply (s_method _ _ _ _ _ _ _ S2 Ap); [apply A; [now left|exact J]|now apply H1].
      + apply H2; [exact Ap|now apply (s_root _ _ _ _ _ _ _ S1)|exact I|exact J].
  Qed.

  (** ** Files *)
  Definition holds_file (x : context) (f : pfile) (q : list string) : Prop :=
    covers x q (pl_messages f) /\ (forall e, In e (pl_enums f) -> stands_enum x (q ++ [pe_name e]) e) /\
    (apart -> forall s d, In s (pl_services f) -> In d (ps_methods s) -> holds_method x (q ++ [ps_name s; pd_name d]) d).
  Lemma holds_file_step x x' f q : step x x' -> In f files -> in_package f q -> (plain -> x_comments x = None) -> holds_file x f q -> holds_file x' f q.
  Proof.
    intros St I P Pl (A & B & C). split; [|split].
    - apply (covers_step x x' q _ St); auto. intros r m D. exists f, q, r. auto.
    - intros e J. apply (stands_enum_step x x' _ e St); auto. left. exists f, q. auto.
    - intros Ap s d J K. apply (s_method _ _ _ _ _ _ _ St Ap); [|now apply C]. exists f, q, s. auto.
  Qed.
  Lemma file_step f q x : In f files -> in_package f q -> good x -> (plain -> x_comments x = None) ->
    exists x', append_file camel grpc_text query url f x = Ok x' /\ step x x' /\ (apart -> rooted x -> holds_file x' f q) /\ covers x' q (pl_messages f) /\ (forall e, In e (pl_enums f) -> stands_enum x' (q ++ [pe_name e]) e).
  Proof.
    intros I [Pk Wq] G Pl. unfold append_file. set (x0 := match pl_comments f with Some c => _ | None => _ end).
    assert (S0 : step x x0). { unfold x0. destruct (pl_comments f) as [c|] eqn:E; [|apply step_namespace]. eapply step_trans; [apply (step_namespace [pl_package f])|]. now apply (step_comments f). }
    assert (N0 : x_namespace x0 = [String.concat "." q]) by (unfold x0; destruct (pl_comments f); cbn; now rewrite Pk).
    assert (Pl0 : plain -> x_comments x0 = None) by (intros P; apply (s_comments _ _ _ _ _ _ _ S0 P); auto).
    destruct (enums_step q [] 5 (pl_enums f) 0 x0) as (S1 & N1 & E1); [intros e J; left; exists f, q; repeat split; auto|exists q, []; split; [exact N0|]; split; [exact Wq|now rewrite app_nil_r]|exact Pl0|]. cbn zeta in S1, N1, E1. unfold append_enums. set (x1 := fold_left _ _ x0) in *.
    assert (Pl1 : plain -> x_comments x1 = None) by (intros P; apply (s_comments _ _ _ _ _ _ _ S1 P); auto).
    destruct (fine_list (append_messages camel []) (fun i => [] ++ [4; i]) (fun i x => eq_refl) (fun i m l x => eq_refl) (pl_messages f)) with (i := 0) (a := q) (r := @nil string) (x := x1) as (x2 & -> & S2 & N2 & C2 & _).
    { apply Forall_forall. intros m _. apply all_fine. } { congruence. } { exact Wq. } { exact Pl1. }
    { intros p m D. rewrite app_nil_r. exists f, q, p. repeat split; auto. } { apply (s_good _ _ _ _ _ _ _ S1), (s_good _ _ _ _ _ _ _ S0), G. }
    rewrite app_nil_r in C2.
    assert (Pl2 : plain -> x_comments x2 = None) by (intros P; apply (s_comments _ _ _ _ _ _ _ S2 P); auto).
    destruct (services_step q Wq (pl_services f) 0 x2) as (x3 & -> & S3 & H3); [intros s d J K; exists f, q, s; repeat split; auto|congruence|].
    assert (C3 : covers x3 q (pl_messages f)) by (apply (covers_step x2 x3 q _ S3); auto; intros r m D; exists f, q, r; repeat split; auto).
    assert (E3 : forall e, In e (pl_enums f) -> stands_enum x3 (q ++ [pe_name e]) e).
    { intros e J. apply (stands_enum_step x1 x3); auto; [eapply step_trans; eassumption|]. left. exists f, q. repeat split; auto. }
    assert (S02 : step x x2) by (eapply step_trans; [|exact S2]; eapply step_trans; eassumption).
    exists x3. split; [reflexivity|]. split; [eapply step_trans; eassumption|]. split; [|auto]. intros Ap R. split; [exact C3|]. split; [exact E3|]. intros _ s d J K. apply H3; auto. now apply (s_root _ _ _ _ _ _ _ S02).
  Qed.
  Lemma files_step : forall l x, (forall f, In f l -> In f files) -> good x -> (plain -> x_comments x = None) ->
    exists x', append_files camel grpc_text query url l x = Ok x' /\ step x x' /\ (plain -> x_comments x' = None) /\
      forall f q, In f l -> in_package f q -> (apart -> rooted x -> holds_file x' f q) /\ covers x' q (pl_messages f) /\ (forall e, In e (pl_enums f) -> stands_enum x' (q ++ [pe_name e]) e).
  Proof.
    induction l as [|f l IH]; intros x A G Pl; cbn [append_files].
    - exists x. split; [reflexivity|]. split; [apply step_refl|]. split; [exact Pl|]. intros f q [].
    - destruct (wf_packages _ WF f (A f (or_introl eq_refl))) as (q & P). destruct (file_step f q x (A f (or_introl eq_refl)) P G Pl) as (x1 & E1 & S1 & _). rewrite E1.
      assert (Pl1 : plain -> x_comments x1 = None) by (intros P'; apply (s_comments _ _ _ _ _ _ _ S1 P'); auto).
      destruct (IH x1) as (x2 & -> & S2 & Pl2 & H2); [intros g J; apply A; now right|now apply (s_good _ _ _ _ _ _ _ S1)|exact Pl1|].
      exists x2. split; [reflexivity|]. split; [eapply step_trans; eassumption|]. split; [exact Pl2|]. intros g q' [<-|J] P'.
      + destruct (file_step f q' x (A f (or_introl eq_refl)) P' G Pl) as (x1' & E1' & _ & H & C & E). assert (x1' = x1) by congruence. subst x1'.
        assert (Hm : forall r m, declares (pl_messages f) r m -> message_at files (q' ++ r) m) by (intros r m D; exists f, q', r; split; [apply A; now left|auto]).
        split; [intros Ap R; apply (holds_file_step x1 x2 f q' S2); auto; apply A; now left|]. split; [now apply (covers_step x1 x2 q' _ S2)|].
        intros e K. apply (stands_enum_step x1 x2 _ e S2); auto. left. exists f, q'. split; [apply A; now left|auto].
      + destruct (H2 g q' J P') as (H & C & E). split; [|auto]. intros Ap R. apply H; [exact Ap|]. now apply (s_root _ _ _ _ _ _ _ S1).
  Qed.

  Definition start : context := {| x_namespace := []; x_types := []; x_unions := []; x_enums := []; x_root := None; x_maps := []; x_comments := None |}.
  Lemma start_good : good start.
  Proof. split; [intros s []|discriminate|discriminate|]. intros _. split; try (intros n H; now destruct H); try discriminate. Qed.
  Lemma start_rooted : rooted start.
  Proof. intros H. now destruct H. Qed.

  Theorem generated : exists x, from_proto camel grpc_text query url files = Ok x /\ all_defined x /\
    (apart -> (forall p m, message_at files p m -> is_map_entry m = false -> holds_message x p m) /\ (forall p d, method_at files p d -> holds_method x p d) /\
       (plain -> forall p e, enum_at files p e -> holds_enum x p e) /\ nothing_else query files x).
  Proof.
    destruct (files_step files start (fun f H => H) start_good (fun _ => eq_refl)) as (x & E & St & Pl & H). exists x. split; [exact E|].
    assert (Hm : forall p m, message_at files p m -> is_map_entry m = false -> stands x p m). { intros p m (f & q & r & I & P & D & ->) N. now apply (H f q I P). }
    assert (He : forall p e, enum_at files p e -> stands_enum x p e). { intros p e [(f & q & I & P & J & ->)|(q & m & M & N & J & ->)]; [now apply (H f q I P)|]. now apply (Hm q m M N). }
    assert (G : good x) by apply (s_good _ _ _ _ _ _ _ St), start_good.
    assert (K : forall n, known files n -> is_defined x n).
    { intros n [K|(q & [(e & K)|(m & K & N)] & ->)]; [now left|right; right; right; now apply (He q e)|right]. apply (Hm q m K N). }
    split.
    - split; [|exact (gd_unions _ _ _ G)]. intros n t T. destruct (gd_types _ _ _ G n t T) as [A B]. split; [exact A|]. intros k f I. destruct (B k f I) as [B1 B2]. split; [now apply K|]. intros a b J. apply K. eapply B2. exact J.
    - intros Ap. split; [intros p m M N; now apply Hm|]. split.
      + intros p d (f & q & s & I & P & J & L & ->). destruct (H f q I P) as [Hf _]. destruct (Hf Ap start_rooted) as (_ & _ & X). now apply X.
      + split; [|exact (gd_only _ _ _ G Ap)]. intros P p e M. apply (proj2 (He p e M) Ap P), Pl, P.
  Qed.
End Files.
