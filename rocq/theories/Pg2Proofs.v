(** Configurations generated from proto files: messages, enums and methods. *)
From Coq Require Import String Ascii ZArith NArith Bool Arith List Lia.
From Verif Require Import Base BaseFacts StringFacts Ordered OrderedFacts TypeModel ConfigModel BuilderModel UrlModel PgModel PgSpec PgProofs.
Import ListNotations.
Open Scope string_scope.
Open Scope list_scope.

Lemma declares_nonempty ms r m : declares ms r m -> r <> [].
Proof. destruct 1; discriminate. Qed.
Lemma declares_last ms r m : declares ms r m -> last r "" = message_name m.
Proof. induction 1 as [|ms m p m' I M D IH]; [reflexivity|]. destruct p as [|a p]; [now apply declares_nonempty in D|]. exact IH. Qed.
Lemma declares_snoc ms r m : declares ms r m -> is_map_entry m = false -> forall m', In m' (message_nested m) -> declares ms (r ++ [message_name m']) m'.
Proof.
  induction 1 as [ms m I|ms m p m' I M D IH]; intros N m2 I2; cbn [app]; eapply Inside; eauto. now constructor.
Qed.

Lemma dec_multi m : {multi m} + {~ multi m}.
Proof.
  set (bound := S (fold_right Nat.max 0 (map (fun f => match pf_oneof f with Some i => i | None => 0 end) (message_fields m)))).
  destruct (existsb (fun i => Nat.leb 2 (length (filter (of_oneof (Some i)) (message_fields m)))) (seq 0 bound)) eqn:E.
  - left. apply existsb_exists in E. destruct E as (i & _ & E). exists i. now apply Nat.leb_le.
  - right. intros (i & I). assert (B : i < bound).
    { destruct (filter (of_oneof (Some i)) (message_fields m)) as [|f l] eqn:F; [cbn in I; lia|]. assert (J : In f (filter (of_oneof (Some i)) (message_fields m))) by (rewrite F; now left). apply filter_In in J. destruct J as [J O].
      unfold of_oneof in O. destruct (pf_oneof f) as [j|] eqn:Pf; [|discriminate]. apply Nat.eqb_eq in O. subst j. unfold bound. clear - J Pf. induction (message_fields m) as [|g l' IH]; [destruct J|]. cbn. destruct J as [->|J]; [rewrite Pf; lia|specialize (IH J); lia]. }
    assert (X : existsb (fun i => Nat.leb 2 (length (filter (of_oneof (Some i)) (message_fields m)))) (seq 0 bound) = true) by (apply existsb_exists; exists i; split; [apply in_seq; lia|now apply Nat.leb_le]). congruence.
Qed.

Section Files.
  Variable camel : string -> string.
  Variable grpc_text : string -> option string -> string -> string.
  Variable query url : string.
  Variable files : list pfile.
  Hypothesis WF : well_formed files.

  Lemma message_nonempty p m : message_at files p m -> p <> [].
  Proof. intros (f & q & r & _ & _ & D & ->) E. apply app_eq_nil in E. destruct E as [_ E]. now apply declares_nonempty in D. Qed.
  Lemma enum_nonempty p e : enum_at files p e -> p <> [].
  Proof. intros [(f & q & _ & _ & _ & ->)|(q & m & _ & _ & _ & ->)]; now destruct q. Qed.
  Lemma nested_at p m m' : message_at files p m -> is_map_entry m = false -> In m' (message_nested m) -> message_at files (p ++ [message_name m']) m'.
  Proof. intros (f & q & r & I & P & D & ->) N J. exists f, q, (r ++ [message_name m']). split; [exact I|]. split; [exact P|]. split; [now apply (declares_snoc _ _ m)|]. now rewrite app_assoc. Qed.

  Definition maps_sound (maps : list string) : Prop := forall s, In s maps -> exists q m, message_at files q m /\ is_map_entry m = true /\ s = String.concat "." q.
  Definition maps_for (maps : list string) (p : list string) (m : message) : Prop := forall m', In m' (message_nested m) -> is_map_entry m' = true -> In (String.concat "." (p ++ [message_name m'])) maps.

  Lemma field_type_ok maps p m f : message_at files p m -> is_map_entry m = false -> In f (message_fields m) -> maps_sound maps -> maps_for maps p m ->
    exists t, field_type maps f = Ok t /\ field_typ files p m f t.
  Proof.
    intros M N I Ms Mf. destruct (wf_fields _ WF p m f M N I) as [R _]. unfold field_type, field_typ. destruct (pf_type_name f) as [r|].
    - destruct (R r eq_refl) as (q & Q & K). rewrite Q. cbn [append].
      assert (W : Forall word q /\ q <> []).
      { destruct K as [(e & K)|[(m' & K & _)|(m' & J & _ & ->)]].
        - split; [now apply (wf_enums _ WF q e)|now apply (enum_nonempty q e)].
        - split; [now apply (wf_messages _ WF q m')|now apply (message_nonempty q m')].
        - pose proof (nested_at p m m' M N J) as X. split; [now apply (wf_messages _ WF _ m')|now apply (message_nonempty _ m')]. }
      destruct W as [W Nq]. destruct (smem (String.concat "." q) maps) eqn:S.
      + apply smem_In in S. destruct (Ms _ S) as (q' & m' & M' & T & E). apply dotted_inj in E; [|exact W|now apply (wf_messages _ WF q' m')|exact Nq|now apply (message_nonempty q' m')]. subst q'.
        exists (TNamed "JSON" false). split; [reflexivity|]. left. destruct K as [(e & K)|[(m2 & K & F)|(m2 & J & T2 & ->)]].
        * destruct (wf_kinds _ WF q m' e M' K).
        * rewrite (wf_unique _ WF q m' m2 M' K) in T. congruence.
        * exists m2. repeat split; auto.
      + apply smem_false in S. assert (X : (exists e, enum_at files q e) \/ (exists m', message_at files q m' /\ is_map_entry m' = false)).
        { destruct K as [K|[K|(m' & J & T & ->)]]; [now left|now right|]. destruct S. now apply Mf. }
        destruct (ref_title q Nq W) as (g & G & T & _). change ("." ++ String.concat "." q)%string with (String "." (String.concat "." q)) in G. rewrite G. eexists. split; [reflexivity|]. right. exists q. split; [reflexivity|]. split; [exact X|].
        rewrite T. now destruct (pf_label f).
    - eexists. split; [reflexivity|]. destruct (pf_label f); destruct (pf_type f); reflexivity.
  Qed.

  (** ** Fields *)
  Lemma push_at_length i nf l : length (push_at i nf l) = length l.
  Proof. unfold push_at. now rewrite map_length, indexed_length. Qed.
  Lemma push_at_nth i nf l j : nth_error (push_at i nf l) j = option_map (fun g => if Nat.eqb j i then g ++ [nf] else g) (nth_error l j).
  Proof. unfold push_at. rewrite nth_error_map, indexed_nth. now destruct (nth_error l j). Qed.
  Lemma camel_name f ns : word (pf_name f) -> camel (gn_name (gparse (pf_name f) ns)) = camel (pf_name f).
  Proof. intros W. cbn. now rewrite word_normal. Qed.

  Lemma append_fields_ok x p m path : message_at files p m -> is_map_entry m = false -> maps_sound (x_maps x) -> maps_for (x_maps x) p m ->
    forall fields i t groups, (forall f, In f fields -> In f (message_fields m)) -> length groups = message_oneofs m ->
    exists base gs, append_fields camel x path (indexed i fields) t groups = Ok (add_all base t, gs) /\
      Forall2 (entry camel files p m) (filter (of_oneof None) fields) base /\ length gs = message_oneofs m /\
      forall j g, nth_error groups j = Some g -> exists g', nth_error gs j = Some (g ++ g') /\ Forall2 (entry camel files p m) (filter (of_oneof (Some j)) fields) g'.
  Proof.
    intros M N Ms Mf. pose proof (fun f => wf_field_names _ WF p m f M) as Wn. induction fields as [|f fields IH]; intros i t groups Sub L; cbn [indexed append_fields].
    - exists [], groups. split; [reflexivity|]. split; [constructor|]. split; [exact L|]. intros j g E. exists []. rewrite app_nil_r. split; [exact E|constructor].
    - destruct (field_type_ok (x_maps x) p m f M N (Sub f (or_introl eq_refl)) Ms Mf) as (ty & -> & T). rewrite camel_name by (apply Wn, Sub; now left).
      set (nf := (camel (pf_name f), plain_field ty [] (get_comments x (path ++ [2; i])) [])).
      assert (En : entry camel files p m f nf) by (repeat split; exact T).
      destruct (pf_oneof f) as [o|] eqn:O.
      + assert (Lo : o < length groups). { rewrite L. apply (wf_fields _ WF p m f M N (Sub f (or_introl eq_refl))). exact O. }
        rewrite (proj2 (Nat.ltb_lt _ _) Lo). fold nf.
        destruct (IH (S i) t (push_at o nf groups)) as (base & gs & A & B & D & G); [intros g J; apply Sub; now right|now rewrite push_at_length|].
        exists base, gs. split; [exact A|]. split; [cbn [filter]; unfold of_oneof at 1; now rewrite O|]. split; [exact D|]. intros j g E.
        specialize (G j). rewrite push_at_nth, E in G. cbn [option_map] in G. cbn [filter]. unfold of_oneof at 1. rewrite O. destruct (Nat.eqb_spec j o) as [->|Dj].
        * destruct (G _ eq_refl) as (g' & H & F). exists (nf :: g'). split; [now rewrite H, <- app_assoc|]. now constructor.
        * destruct (G _ eq_refl) as (g' & H & F). exists g'. split; [exact H|exact F].
      + fold nf. destruct (IH (S i) (insert_field (fst nf) (snd nf) t) groups) as (base & gs & A & B & D & G); [intros g J; apply Sub; now right|exact L|].
        exists (nf :: base), gs. split; [exact A|]. split; [cbn [filter]; unfold of_oneof at 1; rewrite O; now constructor|]. split; [exact D|].
        intros j g E. destruct (G j g E) as (g' & H & F). exists g'. split; [exact H|]. cbn [filter]. unfold of_oneof at 1. now rewrite O.
  Qed.
  Lemma append_fields_parts x p m path t : message_at files p m -> is_map_entry m = false -> maps_sound (x_maps x) -> maps_for (x_maps x) p m ->
    exists base gs, append_fields camel x path (indexed 0 (message_fields m)) t (repeat [] (message_oneofs m)) = Ok (add_all base t, gs) /\ parts camel files p m base gs.
  Proof.
    intros M N Ms Mf. destruct (append_fields_ok x p m path M N Ms Mf (message_fields m) 0 t (repeat [] (message_oneofs m))) as (base & gs & A & B & D & G); [auto|apply repeat_length|].
    exists base, gs. split; [exact A|]. split; [exact B|]. split; [exact D|]. intros i g E. destruct (G i []) as (g' & H & F).
    - assert (X : i < message_oneofs m) by (rewrite <- D; apply nth_error_Some; congruence). rewrite (nth_error_nth' _ []) by now rewrite repeat_length. now rewrite nth_repeat.
    - cbn in H. assert (g' = g) by congruence. now subst g'.
  Qed.

  (** ** Steps *)
  Definition known (n : string) : Prop :=
    is_predefined n = true \/ exists q, ((exists e, enum_at files q e) \/ exists m, message_at files q m /\ is_map_entry m = false) /\ n = title q.
  Record good (x : context) : Prop := {
    gd_maps : maps_sound (x_maps x);
    gd_types : forall n t, oget scmp n (x_types x) = Some t ->
      (forall i, In i (t_implements t) -> oget scmp i (x_types x) <> None) /\
      forall k f, In (k, f) (t_fields t) -> known (type_name (f_type f)) /\ forall a b, In (a, b) (f_args f) -> known (type_name (arg_type b));
    gd_unions : forall n u v, oget scmp n (x_unions x) = Some u -> In v (u_types u) -> oget scmp v (x_types x) <> None;
    gd_only : names_apart query files -> nothing_else query files x }.
  Notation holds_message := (holds_message camel files).
  Notation holds_method := (holds_method camel grpc_text query url).
  Definition rooted (x : context) : Prop := oget scmp query (x_types x) <> None -> x_root x = Some query.
  Definition plain : Prop := forall f, In f files -> pl_comments f = None.
  Record step (x x' : context) : Prop := {
    s_comments : plain -> x_comments x = None -> x_comments x' = None;
    s_types : forall n, oget scmp n (x_types x) <> None -> oget scmp n (x_types x') <> None;
    s_unions : forall n, oget scmp n (x_unions x) <> None -> oget scmp n (x_unions x') <> None;
    s_enums : forall n, oget scmp n (x_enums x) <> None -> oget scmp n (x_enums x') <> None;
    s_maps : forall s, In s (x_maps x) -> In s (x_maps x');
    s_good : good x -> good x';
    s_root : names_apart query files -> rooted x -> rooted x';
    s_message : names_apart query files -> forall p m, message_at files p m -> is_map_entry m = false -> holds_message x p m -> holds_message x' p m;
    s_method : names_apart query files -> forall p d, method_at files p d -> holds_method x p d -> holds_method x' p d;
    s_enum : names_apart query files -> plain -> x_comments x = None -> forall p e, enum_at files p e -> holds_enum x p e -> holds_enum x' p e }.
  Lemma step_refl x : step x x.
  Proof. split; auto. Qed.
  Lemma step_trans x y z : step x y -> step y z -> step x z.
  Proof.
    intros A B. split.
    - intros P N. now apply (s_comments _ _ B), (s_comments _ _ A).
    - intros n H. now apply (s_types _ _ B), (s_types _ _ A).
    - intros n H. now apply (s_unions _ _ B), (s_unions _ _ A).
    - intros n H. now apply (s_enums _ _ B), (s_enums _ _ A).
    - intros n H. now apply (s_maps _ _ B), (s_maps _ _ A).
    - intros H. now apply (s_good _ _ B), (s_good _ _ A).
    - intros N H. now apply (s_root _ _ B), (s_root _ _ A).
    - intros N p m I M H. now apply (s_message _ _ B), (s_message _ _ A).
    - intros N p d I H. now apply (s_method _ _ B), (s_method _ _ A).
    - intros N P C p d I H. apply (s_enum _ _ B); [exact N|exact P|now apply (s_comments _ _ A)|exact I|]. now apply (s_enum _ _ A).
  Qed.
  Definition sees (x : context) (n : string) : Prop := oget scmp n (x_types x) <> None \/ oget scmp n (x_unions x) <> None \/ oget scmp n (x_enums x) <> None.
  Lemma step_sees x x' n : step x x' -> sees x n -> sees x' n.
  Proof. intros S [H|[H|H]]; [left; now apply (s_types _ _ S)|right; left; now apply (s_unions _ _ S)|right; right; now apply (s_enums _ _ S)]. Qed.

  Lemma entry_known p m f x : entry camel files p m f x -> known (type_name (f_type (snd x))) /\ f_args (snd x) = [].
  Proof.
    intros (_ & T & A & _). split; [|exact A]. unfold field_typ in T. destruct (pf_type_name f) as [r|].
    - destruct T as [(m' & _ & _ & _ & ->)|(q & _ & K & ->)]; [now left|]. right. exists q. split; [exact K|]. now destruct (pf_label f).
    - rewrite T. left. destruct (pf_label f); destruct (pf_type f); reflexivity.
  Qed.
  Lemma entries_known p m fs l x : Forall2 (entry camel files p m) fs l -> In x l -> known (type_name (f_type (snd x))) /\ f_args (snd x) = [].
  Proof. induction 1 as [|f y fs l E F IH]; intros I; [destruct I|]. destruct I as [<-|I]; [eapply entry_known; eassumption|now apply IH]. Qed.
  Lemma parts_group p m base gs g x : parts camel files p m base gs -> In g gs -> In x g -> known (type_name (f_type (snd x))) /\ f_args (snd x) = [].
  Proof. intros (_ & _ & G) I J. apply In_nth_error in I. destruct I as (i & I). eapply entries_known; [apply (G i g I)|exact J]. Qed.
  Lemma chosen_known p m base gs0 gs s l x : parts camel files p m base gs0 -> (forall g, In g gs -> In g gs0) -> chosen gs s l -> In x l -> known (type_name (f_type (snd x))) /\ f_args (snd x) = [].
  Proof.
    intros P Sub C. induction C as [|y gs s l C IH|g gs s l N C IH|g gs i n f s l N K C IH]; intros I.
    - destruct I.
    - destruct I as [<-|I]; [eapply parts_group; [exact P|apply Sub; now left|now left]|]. apply IH; [|exact I]. intros g J. apply Sub. now right.
    - apply IH; [|exact I]. intros g' J. apply Sub. now right.
    - destruct I as [<-|I].
      + apply nth_error_In in K. destruct (parts_group p m base gs0 g (n, f) P (Sub g (or_introl eq_refl)) K) as [A B]. cbn [snd required f_type f_args] in *. split; [|exact B]. now destruct (f_type f).
      + apply IH; [|exact I]. intros g' J. apply Sub. now right.
  Qed.

  Lemma holds_kept x x' p m : (forall n, uses_name p m n -> oget scmp n (x_types x') = oget scmp n (x_types x)) ->
    oget scmp (title p) (x_unions x') = oget scmp (title p) (x_unions x) -> holds_message x p m -> holds_message x' p m.
  Proof.
    intros T U (base & gs & P & A & B). exists base, gs. split; [exact P|]. split.
    - intros F. destruct (A F) as (t & G & R). exists t. rewrite T by now left. auto.
    - intros F. destruct (B F) as (u & t & Gu & Mu & Gi & Mi & Ii & V). exists u, t. rewrite U. split; [exact Gu|]. split; [exact Mu|].
      assert (O : message_oneofs m <> 0). { destruct P as (_ & L & _). intros E. rewrite E in L. destruct gs; [now apply F|discriminate]. }
      rewrite T by (right; split; [exact O|now left]). split; [exact Gi|]. split; [exact Mi|]. split; [exact Ii|]. intros s l C. destruct (V s l C) as (v & Gv & Mv & Iv). exists v.
      rewrite T; [auto|]. right. split; [exact O|]. right. exists s. split; [|reflexivity]. destruct P as (_ & <- & _). now apply (chosen_names gs s l).
  Qed.

  Lemma forall2_length {A B} (R : A -> B -> Prop) l l' : Forall2 R l l' -> length l = length l'.
  Proof. induction 1; cbn; [reflexivity|now f_equal]. Qed.

  Lemma parts_multi p m base gs : message_at files p m -> is_map_entry m = false -> parts camel files p m base gs -> (Forall (fun g => length g <= 1) gs <-> ~ multi m).
  Proof.
    intros M N (_ & L & G).
    assert (X : forall i g, nth_error gs i = Some g -> length g = length (filter (of_oneof (Some i)) (message_fields m))) by (intros i g E; symmetry; exact (forall2_length _ _ _ (G i g E))).
    split.
    - intros F (i & I). destruct (filter (of_oneof (Some i)) (message_fields m)) as [|f l] eqn:E; [cbn in I; lia|].
      assert (J : In f (filter (of_oneof (Some i)) (message_fields m))) by (rewrite E; now left). apply filter_In in J. destruct J as [J O]. unfold of_oneof in O. destruct (pf_oneof f) as [j|] eqn:Pf; [|discriminate]. apply Nat.eqb_eq in O. subst j.
      pose proof (proj2 (wf_fields _ WF p m f M N J) i Pf) as B. rewrite <- L in B. destruct (nth_error gs i) as [g|] eqn:Ng; [|apply nth_error_None in Ng; lia]. specialize (X i g Ng). rewrite E in X.
      rewrite Forall_forall in F. specialize (F g (nth_error_In _ _ Ng)). lia.
    - intros H. apply Forall_forall. intros g I. apply In_nth_error in I. destruct I as (i & I). rewrite (X i g I). destruct (le_lt_dec (length (filter (of_oneof (Some i)) (message_fields m))) 1) as [|C]; [assumption|]. exfalso. apply H. exists i. lia.
  Qed.

  (** The last step for a message. *)
  Lemma insert_message x p m base gs doc : message_at files p m -> is_map_entry m = false -> parts camel files p m base gs ->
    let x' := insert_oneofs (title p) (add_all base (plain_type [] doc [])) gs x in
    step x x' /\ sees x' (title p) /\ holds_message x' p m.
  Proof.
    intros M N P. set (t0 := plain_type [] doc []). cbn zeta. destruct (insert_oneofs_is (title p) (add_all base t0) gs x) as [One Many].
    assert (Kb : forall y, In y base -> known (type_name (f_type (snd y))) /\ f_args (snd y) = []). { intros y I. destruct P as (F & _). eapply entries_known; eassumption. }
    assert (D : {Forall (fun g => length g <= 1) gs} + {~ Forall (fun g => length g <= 1) gs}) by (apply Forall_dec; intros g; apply le_dec). destruct D as [F|F].
    - rewrite (One F). set (T := add_all (concat gs) (add_all base t0)). assert (Mo : made_of (base ++ concat gs) T) by now apply add_all_made.
      assert (Im : t_implements T = []) by (unfold T; now rewrite !add_all_implements).
      assert (H : holds_message (insert_type (title p) T x) p m).
      { exists base, gs. split; [exact P|]. split; [|contradiction]. intros _. exists T. cbn [insert_type with_types x_types]. rewrite (oget_oins_same scmp scmp_order). auto. }
      assert (Ot : forall n, n <> title p -> oget scmp n (x_types (insert_type (title p) T x)) = oget scmp n (x_types x)) by (intros n E; cbn; now apply (oget_oins_other scmp scmp_order); congruence).
      split; [|split; [left; cbn; now rewrite (oget_oins_same scmp scmp_order)|exact H]].
      assert (St : forall n, oget scmp n (x_types x) <> None -> oget scmp n (x_types (insert_type (title p) T x)) <> None).
      { intros n E. destruct (String.eqb_spec n (title p)) as [->|Dn]; [cbn; now rewrite (oget_oins_same scmp scmp_order)|now rewrite Ot]. }
      split; auto.
      + intros G. split; [exact (gd_maps _ G)| |intros n u v A B; apply St; now apply (gd_unions _ G n u)|].
        2:{ intros Ap. destruct (gd_only _ G Ap) as [T1 T2 T3 T4]. assert (Nq : query <> title p) by (intros Eq; apply (na_query _ _ Ap p m M N); rewrite Eq; now left). split; [|exact T2|exact T3|intros t k f A B; rewrite (Ot query Nq) in A; now apply (T4 t k f)].
            intros n E. destruct (String.eqb_spec n (title p)) as [->|Dn]; [|rewrite Ot in E by exact Dn; now apply T1]. right. exists p, m. split; [exact M|]. split; [exact N|]. left. split; [now apply (parts_multi p m base gs)|reflexivity]. }
        intros n t E. destruct (String.eqb_spec n (title p)) as [->|Dn].
        * cbn [insert_type with_types x_types] in E. rewrite (oget_oins_same scmp scmp_order) in E. injection E as <-. rewrite Im. split; [intros i []|]. intros k f I. apply (proj1 Mo) in I. apply in_app_iff in I.
          assert (K : known (type_name (f_type f)) /\ f_args f = []). { destruct I as [I|I]; [now apply (Kb (k, f))|]. apply in_concat in I. destruct I as (g & I & J). now apply (parts_group p m base gs g (k, f)). }
          destruct K as [K ->]. split; [exact K|intros a b []].
        * rewrite Ot in E by exact Dn. destruct (gd_types _ G n t E) as [A B]. split; [intros i I; now apply St, A|exact B].
      + intros Ap R E. apply R. rewrite Ot in E; [exact E|]. intros ->. apply (na_query _ _ Ap p m M N). now left.
      + intros Ap p' m' M' N' H'. destruct (list_eq_dec string_dec p' p) as [->|Dp]; [now rewrite (wf_unique _ WF p m' m M' M)|]. apply (holds_kept x); [|reflexivity|exact H'].
        intros n U. apply Ot. intros ->. apply Dp. apply (na_messages _ _ Ap p' m' p m (title p)); auto. now left.
      + intros Ap p' d _ (R & t & f & b & Q & H'). split; [exact R|]. exists t, f, b. rewrite Ot; [auto|]. intros ->. apply (na_query _ _ Ap p m M N). now left.
    - destruct (Many F) as (types & u & -> & Mu & Gi & Gv & Go). set (x' := with_unions _ _).
      assert (O : message_oneofs m <> 0). { destruct P as (_ & L & _). intros E. rewrite E in L. destruct gs; [now apply F|discriminate]. }
      assert (Us : forall s l, chosen gs s l -> uses_name p m (title p ++ s)%string). { intros s l C. right. split; [exact O|]. right. exists s. split; [|reflexivity]. destruct P as (_ & <- & _). now apply (chosen_names gs s l). }
      assert (Ui : uses_name p m (title p ++ "__Interface")%string) by (right; split; [exact O|now left]).
      assert (Mb : made_of base (add_all base t0)). { pose proof (add_all_made base [] t0 eq_refl) as X. now rewrite app_nil_r in X. }
      assert (H : holds_message x' p m).
      { exists base, gs. split; [exact P|]. split; [contradiction|]. intros _. exists u, (add_all base t0). cbn [x' with_unions with_types x_types x_unions]. rewrite (oget_oins_same scmp scmp_order).
        split; [reflexivity|]. split; [exact Mu|]. split; [exact Gi|]. split; [exact Mb|]. split; [now rewrite add_all_implements|]. intros s l C. eexists. split; [apply (Gv s l C)|].
        split; [exact (add_all_made base l t0 eq_refl)|]. cbn [insert_interface t_implements]. now rewrite !add_all_implements. }
      assert (Cs : forall n, n = (title p ++ "__Interface")%string \/ (exists s l, chosen gs s l /\ n = (title p ++ s)%string) \/ oget scmp n types = oget scmp n (x_types x)).
      { intros n. destruct (String.eqb_spec n (title p ++ "__Interface")%string) as [E|E]; [now left|]. destruct (in_dec string_dec n (u_types u)) as [I|I]; [right; left; now apply Mu|]. right. right. apply Go; [exact E|].
        intros s l C E'. apply I, Mu. eauto. }
      assert (St : forall n, oget scmp n (x_types x) <> None -> oget scmp n (x_types x') <> None).
      { intros n E. cbn. destruct (Cs n) as [->|[(s & l & C & ->)| ->]]; [rewrite Gi; discriminate|rewrite (Gv s l C); discriminate|exact E]. }
      split; [|split; [right; left; cbn; now rewrite (oget_oins_same scmp scmp_order)|exact H]].
      split; auto.
      + intros n E. cbn. destruct (String.eqb_spec n (title p)) as [->|Dn]; [now rewrite (oget_oins_same scmp scmp_order)|]. rewrite (oget_oins_other scmp scmp_order) by congruence. exact E.
      + intros G. assert (Mm : multi m) by (destruct (dec_multi m) as [|Nm]; [assumption|exfalso; apply F; now apply (parts_multi p m base gs)]). split; [exact (gd_maps _ G)| | |].
        3:{ intros Ap. destruct (gd_only _ G Ap) as [T1 T2 T3 T4].
            assert (Nq : oget scmp query types = oget scmp query (x_types x)) by (destruct (Cs query) as [E'|[(s & l & C & E')|E']]; [| |exact E']; exfalso; apply (na_query _ _ Ap p m M N); rewrite E'; eauto).
            split; [| |exact T3|intros t k f A B; cbn in A; rewrite Nq in A; now apply (T4 t k f)].
            - intros n E. cbn in E. destruct (Cs n) as [->|[(s & l & C & ->)|Eq]]; [| |rewrite Eq in E; now apply T1]; right; exists p, m; (split; [exact M|]); (split; [exact N|]); right; (split; [exact Mm|]); [now left|]. right. exists s. split; [|reflexivity]. destruct P as (_ & <- & _). now apply (chosen_names gs s l).
            - intros n E. cbn in E. destruct (String.eqb_spec n (title p)) as [->|Dn]; [exists p, m; auto|]. rewrite (oget_oins_other scmp scmp_order) in E by congruence. now apply T2. }
        * intros n t E. cbn [x' with_unions with_types x_types] in E |- *.
          assert (K : forall l (v : gtype), (forall y, In y (t_fields v) -> In y (base ++ l)) -> (forall y, In y l -> known (type_name (f_type (snd y))) /\ f_args (snd y) = []) ->
             forall k f, In (k, f) (t_fields v) -> known (type_name (f_type f)) /\ forall a b, In (a, b) (f_args f) -> known (type_name (arg_type b))).
          { intros l v S K k f I. apply S, in_app_iff in I. assert (X : known (type_name (f_type f)) /\ f_args f = []) by (destruct I as [I|I]; [now apply (Kb (k, f))|now apply (K (k, f))]). destruct X as [X ->]. split; [exact X|intros a b []]. }
          destruct (Cs n) as [->|[(s & l & C & ->)|Eq]].
          -- rewrite Gi in E. injection E as <-. rewrite add_all_implements. split; [intros i []|]. apply (K []); [intros y I; rewrite app_nil_r; now apply Mb|intros y []].
          -- rewrite (Gv s l C) in E. injection E as <-. cbn [insert_interface t_implements t_fields]. rewrite !add_all_implements. split.
             ++ intros i I. cbn in I. destruct I as [<-|[]]. rewrite Gi. discriminate.
             ++ apply (K l); [apply (proj1 (add_all_made base l t0 eq_refl))|]. intros y I. eapply (chosen_known p m base gs gs s l y P); auto.
          -- rewrite Eq in E. destruct (gd_types _ G n t E) as [A B]. split; [intros i I; apply (St i), A, I|exact B].
        * intros n v w A B. cbn [x' with_unions x_unions] in A. destruct (String.eqb_spec n (title p)) as [->|Dn].
          -- rewrite (oget_oins_same scmp scmp_order) in A. injection A as <-. apply Mu in B. destruct B as (s & l & C & ->). cbn. rewrite (Gv s l C). discriminate.
          -- rewrite (oget_oins_other scmp scmp_order) in A by congruence. apply St. now apply (gd_unions _ G n v).
      + intros Ap R E. apply R. cbn in E. destruct (Cs query) as [E'|[(s & l & C & E')|E']]; [| |now rewrite <- E']; exfalso; apply (na_query _ _ Ap p m M N); rewrite E'; eauto.
      + intros Ap p' m' M' N' H'. destruct (list_eq_dec string_dec p' p) as [->|Dp]; [now rewrite (wf_unique _ WF p m' m M' M)|]. apply (holds_kept x); [| |exact H'].
        * intros n U. cbn. destruct (Cs n) as [->|[(s & l & C & ->)|E]]; [| |exact E]; exfalso; apply Dp; eapply (na_messages _ _ Ap p' m' p m); eauto.
        * cbn. apply (oget_oins_other scmp scmp_order). intros E. apply Dp. apply (na_messages _ _ Ap p' m' p m (title p)); auto; [left; congruence|now left].
      + intros Ap p' d _ (R & t & f & b & Q & H'). split; [exact R|]. exists t, f, b. split; [|exact H']. cbn. destruct (Cs query) as [E|[(s & l & C & E)|E]]; [| |now rewrite E]; exfalso; apply (na_query _ _ Ap p m M N); rewrite E; eauto.
  Qed.
End Files.
