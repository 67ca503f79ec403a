(** Proofs about hoisting in plans (C06). *)
From Coq Require Import String Ascii ZArith NArith Bool Arith Lia List.
From Verif Require Import Base BaseFacts JsonModel JsonSpec JsonProofs TypeModel MustacheModel CtxModel AuthModel DiscModel
  MergeModel IrModel TtlModel IrSpec IrProofs GuardProofs PlanModel PlanSpec PlanProofs SynthProofs OpModel OpSpec.
Import ListNotations.
Open Scope string_scope.
Open Scope list_scope.

Lemma map_ref_ext {S E} (m m' : S -> value -> S * result value E) :
  (forall st v, m st v = m' st v) -> forall v st, map_ref m st v = map_ref m' st v.
Proof.
  intros H. induction v as [| | | | |l IH|] using value_ind'; intros st; cbn; auto.
  match goal with |- match ?f st l with _ => _ end = match ?g st l with _ => _ end =>
    enough (Q : forall st, f st l = g st l) by now rewrite Q end.
  clear st. induction IH as [|x l X _ IH]; intros st; auto.
  cbn. rewrite X. destruct (map_ref m' st x) as [st' [y|e]]; auto. now rewrite IH.
Qed.

Lemma execute_field_ext {E} (p p' : value -> bool) (c c' : value -> result value E) n n' missing ctx :
  (forall v, p v = p' v) -> (forall v, c v = c' v) -> n = n' ->
  execute_field p c n missing ctx = execute_field p' c' n' missing ctx.
Proof.
  intros P C ->. destruct ctx as [[| | | | |l|]|]; unfold execute_field; rewrite ?C; auto.
  rewrite (filter_ext p p') by auto. f_equal.
  rewrite (map_ext c c') by auto. f_equal. apply map_ref_ext.
  intros st v. unfold pull. now rewrite P.
Qed.

Section Same.
  Context {IR E : Type}.
  Notation field := (pfield IR).
  (** Same field up to an equivalence of resolvers. *)
  Variable eqv : nat -> IR -> IR -> Prop.

  Definition head (f : field) :=
    (p_id f, p_name f, p_output f, p_type f, p_cond f, p_skip f, p_include f, p_is_enum f, p_scalar f).

  Inductive Alike : field -> field -> Prop :=
  | alike f g :
      head f = head g ->
      match p_ir f, p_ir g with
      | Some a, Some b => eqv (p_id f) a b
      | None, None => True
      | _, _ => False
      end ->
      Forall2 Alike (p_selection f) (p_selection g) -> Alike f g.

  Lemma alike_inv f g : Alike f g ->
    head f = head g /\
    match p_ir f, p_ir g with
    | Some a, Some b => eqv (p_id f) a b
    | None, None => True
    | _, _ => False
    end /\ Forall2 Alike (p_selection f) (p_selection g).
  Proof. intros []; auto. Qed.

  Lemma head_skip vars (f g : field) : head f = head g -> field_skip vars f = field_skip vars g.
  Proof. unfold head, field_skip. intros H. injection H. congruence. Qed.

  Lemma skip_inside_parts vars (f : field) :
    head (skip_inside vars f) = head f /\ p_ir (skip_inside vars f) = p_ir f /\
    p_selection (skip_inside vars f) = skip_fields vars (p_selection f).
  Proof.
    destruct (skip_inside_eq vars f) as [A B]. repeat split; auto.
    - destruct f; reflexivity.
    - destruct f; reflexivity.
  Qed.

  Lemma alike_skip vars : forall f g, Alike f g -> Alike (skip_inside vars f) (skip_inside vars g).
  Proof.
    induction f as [f IH] using pfield_ind'. intros g A. apply alike_inv in A as (H & I & Sel).
    destruct (skip_inside_parts vars f) as (F1 & F2 & F3).
    destruct (skip_inside_parts vars g) as (G1 & G2 & G3).
    constructor.
    - congruence.
    - rewrite F2, G2. replace (p_id (skip_inside vars f)) with (p_id f); auto.
      unfold head in F1. injection F1. congruence.
    - rewrite F3, G3. clear - IH Sel. induction Sel as [|c d l l' X _ IHl]; [constructor|].
      inversion IH as [|? ? P Q]; subst. simpl.
      assert (HH := X). apply alike_inv in HH as (HH & _). rewrite (head_skip vars c d HH).
      destruct (field_skip vars d); auto.
  Qed.

  Lemma alike_skip_fields vars l l' : Forall2 Alike l l' -> Forall2 Alike (skip_fields vars l) (skip_fields vars l').
  Proof.
    induction 1 as [|c d l l' X _ IH]; simpl; [constructor|].
    assert (HH := X). apply alike_inv in HH as (HH & _). rewrite (head_skip vars c d HH).
    destruct (field_skip vars d); auto. constructor; auto. now apply alike_skip.
  Qed.

  Variable implements : string -> string -> bool.
  Variable missing : E.
  Variable validate : string -> value -> bool.
  Variable enum_value : string -> string -> bool.
  Variable resolve : field -> option value -> result value E.
  Hypothesis resolve_eqv : forall f g v, Alike f g -> p_ir f <> None -> resolve f v = resolve g v.

  Lemma alike_execute f g ctx : Alike f g -> p_ir f <> None ->
    execute_ir implements resolve missing f ctx = execute_ir implements resolve missing g ctx.
  Proof.
    intros A N. unfold execute_ir, execute_field.
    assert (P : forall v, part_of_value implements f v = part_of_value implements g v).
    { intros v. apply alike_inv in A as (H & _). unfold part_of_value.
      replace (p_cond g) with (p_cond f); auto. unfold head in H. injection H. congruence. }
    assert (C : forall v, call_ir resolve f v = call_ir resolve g v).
    { intros v. unfold call_ir. rewrite (resolve_eqv f g v A N). reflexivity. }
    apply execute_field_ext; auto.
  Qed.

  Lemma alike_ids f g : Alike f g -> p_id f = p_id g /\ p_output f = p_output g.
  Proof. intros A. apply alike_inv in A as (H & _). unfold head in H. injection H. auto. Qed.

  Lemma alike_exec : forall f g ctx, Alike f g ->
    exec implements resolve missing f ctx = exec implements resolve missing g ctx.
  Proof.
    induction f as [f IH] using pfield_ind'. intros g ctx A.
    assert (L : forall v, exec_list implements resolve missing (p_selection f) v =
                          exec_list implements resolve missing (p_selection g) v).
    { intros v. apply alike_inv in A as (_ & _ & Sel). clear - IH Sel. unfold exec_list.
      induction Sel as [|c d l l' X _ IHl]; auto. inversion IH; subst. simpl. rewrite (H1 d) by auto.
      f_equal. auto. }
    rewrite !exec_eq. destruct (alike_ids f g A) as [I O].
    assert (B := A). apply alike_inv in B as (_ & B & _).
    destruct (p_ir f) as [a|] eqn:Fi, (p_ir g) as [b|] eqn:Gi; try contradiction.
    - rewrite (alike_execute f g ctx A) by congruence. rewrite I.
      destruct (snd (execute_ir implements resolve missing g ctx)); now rewrite ?L.
    - assert (P : plain_value (E := E) f ctx = plain_value g ctx).
      { unfold plain_value. destruct ctx; auto. now rewrite O. }
      rewrite P. destruct (plain_value g ctx); auto.
  Qed.

  Lemma alike_exec_all l l' : Forall2 Alike l l' ->
    exec_all implements resolve missing l = exec_all implements resolve missing l'.
  Proof.
    unfold exec_all. induction 1 as [|c d l l' X _ IH]; auto. simpl. now rewrite (alike_exec c d), IH.
  Qed.

  Variable vars : variables.
  Variable st : nat -> option (result value E).
  Notation synth_node := (PlanModel.synth_node (IR := IR) (E := E) implements validate enum_value vars st).

  Lemma alike_iter f g inner1 inner2 v dp root : Alike f g ->
    (forall x dp p, inner1 x dp p = inner2 x dp p) ->
    forall p, iter_with st inner1 f v dp root p = iter_with (E := E) st inner2 g v dp root p.
  Proof.
    intros A I p. apply alike_inv in A as (H & _). unfold head in H. inversion H.
    unfold iter_with, mbind, mpush. rewrite H1.
    assert (N : forall r q, nullable_guard (E := E) f r q = nullable_guard g r q).
    { intros r q. unfold nullable_guard. rewrite H1, H2, H4. reflexivity. }
    destruct (st (p_id g)) as [[sv|e]|].
    - destruct (walk dp sv) as [x| |]; rewrite ?H3; auto.
      rewrite H4. destruct (Bool.eqb _ _); [now rewrite I|apply N].
    - now rewrite H3.
    - rewrite H3. destruct v as [x|]; [now rewrite I|now rewrite N].
  Qed.

  Lemma alike_synth : forall f g, Alike f g -> forall v dp p, synth_node f v dp p = synth_node g v dp p.
  Proof.
    induction f as [f IH] using pfield_ind'. intros g A.
    assert (HD := A). apply alike_inv in HD as (HD & _ & Sel).
    assert (Mem : forall obj dp p, members implements validate enum_value vars st f obj dp (p_selection f) p =
                                   members implements validate enum_value vars st g obj dp (p_selection g) p).
    { intros obj dp. assert (VT : value_type f obj = value_type g obj).
      { unfold value_type. unfold head in HD. inversion HD. congruence. }
      clear A. induction Sel as [|c d l l' X _ IHl]; intros p; [reflexivity|].
      inversion IH as [|? ? Hc Hl]; subst. rewrite !members_cons.
      assert (Y := X). apply alike_inv in Y as (Y & _). rewrite (head_skip vars c d Y).
      unfold head in Y. inversion Y.
      assert (PO : part_of_value implements c obj = part_of_value implements d obj).
      { unfold part_of_value. now rewrite H4. }
      rewrite PO. destruct (_ && _); [|auto].
      rewrite H1, H2, VT. destruct (String.eqb (p_name d) "__typename"); [cbn; now rewrite IHl|].
      rewrite (alike_iter c d (synth_node c) (synth_node d)) by auto.
      destruct (iter_with st (synth_node d) d _ dp None p) as [[y|e] p1]; [now rewrite IHl|reflexivity]. }
    assert (Sk := head_skip vars f g HD). unfold head in HD. inversion HD.
    intros v. induction v as [| | | | |l IHl|m IHm] using value_ind'; intros dp p;
      rewrite !synth_node_eq; rewrite Sk, H0, H3, H7, H8; try reflexivity.
    1: unfold enum_ok; rewrite H3; reflexivity.
    - destruct (field_skip vars g); [reflexivity|]. cbn [is_null].
      destruct (p_scalar g); [reflexivity|]. unfold enum_ok. rewrite H3. destruct (p_is_enum g); [reflexivity|].
      assert (El : forall i p, elements (synth_node f) dp i l p = elements (synth_node g) dp i l p).
      { clear p. induction IHl as [|x t X T IHt]; intros i p; [reflexivity|].
        rewrite !elements_cons. rewrite X. destruct (synth_node g x (dp ++ [i]) (SIndex i :: p)) as [[y|e] p1]; auto.
        now rewrite IHt. }
      unfold mbind. now rewrite El.
    - destruct (field_skip vars g); [reflexivity|]. cbn [is_null].
      destruct (p_scalar g); [reflexivity|]. unfold enum_ok. rewrite H3. destruct (p_is_enum g); [reflexivity|].
      unfold mbind. now rewrite Mem.
  Qed.

  Lemma alike_root root : forall l l', Forall2 Alike l l' -> forall data p,
    synth_root implements validate enum_value vars st root l data p =
    synth_root (E := E) implements validate enum_value vars st root l' data p.
  Proof.
    induction 1 as [|c d l l' X _ IH]; intros data p; [reflexivity|]. simpl.
    assert (Y := X). apply alike_inv in Y as (Y & _). rewrite (head_skip vars c d Y).
    destruct (field_skip vars d); [apply IH|]. unfold mbind.
    rewrite (alike_iter c d (synth_node c) (synth_node d)) by (auto using alike_synth).
    destruct (iter_with st (synth_node d) d None [] (Some root) p) as [[y|e] p1]; [|reflexivity].
    destruct (alike_ids c d X) as [_ ->]. apply IH.
  Qed.
End Same.

Lemma alike_run {IR E} eqv implements (resolve : pfield IR -> option value -> result value E) missing
      validate enum_value root vars l l' :
  (forall f g v, Alike eqv f g -> p_ir f <> None -> resolve f v = resolve g v) ->
  Forall2 (Alike eqv) l l' ->
  run implements resolve missing validate enum_value root vars l =
  run implements resolve missing validate enum_value root vars l'.
Proof.
  intros R A. unfold run.
  assert (B := alike_skip_fields eqv vars l l' A).
  rewrite (alike_exec_all eqv implements missing resolve R _ _ B). f_equal.
  unfold synthesize. now rewrite (alike_root eqv implements validate enum_value vars _ root _ _ B).
Qed.

Section Planner.
  Context {IO : Type}.
  Notation ir := (ir IO).
  Notation field := (pfield ir).

  Lemma update_field_eq (f : field) :
    update_field f =
    match p_ir f with
    | None => (f, [])
    | Some e => (with_ir f (Some (fst (update_ir e))) (fst (update_fields (p_selection f))),
                 snd (update_ir e) ++ snd (update_fields (p_selection f)))
    end.
  Proof.
    destruct f as [i n o [e|] t c s inc en sc sel]; [|reflexivity].
    cbn [update_field p_ir p_selection with_ir].
    destruct (update_ir e) as [e' l].
    match goal with |- (let '(_, _) := ?g sel in _) = _ =>
      assert (G : g sel = update_fields sel)
        by (clear; induction sel as [|x r IH]; cbn; auto; now rewrite <- IH); rewrite G end.
    destruct (update_fields sel). reflexivity.
  Qed.

  Lemma update_fields_auths : forall fs : list field, 
    Forall (fun f => forall a, In a (snd (update_field f)) <-> Demanded [f] a) fs ->
    forall a, In a (snd (update_fields fs)) <-> Demanded fs a.
  Proof.
    induction 1 as [|f fs Hf _ IH]; intros a; cbn.
    - split; [intros []|]. intros (f & g & e & [] & _).
    - specialize (Hf a). specialize (IH a). destruct (update_field f) as [f' l].
      destruct (update_fields fs) as [fs' l']. cbn in *. rewrite in_app_iff, Hf, IH. split.
      + intros [(g & h & e & [<-|[]] & R)|(g & h & e & I & R)].
        * exists f, h, e. cbn. auto.
        * exists g, h, e. cbn. auto.
      + intros (g & h & e & [<-|I] & R); [left|right].
        * exists f, h, e. cbn. auto.
        * exists g, h, e. auto.
  Qed.

  Lemma update_field_auths : forall (f : field) a, In a (snd (update_field f)) <-> Demanded [f] a.
  Proof.
    induction f as [f IH] using pfield_ind'. intros a. rewrite update_field_eq.
    destruct (p_ir f) as [e|] eqn:I.
    - cbn [snd]. rewrite in_app_iff, hoisted_spec, (update_fields_auths _ IH a). split.
      + intros [H|(c & g & e' & Ic & V & P & H)].
        * exists f, f, e. repeat split; auto; [now left|]. constructor. congruence.
        * exists f, g, e'. repeat split; auto; [now left|]. eapply V_below; eauto. congruence.
      + intros (x & g & e' & [<-|[]] & V & P & H). inversion V; subst.
        * left. congruence.
        * right. exists c, g, e'. auto.
    - cbn. split; [intros []|]. intros (x & g & e & [<-|[]] & V & P & _). inversion V; subst; congruence.
  Qed.

  Lemma demanded_spec (fs : list field) a : In a (snd (update_fields fs)) <-> Demanded fs a.
  Proof. apply update_fields_auths. apply Forall_forall. intros f _. apply update_field_auths. Qed.

  Context {F Key St : Type}.
  Variable rx : req_ext.
  Variable ext : auth_ext.
  Variable req : request.
  Variable do_io : IO -> ctx -> St -> result value F * St.
  Variable cache_key : IO -> ctx -> option Key.
  Variable cache_get : Key -> St -> result (option value) F * St.
  Variable cache_set : Key -> value -> Z -> St -> result unit F * St.
  Notation eval := (eval rx ext req do_io cache_key cache_get cache_set).

  Definition same_eval (_ : nat) (e e' : ir) : Prop := forall c st, eval e c st = eval e' c st.

  Lemma alike_refl : forall f : field, Alike same_eval f f.
  Proof.
    induction f as [f IH] using pfield_ind'. constructor; auto.
    - destruct (p_ir f); auto. intros c st. reflexivity.
    - induction IH; constructor; auto.
  Qed.

  Lemma with_ir_parts (f : field) e sel :
    head (with_ir f e sel) = head f /\ p_ir (with_ir f e sel) = e /\ p_selection (with_ir f e sel) = sel.
  Proof. destruct f; auto. Qed.

  Lemma update_alike : forall f : field,
    (forall a, Demanded [f] a -> verify ext a req = Succeed) -> Alike same_eval (fst (update_field f)) f.
  Proof.
    induction f as [f IH] using pfield_ind'. intros H. rewrite update_field_eq.
    destruct (p_ir f) as [e|] eqn:I; [|apply alike_refl].
    cbn [fst]. destruct (with_ir_parts f (Some (fst (update_ir e))) (fst (update_fields (p_selection f)))) as (A & B & C).
    constructor; auto.
    - rewrite B, I. intros c st. apply hoisting_preserves. intros a Ha. apply H.
      exists f, f, e. repeat split; auto; [now left|]. constructor. congruence.
    - rewrite C.
      assert (H' : forall c a, In c (p_selection f) -> Demanded [c] a -> verify ext a req = Succeed).
      { intros c a Ic (x & g & e' & [<-|[]] & V & P & Ha). apply H. exists f, g, e'.
        repeat split; auto; [now left|]. eapply V_below; eauto. congruence. }
      clear - IH H'. induction IH as [|c l Hc _ IHl]; cbn; [constructor|].
      assert (Q := Hc (fun a D => H' c a (or_introl eq_refl) D)).
      destruct (update_field c) as [c' lc]. destruct (update_fields l) as [l' ll]. cbn in *.
      constructor; auto. apply IHl. intros d a I. apply H'. now right.
  Qed.

  Lemma update_all_alike (fs : list field) :
    (forall a, Demanded fs a -> verify ext a req = Succeed) ->
    Forall2 (Alike same_eval) (fst (update_fields fs)) fs.
  Proof.
    induction fs as [|f fs IH]; intros H; cbn; [constructor|].
    assert (Q : Alike same_eval (fst (update_field f)) f).
    { apply update_alike. intros a (x & g & e & [<-|[]] & R). apply H. exists f, g, e. cbn. auto. }
    destruct (update_field f) as [f' l]. destruct (update_fields fs) as [fs' l'] eqn:U. cbn in *.
    constructor; auto. apply IH. intros a (x & g & e & I & R). apply H. exists x, g, e. cbn. auto.
  Qed.

  Notation sem := (in_state rx ext req do_io cache_key cache_get cache_set).
  Notation check := (front_check rx ext req do_io cache_key cache_get cache_set).

  Lemma rejected implements missing validate enum_value root vars st args q (fs : list field) a :
    Demanded fs a -> verify ext a req <> Succeed ->
    exists er, execute implements (sem st args q) missing validate enum_value (check st) root vars (plan_auth fs)
               = Rejected (EAuth er).
  Proof.
    intros D V. apply demanded_spec in D. unfold plan_auth, execute.
    destruct (update_fields fs) as [fs' auths]. cbn in *.
    destruct (before_err (F := F) rx ext req do_io cache_key cache_get cache_set auths a
      {| c_value := None; c_args := None; c_over_value := None; c_over_args := None; c_is_query := true |} st D V) as (b & er & B & Q).
    exists er. rewrite B. unfold guarded, front_check. rewrite Q. reflexivity.
  Qed.

  Lemma answered_same implements missing validate enum_value root vars st args q (fs : list field) :
    (forall a, Demanded fs a -> verify ext a req = Succeed) ->
    execute implements (sem st args q) missing validate enum_value (check st) root vars (plan_auth fs)
    = Answered (run implements (resolve_field (sem st args q) missing) missing validate enum_value root vars fs).
  Proof.
    intros H. unfold plan_auth, execute.
    assert (A := update_all_alike fs H).
    destruct (update_fields fs) as [fs' auths] eqn:U. cbn in *.
    assert (G : run implements (resolve_field (sem st args q) missing) missing validate enum_value root vars fs' =
                run implements (resolve_field (sem st args q) missing) missing validate enum_value root vars fs).
    { eapply alike_run; eauto. intros f g v Al N.
      destruct (alike_ids same_eval f g Al) as [I _]. apply alike_inv in Al as (_ & E & _).
      unfold resolve_field. destruct (p_ir f) as [x|]; [|congruence].
      destruct (p_ir g) as [y|]; [|contradiction]. unfold in_state. rewrite I. now rewrite E. }
    unfold guarded. destruct (before_chain auths) as [b|] eqn:B; [|now rewrite G].
    unfold front_check.
    rewrite (before_ok (F := F) rx ext req do_io cache_key cache_get cache_set auths b _ st B).
    - cbn. now rewrite G.
    - intros a I. apply H. apply demanded_spec. now rewrite U.
  Qed.
End Planner.
