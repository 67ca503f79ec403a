(** Proofs about synthesis (C02, C03) and about the whole pipeline. *)
From Coq Require Import String Ascii ZArith NArith Bool Arith Lia List Permutation.
From Verif Require Import Base BaseFacts JsonModel JsonSpec JsonProofs TypeModel DiscModel
  PlanModel PlanSpec PlanProofs.
Import ListNotations.
Open Scope string_scope.
Open Scope list_scope.

Section Facts.
  Context {IR E : Type}.
  Notation field := (pfield IR).
  Variable implements : string -> string -> bool.
  Variable resolve : field -> option value -> result value E.
  Variable missing : E.
  Variable validate : string -> value -> bool.
  Variable enum_value : string -> string -> bool.
  Variable vars : variables.

  Notation store := (nat -> option (result value E)).
  Notation synth_node := (PlanModel.synth_node (IR := IR) (E := E) implements validate enum_value vars).
  Notation synth_root := (PlanModel.synth_root (IR := IR) (E := E) implements validate enum_value vars).
  Notation part_of_value := (PlanModel.part_of_value (IR := IR) implements).
  Notation Mv := (M (E := E) value).

  Section Store.
    Variable st : store.

    Definition members (node : field) (obj : value) (dp : list nat) :=
      fix go (l : list field) : M (E := E) (list (string * value)) :=
        match l with
        | [] => mret []
        | c :: rest =>
            if part_of_value c obj && negb (field_skip vars c) then
              mbind (if String.eqb (p_name c) "__typename"
                     then mret (VStr (value_type node obj))
                     else iter_with st (synth_node st c) c (get_key (p_name c) obj) dp None)
                    (fun x => mbind (go rest) (fun xs => mret ((p_output c, x) :: xs)))
            else go rest
        end.

    Definition elements (inner : value -> list nat -> Mv) (dp : list nat) :=
      fix goL (i : nat) (l : list value) : M (E := E) (list value) :=
        match l with
        | [] => mret []
        | x :: rest =>
            mbind (mpush (SIndex i)) (fun _ =>
            mbind (inner x (dp ++ [i])) (fun y =>
            mbind mpop (fun _ =>
            mbind (goL (S i) rest) (fun ys => mret (y :: ys)))))
        end.

    Lemma elements_cons inner dp i x rest p :
      elements inner dp i (x :: rest) p =
      match inner x (dp ++ [i]) (SIndex i :: p) with
      | (Ok y, p1) =>
          match elements inner dp (S i) rest (snd (mpop (E := E) p1)) with
          | (Ok ys, p2) => (Ok (y :: ys), p2)
          | (Err e, p2) => (Err e, p2)
          end
      | (Err e, p1) => (Err e, p1)
      end.
    Proof. reflexivity. Qed.

    Lemma members_cons node obj dp c rest p :
      members node obj dp (c :: rest) p =
      if part_of_value c obj && negb (field_skip vars c) then
        match (if String.eqb (p_name c) "__typename"
               then mret (VStr (value_type node obj))
               else iter_with st (synth_node st c) c (get_key (p_name c) obj) dp None) p with
        | (Ok y, p1) =>
            match members node obj dp rest p1 with
            | (Ok ys, p2) => (Ok ((p_output c, y) :: ys), p2)
            | (Err e, p2) => (Err e, p2)
            end
        | (Err e, p1) => (Err e, p1)
        end
      else members node obj dp rest p.
    Proof. cbn [members]. destruct (_ && _); reflexivity. Qed.

    Lemma synth_node_eq node v dp :
      synth_node st node v dp =
      if field_skip vars node then mret VNull
      else if is_null v then
        if null_allowed (p_type node) then mret VNull else mfail (ERequired (p_id node))
      else match p_scalar node with
      | Some sc =>
          if validate sc v then mret v
          else mfail (EScalar (p_id node) (type_name (p_type node)))
      | None =>
      if p_is_enum node then
        if enum_ok enum_value node v then mret v
        else mfail (EEnum (p_id node) (type_name (p_type node)))
      else
        match v with
        | VObj m => mbind (members node (VObj m) dp (p_selection node)) (fun fields => mret (VObj fields))
        | VList l => mbind (elements (synth_node st node) dp 0 l) (fun ys => mret (VList ys))
        | _ => mret v
        end
      end.
    Proof. destruct node; destruct v; reflexivity. Qed.

    (** What a successful [iter] did. *)
    Inductive iter_case (inner : value -> list nat -> Mv) (c : field) (v : option value)
              (dp : list nat) (root : option string) : value -> Prop :=
    | ic_inner_store sv x p p' y :
        st (p_id c) = Some (Ok sv) -> walk dp sv = WFound x ->
        is_list (p_type c) = is_array x ->
        inner x dp p = (Ok y, p') -> iter_case inner c v dp root y
    | ic_inner_key x p p' y :
        st (p_id c) = None -> v = Some x -> inner x dp p = (Ok y, p') -> iter_case inner c v dp root y
    | ic_not_array sv :
        st (p_id c) = Some (Ok sv) -> walk dp sv = WNotArray -> iter_case inner c v dp root VNull
    | ic_mismatch sv x :
        st (p_id c) = Some (Ok sv) -> walk dp sv = WFound x -> is_list (p_type c) <> is_array x ->
        is_nullable (p_type c) = true -> iter_case inner c v dp root VNull
    | ic_absent :
        st (p_id c) = None -> v = None -> is_nullable (p_type c) = true -> iter_case inner c v dp root VNull
    | ic_typename r :
        st (p_id c) = None -> v = None -> root = Some r -> p_name c = "__typename" ->
        iter_case inner c v dp root (VStr r).

    Lemma guard_ok (c : field) root p y p' :
      nullable_guard (E := E) c root p = (Ok y, p') ->
      (y = VNull /\ is_nullable (p_type c) = true) \/
      exists r, root = Some r /\ p_name c = "__typename" /\ y = VStr r.
    Proof.
      unfold nullable_guard. destruct root as [r|].
      - destruct (String.eqb_spec (p_name c) "__typename").
        + intros H. inv H. right. eauto.
        + destruct (is_nullable (p_type c)); intros H; inv H. auto.
      - destruct (is_nullable (p_type c)); intros H; inv H. auto.
    Qed.

    Lemma iter_ok inner (c : field) v dp root p y p' :
      iter_with st inner c v dp root p = (Ok y, p') -> iter_case inner c v dp root y.
    Proof.
      unfold iter_with. cbn [mbind mpush]. unfold mbind, mpush.
      destruct (st (p_id c)) as [[sv|e]|] eqn:S0; [|discriminate|].
      - destruct (walk dp sv) as [x| |] eqn:W; [| |discriminate].
        + destruct (Bool.eqb (is_list (p_type c)) (is_array x)) eqn:B.
          * apply eqb_prop in B.
            destruct (inner x dp (SField (p_output c) :: p)) as [r q] eqn:I.
            intros H. inv H. eapply ic_inner_store; eauto.
          * intros H. apply guard_ok in H as [(-> & N)|(r & Q & _)]; [|discriminate].
            apply Bool.eqb_false_iff in B. eapply ic_mismatch; eauto.
        + intros H. inv H. eapply ic_not_array; eauto.
      - destruct v as [x|].
        + destruct (inner x dp (SField (p_output c) :: p)) as [r q] eqn:I.
          intros H. inv H. eapply ic_inner_key; eauto.
        + destruct (nullable_guard c root (SField (p_output c) :: p)) as [r q] eqn:I.
          intros H. inv H. apply guard_ok in I as [(-> & N)|(r & -> & Q & ->)].
          * now apply ic_absent.
          * eapply ic_typename; eauto.
    Qed.

    Lemma walk_element dp : forall sv x, walk dp sv = WFound x -> Element dp sv x.
    Proof.
      induction dp as [|i dp IH]; intros sv x H; simpl in H; [inv H; constructor|].
      destruct sv; try discriminate. destruct (nth_error l i) eqn:N; [|discriminate].
      econstructor; eauto.
    Qed.

    Lemma walk_nothing dp : forall sv, walk dp sv = WNotArray -> forall x, ~ Element dp sv x.
    Proof.
      induction dp as [|i dp IH]; intros sv H x El; simpl in H; [discriminate|].
      inversion El as [|? ? l y ? N El']; subst. rewrite N in H. exact (IH _ H _ El').
    Qed.
    Lemma misshapen (c : field) x : is_list (p_type c) <> is_array x -> Misshapen c x.
    Proof.
      intros N [H1 H2]. apply N. destruct (p_type c) as [n nn|t nn].
      - destruct x as [| | | | |l|]; try reflexivity. destruct H2 as (t & nn' & Q); [now exists l|discriminate].
      - destruct H1 as (l & ->); [now exists t, nn|]. reflexivity.
    Qed.
    Lemma enum_conforms (node : field) v : p_scalar node = None -> enum_ok enum_value node v = true -> Conforms validate enum_value node v.
    Proof.
      intros S0 H. unfold Conforms. rewrite S0. intros _. unfold enum_ok in H.
      destruct v as [| | | |s|l|m]; cbn in H; try discriminate; [now constructor|]. constructor. rewrite forallb_forall in H.
      apply Forall_forall. intros x I. specialize (H x I). destruct x; cbn in H; try discriminate. now exists s.
    Qed.
    Lemma scalar_conforms (node : field) sc v : p_scalar node = Some sc -> validate sc v = true -> Conforms validate enum_value node v.
    Proof. intros S0 H. unfold Conforms. now rewrite S0. Qed.

    Lemma part_applies (c : field) obj : part_of_value c obj = true <-> Applies implements c obj.
    Proof.
      unfold PlanModel.part_of_value, Applies, get_type_name, TYPENAME_FIELD.
      destruct (p_cond c) as [cond|]; [|split; [intros _ ? ? Q; discriminate|reflexivity]].
      destruct (get_key "__typename" obj) as [x|].
      - destruct x; simpl; split; intros H; try reflexivity; try (intros cond' t Q R; inv Q; inv R; auto).
        now apply (H cond s).
      - split; [intros _ ? ? _ Q; discriminate|reflexivity].
    Qed.

    Lemma value_type_of (node : field) obj : TypeNameOf node obj (value_type node obj).
    Proof.
      unfold TypeNameOf, value_type, get_type_name, TYPENAME_FIELD.
      destruct (get_key "__typename" obj) as [x|].
      - destruct x; simpl; auto; right; (split; [intros t' Q; discriminate|reflexivity]).
      - right. split; [intros t' Q; discriminate|reflexivity].
    Qed.

    Notation Answer := (Answer implements validate enum_value vars st).
    Notation Members := (Members implements validate enum_value vars st).
    Notation Elements := (Elements implements validate enum_value vars st).

    Definition sound (node : field) : Prop := forall v dp p out p',
      field_skip vars node = false -> synth_node st node v dp p = (Ok out, p') -> Answer node v dp out.

    Lemma members_sound (node : field) obj dp : forall l p m p',
      Forall sound l -> members node obj dp l p = (Ok m, p') -> Members node obj dp l m.
    Proof.
      induction l as [|c t IH]; intros p m p' F H; simpl in H; [inv H; constructor|].
      inversion F as [|? ? Fc Ft]; subst.
      destruct (part_of_value c obj) eqn:A; simpl in H.
      2:{ apply mem_other; [left; rewrite <- part_applies; congruence|]. eapply IH; eauto. }
      destruct (field_skip vars c) eqn:K; simpl in H.
      1:{ apply mem_other; [right; exact K|]. eapply IH; eauto. }
      apply part_applies in A.
      destruct (String.eqb_spec (p_name c) "__typename") as [N|N].
      - unfold mbind, mret in H.
        destruct (members node obj dp t p) as [[m1|e] p1] eqn:M1; [|discriminate]. inv H.
        apply mem_typename; auto; [apply value_type_of|]. eapply IH; eauto.
      - unfold mbind in H.
        destruct (iter_with st (synth_node st c) c (get_key (p_name c) obj) dp None p) as [[y|e] p1] eqn:I;
          [|discriminate].
        destruct (members node obj dp t p1) as [[m1|e] p2] eqn:M1; [|discriminate].
        unfold mret in H. inv H. apply iter_ok in I. specialize (IH _ _ _ Ft M1).
        destruct I as [sv x q q' y S0 W B I|x q q' y S0 G I|sv S0 W|sv x S0 W B N0|S0 G B|r S0 G R T].
        + eapply mem_field; eauto. eapply src_resolver; eauto. now apply walk_element.
        + eapply mem_field; eauto. now apply src_key.
        + apply mem_null; auto. eapply miss_element; [exact S0|now apply walk_nothing].
        + apply mem_null; auto. eapply miss_shape; [exact S0|apply walk_element; exact W|now apply misshapen].
        + apply mem_null; auto. now apply miss_key.
        + discriminate.
    Qed.

    Lemma elements_sound (node : field) dp (P : value -> Prop) : forall l i p l' p',
      Forall (fun x => forall dp p y p', synth_node st node x dp p = (Ok y, p') -> Answer node x dp y) l ->
      elements (synth_node st node) dp i l p = (Ok l', p') -> Elements node dp i l l'.
    Proof.
      induction l as [|x t IH]; intros i p l' p' F H; [inv H; constructor|].
      inversion F as [|? ? Fx Ft]; subst.
      cbn [elements] in H. unfold mbind, mpush, mpop in H.
      destruct (synth_node st node x (dp ++ [i]) (SIndex i :: p)) as [[y|e] p1] eqn:I; [|discriminate].
      match type of H with match ?M with _ => _ end = _ => destruct M as [[ys|e] p2] eqn:R; [|discriminate] end.
      unfold mret in H. inv H. constructor; [eauto|]. eapply IH; [exact Ft|]. exact R.
    Qed.

    Lemma not_leaf (node : field) : p_scalar node = None -> p_is_enum node = false -> ~ Leaf node.
    Proof. intros A B [C|C]; congruence. Qed.

    Lemma synth_sound : forall node, sound node.
    Proof.
      induction node as [node IH] using pfield_ind'. intros v.
      induction v as [| | | | |l IHl|m IHm] using value_ind'; intros dp p out p' K H;
        rewrite synth_node_eq, K in H; cbn [is_null] in H.
      - destruct (null_allowed (p_type node)); [|discriminate]. inv H. constructor.
      - destruct (p_scalar node) eqn:Sc; [destruct (validate _ _) eqn:Va; inv H; apply an_leaf; [left; congruence|discriminate|now apply scalar_conforms with (1 := Sc)]|].
        destruct (p_is_enum node) eqn:En; [destruct (enum_ok _ _ _) eqn:Eo; inv H; apply an_leaf; [right; auto|discriminate|now apply enum_conforms]|].
        inv H. apply an_atom; try discriminate. now apply not_leaf.
      - destruct (p_scalar node) eqn:Sc; [destruct (validate _ _) eqn:Va; inv H; apply an_leaf; [left; congruence|discriminate|now apply scalar_conforms with (1 := Sc)]|].
        destruct (p_is_enum node) eqn:En; [destruct (enum_ok _ _ _) eqn:Eo; inv H; apply an_leaf; [right; auto|discriminate|now apply enum_conforms]|].
        inv H. apply an_atom; try discriminate. now apply not_leaf.
      - destruct (p_scalar node) eqn:Sc; [destruct (validate _ _) eqn:Va; inv H; apply an_leaf; [left; congruence|discriminate|now apply scalar_conforms with (1 := Sc)]|].
        destruct (p_is_enum node) eqn:En; [destruct (enum_ok _ _ _) eqn:Eo; inv H; apply an_leaf; [right; auto|discriminate|now apply enum_conforms]|].
        inv H. apply an_atom; try discriminate. now apply not_leaf.
      - destruct (p_scalar node) eqn:Sc; [destruct (validate _ _) eqn:Va; inv H; apply an_leaf; [left; congruence|discriminate|now apply scalar_conforms with (1 := Sc)]|].
        destruct (p_is_enum node) eqn:En; [destruct (enum_ok _ _ _) eqn:Eo; inv H; apply an_leaf; [right; auto|discriminate|now apply enum_conforms]|].
        inv H. apply an_atom; try discriminate. now apply not_leaf.
      - destruct (p_scalar node) eqn:Sc; [destruct (validate _ _) eqn:Va; inv H; apply an_leaf; [left; congruence|discriminate|now apply scalar_conforms with (1 := Sc)]|].
        destruct (p_is_enum node) eqn:En; [destruct (enum_ok _ _ _) eqn:Eo; inv H; apply an_leaf; [right; auto|discriminate|now apply enum_conforms]|].
        unfold mbind in H.
        destruct (elements (synth_node st node) dp 0 l p) as [[l'|e] p1] eqn:El; [|discriminate].
        inv H. apply an_list; [now apply not_leaf|].
        eapply elements_sound; [exact (fun _ => True)| |exact El].
        eapply Forall_impl; [|exact IHl]. intros x X dp0 p0 y p0' Y. eapply X; eauto.
      - destruct (p_scalar node) eqn:Sc; [destruct (validate _ _) eqn:Va; inv H; apply an_leaf; [left; congruence|discriminate|now apply scalar_conforms with (1 := Sc)]|].
        destruct (p_is_enum node) eqn:En; [destruct (enum_ok _ _ _) eqn:Eo; inv H; apply an_leaf; [right; auto|discriminate|now apply enum_conforms]|].
        unfold mbind in H.
        destruct (members node (VObj m) dp (p_selection node) p) as [[m'|e] p1] eqn:Me; [|discriminate].
        inv H. apply an_object; [now apply not_leaf|]. eapply members_sound; eauto.
    Qed.

    (** Names of the members of an answered object. *)
    Lemma members_names (node : field) obj dp l m :
      Members node obj dp l m ->
      map fst m = map p_output (filter (fun c => part_of_value c obj && negb (field_skip vars c)) l).
    Proof.
      intros H. remember l as l0. revert l Heql0.
      induction H; intros l1 Q; simpl; auto.
      - destruct H as [H|H].
        + rewrite <- part_applies in H. destruct (part_of_value c obj); [congruence|]. simpl. eauto.
        + rewrite H, andb_false_r. eauto.
      - rewrite <- part_applies in H. rewrite H, H0. simpl. f_equal. eauto.
      - rewrite <- part_applies in H. rewrite H, H0. simpl. f_equal. eauto.
      - rewrite <- part_applies in H. rewrite H, H0. simpl. f_equal. eauto.
    Qed.

    (** *** Root *)
    Lemma root_sound root : forall (l : list field) data p out p',
      synth_root st root l data p = (Ok out, p') ->
      exists ys, Forall2 (RootAnswer implements validate enum_value vars st root) (filter (fun c => negb (field_skip vars c)) l) ys /\
        out = VObj (fold_left (fun d cy => aset (p_output (fst cy)) (snd cy) d)
                              (combine (filter (fun c => negb (field_skip vars c)) l) ys) data).
    Proof.
      induction l as [|c t IH]; intros data p out p' H; simpl in H.
      - inv H. exists []. split; [constructor|reflexivity].
      - destruct (field_skip vars c) eqn:K; simpl; rewrite ?K; simpl; [eauto|].
        unfold mbind in H.
        destruct (iter_with st (synth_node st c) c None [] (Some root) p) as [[y|e] p1] eqn:I; [|discriminate].
        apply IH in H as (ys & F & ->). exists (y :: ys). split; [|reflexivity].
        constructor; [|exact F]. apply iter_ok in I.
        destruct I as [sv x q q' y S0 W B I|x q q' y S0 G I|sv S0 W|sv x S0 W B N0|S0 G B|r S0 G R T].
        + simpl in W. inv W. right. right. exists x. split; [exact S0|]. eapply synth_sound; eauto.
        + discriminate.
        + discriminate.
        + simpl in W. inv W. right. left. split; [reflexivity|]. right. exists x. split; [exact S0|now apply misshapen].
        + right. left. auto.
        + inv R. left. auto.
    Qed.

    Lemma fold_aset_distinct : forall (l : list (field * value)) data,
      NoDup (map fst data ++ map (fun cy => p_output (fst cy)) l) ->
      fold_left (fun d cy => aset (p_output (fst cy)) (snd cy) d) l data
      = data ++ map (fun cy => (p_output (fst cy), snd cy)) l.
    Proof.
      induction l as [|[c y] t IH]; intros data ND; simpl; [now rewrite app_nil_r|].
      assert (A : aset (p_output c) y data = data ++ [(p_output c, y)]).
      { assert (N : ~ In (p_output c) (map fst data)).
        { simpl in ND. apply NoDup_remove_2 in ND. intros I. apply ND. apply in_app_iff. auto. }
        clear -N. induction data as [|[k w] d IHd]; simpl; [reflexivity|].
        destruct (String.eqb_spec (p_output c) k); [subst; simpl in N; tauto|].
        f_equal. apply IHd. simpl in N. tauto. }
      rewrite A, IH; [now rewrite <- app_assoc|].
      rewrite map_app, <- app_assoc. exact ND.
    Qed.

    Lemma synthesize_root root (l : list field) m :
      synthesize implements validate enum_value vars st root l = Ok (VObj m) ->
      NoDup (map p_output (filter (fun c => negb (field_skip vars c)) l)) ->
      Forall2 (fun c kv => fst kv = p_output c /\ RootAnswer implements validate enum_value vars st root c (snd kv))
              (filter (fun c => negb (field_skip vars c)) l) m.
    Proof.
      unfold synthesize. destruct (synth_root st root l [] []) as [r p'] eqn:H. simpl. intros -> ND.
      apply root_sound in H as (ys & F & Q). inversion Q as [Q']. clear Q. subst m.
      assert (L : map (fun cy => p_output (fst cy)) (combine (filter (fun c => negb (field_skip vars c)) l) ys)
                  = map p_output (filter (fun c => negb (field_skip vars c)) l)).
      { clear ND. induction F as [|c y cs ys' X T IHt]; simpl; [reflexivity|]. now f_equal. }
      rewrite fold_aset_distinct; [|simpl; now rewrite L]. simpl. clear ND L.
      induction F as [|c y cs ys' X T IHt]; simpl; constructor; auto.
    Qed.

    Lemma synthesize_object root (l : list field) out :
      synthesize implements validate enum_value vars st root l = Ok out -> exists m, out = VObj m.
    Proof.
      unfold synthesize. destruct (synth_root st root l [] []) as [r p'] eqn:H. simpl. intros ->.
      apply root_sound in H as (ys & _ & ->). eauto.
    Qed.
  End Store.

  (** ** The store only matters pointwise *)
  Lemma iter_with_ext (st1 st2 : store) (inner1 inner2 : value -> list nat -> Mv) (c : field) v dp root :
    (forall i, st1 i = st2 i) -> (forall x dp p, inner1 x dp p = inner2 x dp p) ->
    forall p, iter_with st1 inner1 c v dp root p = iter_with st2 inner2 c v dp root p.
  Proof.
    intros S0 I p. unfold iter_with, mbind, mpush. rewrite <- S0.
    destruct (st1 (p_id c)) as [[sv|e]|]; [|reflexivity|].
    - destruct (walk dp sv) as [x| |]; try reflexivity.
      destruct (Bool.eqb _ _); [now rewrite I|reflexivity].
    - destruct v as [x|]; [now rewrite I|reflexivity].
  Qed.

  Lemma synth_ext (st1 st2 : store) : (forall i, st1 i = st2 i) ->
    forall node v dp p, synth_node st1 node v dp p = synth_node st2 node v dp p.
  Proof.
    intros S0. induction node as [node IH] using pfield_ind'.
    assert (Mem : forall obj dp l, Forall (fun c => forall v dp p, synth_node st1 c v dp p = synth_node st2 c v dp p) l ->
              forall p, members st1 node obj dp l p = members st2 node obj dp l p).
    { intros obj dp l F. induction F as [|c t X T IHt]; intros p; [reflexivity|]. simpl.
      destruct (_ && _); [|apply IHt]. unfold mbind.
      destruct (String.eqb _ _); unfold mret; [now rewrite IHt|].
      rewrite (iter_with_ext st1 st2 (synth_node st1 c) (synth_node st2 c)) by auto.
      destruct (iter_with _ _ _ _ _ _ _) as [[y|e] p1]; [now rewrite IHt|reflexivity]. }
    intros v. induction v as [| | | | |l IHl|m IHm] using value_ind'; intros dp p;
      rewrite !synth_node_eq; try reflexivity.
    - destruct (field_skip vars node); [reflexivity|]. cbn [is_null].
      destruct (p_scalar node); [reflexivity|]. destruct (p_is_enum node); [reflexivity|].
      assert (El : forall i p, elements (synth_node st1 node) dp i l p = elements (synth_node st2 node) dp i l p).
      { clear p. induction IHl as [|x t X T IHt]; intros i p; [reflexivity|].
        cbn [elements]. unfold mbind, mpush, mpop. rewrite X.
        destruct (synth_node st2 node x (dp ++ [i]) (SIndex i :: p)) as [[y|e] p1]; [|reflexivity].
        match goal with |- match ?a with _ => _ end = match ?b with _ => _ end =>
          assert (Q : a = b) by apply IHt; now rewrite Q end. }
      unfold mbind. now rewrite El.
    - destruct (field_skip vars node); [reflexivity|]. cbn [is_null].
      destruct (p_scalar node); [reflexivity|]. destruct (p_is_enum node); [reflexivity|].
      unfold mbind. now rewrite Mem.
  Qed.

  Lemma synth_root_ext (st1 st2 : store) root : (forall i, st1 i = st2 i) ->
    forall l data p, synth_root st1 root l data p = synth_root st2 root l data p.
  Proof.
    intros S0. induction l as [|c t IH]; intros data p; [reflexivity|]. simpl.
    destruct (field_skip vars c); [apply IH|]. unfold mbind.
    rewrite (iter_with_ext st1 st2 (synth_node st1 c) (synth_node st2 c)) by (auto using synth_ext).
    destruct (iter_with _ _ _ _ _ _ _) as [[y|e] p1]; [apply IH|reflexivity].
  Qed.

  Lemma synthesize_ext (st1 st2 : store) root (l : list field) : (forall i, st1 i = st2 i) ->
    synthesize implements validate enum_value vars st1 root l
    = synthesize implements validate enum_value vars st2 root l.
  Proof. intros S0. unfold synthesize. now rewrite (synth_root_ext st1 st2 root S0). Qed.

  (** ** Executor and synthesizer together *)

  Notation execute_ir := (execute_ir implements resolve missing).
  Notation exec_list := (exec_list implements resolve missing).
  Notation exec := (exec implements resolve missing).

  Inductive Stored (st : store) : field -> value -> Prop :=
  | stored node W :
      Forall (fun c =>
        (p_ir c <> None ->
           st (p_id c) = Some (snd (execute_ir c (Some W))) /\
           (forall v, snd (execute_ir c (Some W)) = Ok v -> Stored st c v)) /\
        (p_ir c = None ->
           st (p_id c) = None /\
           (forall w, plain_value (E := E) c (Some W) = Ok w -> Stored st c w)))
        (p_selection node) ->
      Stored st node W.

  (** [st] holds what running the fields [l] under [ctx] wrote, and nothing
      else for their identifiers. *)
  Definition HoldsRun (st : store) (l : list field) (ctx : option value) : Prop :=
    (forall i r, In (i, r) (writes (exec_list l ctx)) -> st i = Some r) /\
    (forall i, In i (plan_ids l) -> ~ In i (map fst (writes (exec_list l ctx))) -> st i = None).

  Lemma NoDup_app_parts {A} (a b : list A) :
    NoDup (a ++ b) -> NoDup a /\ NoDup b /\ (forall x, In x a -> ~ In x b).
  Proof.
    induction a as [|x a IH]; simpl; intros H; [split; [constructor|split; [auto|intros ? []]]|].
    apply NoDup_cons_iff in H as [N ND]. apply IH in ND as (A1 & B & C).
    split; [|split; [exact B|]].
    - constructor; auto. intros I. apply N. apply in_app_iff. auto.
    - intros y [->|I] J; [apply N; apply in_app_iff; auto|]. now apply (C y).
  Qed.

  Lemma exec_list_ids l ctx i : In i (map fst (writes (exec_list l ctx))) -> In i (plan_ids l).
  Proof.
    intros I. destruct (exec_list_writes implements resolve missing l ctx) as (x & X).
    eapply Permutation_in; [exact X|]. apply in_app_iff. auto.
  Qed.

  Lemma holds_child st l ctx : NoDup (plan_ids l) -> HoldsRun st l ctx ->
    forall c, In c l -> HoldsRun st [c] ctx.
  Proof.
    induction l as [|d t IH]; intros ND [H1 H2] c I; [contradiction|].
    simpl in ND. apply NoDup_app_parts in ND as (NDd & NDt & Dis).
    assert (Eq : writes (exec_list (d :: t) ctx) = writes (exec_list [d] ctx) ++ writes (exec_list t ctx)).
    { simpl. rewrite app_nil_r. apply writes_app. }
    destruct I as [->|I].
    - split.
      + intros i r R. apply H1. rewrite Eq. apply in_app_iff. auto.
      + intros i R N. apply H2.
        * simpl. simpl in R. rewrite app_nil_r in R. apply in_app_iff. auto.
        * rewrite Eq, map_app, in_app_iff. intros [J|J]; [auto|].
          apply exec_list_ids in J. simpl in R. rewrite app_nil_r in R. now apply (Dis i).
    - apply IH; auto. split.
      + intros i r R. apply H1. rewrite Eq. apply in_app_iff. auto.
      + intros i R N. apply H2; [simpl; apply in_app_iff; auto|].
        rewrite Eq, map_app, in_app_iff. intros [J|J]; [|auto].
        apply exec_list_ids in J. simpl in J. rewrite app_nil_r in J. now apply (Dis i).
  Qed.

  Lemma holds_stored st : forall f ctx,
    NoDup (field_ids f) -> HoldsRun st [f] ctx ->
    (p_ir f <> None ->
       st (p_id f) = Some (snd (execute_ir f ctx)) /\
       (forall v, snd (execute_ir f ctx) = Ok v -> Stored st f v)) /\
    (p_ir f = None ->
       st (p_id f) = None /\
       (forall w, plain_value (E := E) f ctx = Ok w -> Stored st f w)).
  Proof.
    induction f as [f IH] using pfield_ind'. intros ctx ND [H1 H2].
    rewrite field_ids_eq in ND. apply NoDup_cons_iff in ND as [Nid ND].
    assert (Eq : exec_list [f] ctx = exec f ctx) by (simpl; apply app_nil_r).
    assert (Below : forall v, HoldsRun st (p_selection f) (Some v) -> Stored st f v).
    { intros v Hv. constructor. apply Forall_forall. intros c C.
      assert (NDc : NoDup (field_ids c)).
      { clear -ND C. induction (p_selection f) as [|d t IHt]; [contradiction|].
        simpl in ND. apply NoDup_app_parts in ND as (A & B & _). destruct C as [->|C]; auto. }
      rewrite Forall_forall in IH. apply (IH c C (Some v) NDc).
      eapply holds_child; eauto. }
    rewrite Eq in H1, H2. rewrite exec_eq in H1, H2. split.
    - intros Q. destruct (p_ir f) as [ir|] eqn:QI; [|congruence]. clear Q. split.
      + apply H1. rewrite !writes_app, !in_app_iff. right. right. left. reflexivity.
      + intros v Hv. apply Below. rewrite Hv in H1, H2. split.
        * intros i r I. apply H1. rewrite !writes_app, !in_app_iff. auto.
        * intros i I N. apply H2.
          -- simpl. rewrite app_nil_r, field_ids_eq. right. exact I.
          -- rewrite !writes_app, writes_called. simpl. rewrite map_app, in_app_iff. simpl.
             intros [J|[J|[]]]; [auto|]. subst. auto.
    - intros Q. rewrite Q in H1, H2. destruct (plain_value_ok (E := E) f ctx) as (w & R).
      rewrite R in H1, H2. split.
      + apply H2.
        * simpl. rewrite app_nil_r, field_ids_eq. left. reflexivity.
        * intros J. apply exec_list_ids in J. auto.
      + intros w' Q'. assert (w' = w) by congruence. subst w'. apply Below. split; [exact H1|].
        intros i I N. apply H2; [|exact N]. simpl. rewrite app_nil_r, field_ids_eq. right. exact I.
  Qed.

  Lemma run_holds (l : list field) : NoDup (plan_ids l) ->
    HoldsRun (store_of (exec_all implements resolve missing l)) l None.
  Proof.
    intros ND. split.
    - intros i r I. apply store_of_in; [|exact I]. rewrite exec_all_list. now apply exec_list_nodup.
    - intros i I N. apply store_of_none. exact N.
  Qed.

  (** *** Following list positions through the executor *)

  Lemma lifted_walk R : forall W r, lifted R W r ->
    forall dp v, walk dp W = WFound v -> (forall l, v <> VList l) ->
    exists v', walk dp r = WFound v' /\ R v v'.
  Proof.
    induction W as [| | | | |l IH|m _] using value_ind'; intros r L dp v Wk NL;
      try (inversion L; subst; destruct dp; simpl in Wk; [inv Wk; eauto|discriminate]).
    inversion L as [? ? NL' _|l1 l2 F]; subst; [exfalso; now apply (NL' l)|].
    destruct dp as [|i dp]; simpl in Wk; [inv Wk; exfalso; now apply (NL l)|].
    simpl. destruct (nth_error l i) as [x|] eqn:N; [|discriminate].
    clear L. revert i N. induction F as [|a b t1 t2 X T IHt]; intros i N; [destruct i; discriminate|].
    inversion IH as [|? ? Pa Pt]; subst. destruct i as [|i]; simpl in N |- *.
    - inv N. eauto.
    - eauto.
  Qed.

  Lemma map_ref_lifted (g : value -> value) : forall v w,
    snd (map_ref (E := E) (fun (_ : unit) v => (tt, Ok (g v))) tt v) = Ok w ->
    lifted (fun a b => b = g a) v w.
  Proof.
    induction v as [| | | | |l IH|m _] using value_ind'; intros w H;
      try (simpl in H; inv H; apply lifted_leaf; [discriminate|reflexivity]).
    simpl in H.
    match type of H with context [?go tt l] =>
      assert (K : forall l', snd (go tt l) = Ok l' -> Forall2 (lifted (fun a b => b = g a)) l l') end.
    { clear H w. induction IH as [|x t X T IHt]; intros l' H; [simpl in H; inv H; constructor|].
      destruct (map_ref (E := E) (fun (_ : unit) v => (tt, Ok (g v))) tt x) as [[] [y|e]] eqn:M; [|discriminate].
      match type of H with context [?go tt t] => destruct (go tt t) as [[] [ys|e]] eqn:G end; [|discriminate].
      simpl in H. inv H. constructor; [apply X; reflexivity|]. apply IHt. reflexivity. }
    match type of H with context [?go tt l] => destruct (go tt l) as [u [l'|e]] eqn:G end; [|discriminate].
    simpl in H. inv H. apply lifted_list. apply K. reflexivity.
  Qed.

  Lemma plain_walk (c : field) W w dp obj :
    plain_value (E := E) c (Some W) = Ok w -> walk dp W = WFound obj -> (forall l, obj <> VList l) ->
    walk dp w = WFound (key_or_null (p_output c) obj).
  Proof.
    intros P Wk NL. apply map_ref_lifted in P.
    destruct (lifted_walk _ _ _ P dp obj Wk NL) as (v' & Wk' & ->). exact Wk'.
  Qed.

  Lemma execute_walk (c : field) W sv dp obj :
    snd (execute_ir c (Some W)) = Ok sv -> walk dp W = WFound obj -> (forall l, obj <> VList l) ->
    exists x, walk dp sv = WFound x.
  Proof.
    intros P Wk NL. destruct W as [| | | | |l|m];
      try (destruct dp; [exists sv; reflexivity|discriminate]).
    unfold PlanModel.execute_ir in P. apply (execute_list_shape _ _ (call_ir resolve c None) missing) in P.
    destruct (lifted_walk _ _ _ P dp obj Wk NL) as (v' & Wk' & _). exists v'. exact Wk'.
  Qed.

  Lemma walk_snoc dp : forall W l i x,
    walk dp W = WFound (VList l) -> nth_error l i = Some x -> walk (dp ++ [i]) W = WFound x.
  Proof.
    induction dp as [|j dp IH]; intros W l i x H N; simpl in *.
    - inv H. rewrite N. reflexivity.
    - destruct W; try discriminate. destruct (nth_error l0 j); [eauto|discriminate].
  Qed.

  Definition Linked (st : store) (node : field) (v : value) (dp : list nat) : Prop :=
    (forall i, In i (plan_ids (p_selection node)) -> st i = None) \/
    (exists W, walk dp W = WFound v /\ Stored st node W).

  Lemma stored_below_none st : forall c w, Stored st c w -> ~ ResolverBelow c ->
    forall i, In i (plan_ids (p_selection c)) -> st i = None.
  Proof.
    induction c as [c IH] using pfield_ind'. intros w S0 N i I.
    inversion S0 as [? ? F]; subst. apply in_flat_map in I as (d & D & I).
    rewrite Forall_forall in F, IH. destruct (F d D) as [_ F2].
    assert (Q : p_ir d = None).
    { destruct (p_ir d) eqn:Q; [|reflexivity]. exfalso. apply N. eapply rb_here; eauto. congruence. }
    destruct (F2 Q) as [Z Z2]. rewrite field_ids_eq in I. destruct I as [<-|I]; [exact Z|].
    destruct (plain_value_ok (E := E) d (Some w)) as (w' & P).
    eapply (IH d D w'); eauto. intros R. apply N. eapply rb_below; eauto.
  Qed.

  Definition fine (node : field) (r : result value (synth_error (E := E))) : Prop :=
    match r with Ok out => Clean node out | Err e => e <> EPanic end.

  Lemma null_allowed_named t : null_allowed t = true -> ~ non_null_named t.
  Proof. intros H (n & ->). discriminate. Qed.

  Lemma nullable_named t : is_nullable t = true -> ~ non_null_named t.
  Proof. intros H (n & ->). discriminate. Qed.

  Lemma synth_null_allowed (st : store) (node : field) v dp p p' :
    field_skip vars node = false -> synth_node st node v dp p = (Ok VNull, p') ->
    null_allowed (p_type node) = true.
  Proof.
    intros K. rewrite synth_node_eq, K.
    destruct (is_null v) eqn:N.
    - destruct (null_allowed (p_type node)); [reflexivity|discriminate].
    - destruct (p_scalar node); [destruct (validate _ _); intros H; inv H; discriminate|].
      destruct (p_is_enum node); [destruct (enum_ok _ _ _); intros H; inv H; discriminate|].
      destruct v; try (intros H; inv H; discriminate); unfold mbind.
      + destruct (elements _ _ _ _ _) as [[a|e] q]; intros H; inv H.
      + destruct (members _ _ _ _ _ _) as [[a|e] q]; intros H; inv H.
  Qed.

  (** A resolver's value for a nested field, and no panic. *)
  Lemma iter_fine (st : store) (c : field) v dp root p :
    (forall sv, st (p_id c) = Some (Ok sv) -> exists x, walk dp sv = WFound x) ->
    (forall x p, (exists sv, st (p_id c) = Some (Ok sv) /\ walk dp sv = WFound x) \/
                 (st (p_id c) = None /\ v = Some x) ->
                 fine c (fst (synth_node st c x dp p))) ->
    match fst (iter_with st (synth_node st c) c v dp root p) with
    | Ok y => (p_name c = "__typename" /\ exists r, root = Some r /\ y = VStr r) \/ Clean c y
    | Err e => e <> EPanic
    end.
  Proof.
    intros NA I. destruct (iter_with st (synth_node st c) c v dp root p) as [[y|e] p'] eqn:H; simpl.
    - apply iter_ok in H.
      destruct H as [sv x q q' y S0 W B H|x q q' y S0 G H|sv S0 W|sv x S0 W B|S0 G B|r S0 G R T].
      + right. specialize (I x q). rewrite H in I. apply I. left. eauto.
      + right. specialize (I x q). rewrite H in I. apply I. right. auto.
      + destruct (NA sv S0) as (x & Q). congruence.
      + right. apply cl_null. now apply nullable_named.
      + right. apply cl_null. now apply nullable_named.
      + left. eauto.
    - unfold iter_with, mbind, mpush in H.
      destruct (st (p_id c)) as [[sv|e']|] eqn:S0.
      + destruct (NA sv eq_refl) as (x & Q). rewrite Q in H.
        destruct (Bool.eqb _ _).
        * specialize (I x (SField (p_output c) :: p)).
          destruct (synth_node st c x dp (SField (p_output c) :: p)) as [r q]. inv H. apply I. left. eauto.
        * unfold nullable_guard in H. destruct (is_nullable (p_type c)); inv H. discriminate.
      + inv H. discriminate.
      + destruct v as [x|].
        * specialize (I x (SField (p_output c) :: p)).
          destruct (synth_node st c x dp (SField (p_output c) :: p)) as [r q]. inv H. apply I. right. auto.
        * unfold nullable_guard, mret, mfail in H.
          destruct root as [r|]; [destruct (String.eqb _ _)|]; try discriminate;
            destruct (is_nullable (p_type c)); inv H; discriminate.
  Qed.

  Lemma linked_child (st : store) (node c : field) m dp x :
    Unaliased c -> In c (p_selection node) -> Linked st node (VObj m) dp ->
    (exists sv, st (p_id c) = Some (Ok sv) /\ walk dp sv = WFound x) \/
    (st (p_id c) = None /\ get_key (p_name c) (VObj m) = Some x) ->
    Linked st c x dp.
  Proof.
    intros Uc C L Src.
    assert (Sub2 : forall i, In i (plan_ids (p_selection c)) -> In i (plan_ids (p_selection node))).
    { intros i I. apply in_flat_map. exists c. split; [exact C|]. rewrite field_ids_eq. right. exact I. }
    destruct L as [L|(W & Wk & St)].
    - left. intros i I. apply L. auto.
    - inversion St as [? ? F]; subst. rewrite Forall_forall in F. destruct (F c C) as [F1 F2].
      destruct (p_ir c) as [ir|] eqn:Qi.
      + destruct F1 as [F1 F1']; [discriminate|]. destruct Src as [(sv & S0 & Wx)|[S0 _]]; [|congruence].
        right. exists sv. split; [exact Wx|]. apply F1'. congruence.
      + destruct (F2 eq_refl) as [F3 F4]. destruct Src as [(sv & S0 & Wx)|[_ Gk]]; [congruence|].
        destruct (plain_value_ok (E := E) c (Some W)) as (w & Pw). specialize (F4 w Pw).
        inversion Uc as [? Al _]; subst. destruct (Al Qi) as [Al'|Al'].
        * right. exists w. split; [|exact F4].
          rewrite (plain_walk c W w dp (VObj m) Pw Wk) by discriminate.
          unfold key_or_null. now rewrite Al', Gk.
        * left. eapply stored_below_none; eauto.
  Qed.

  Lemma synth_fine (st : store) : forall node,
    Unaliased node ->
    (forall g, Within g node -> field_skip vars g = false) ->
    forall v dp p, Linked st node v dp -> fine node (fst (synth_node st node v dp p)).
  Proof.
    induction node as [node IH] using pfield_ind'. intros U K.
    assert (Kn : field_skip vars node = false) by (apply K; constructor).
    inversion U as [? _ Uc]; subst.
    intros v. induction v as [| | | | |l IHl|m _] using value_ind'; intros dp p L;
      rewrite synth_node_eq, Kn; cbn [is_null].
    1:{ destruct (null_allowed (p_type node)) eqn:Na; simpl; [|discriminate].
        apply cl_null. now apply null_allowed_named. }
    1,2,3,4: (destruct (p_scalar node) eqn:Sc;
       [destruct (validate _ _); simpl; [apply cl_leaf; [left; congruence|discriminate]|discriminate]|];
       destruct (p_is_enum node) eqn:En;
       [destruct (enum_ok _ _ _); simpl; [apply cl_leaf; [right; auto|discriminate]|discriminate]|];
       simpl; apply cl_atom; discriminate).
    - destruct (p_scalar node) eqn:Sc;
       [destruct (validate _ _); simpl; [apply cl_leaf; [left; congruence|discriminate]|discriminate]|].
      destruct (p_is_enum node) eqn:En;
       [destruct (enum_ok _ _ _); simpl; [apply cl_leaf; [right; auto|discriminate]|discriminate]|].
      assert (El : forall i l0 p,
        (forall j x, nth_error l0 j = Some x -> Linked st node x (dp ++ [i + j])) ->
        Forall (fun v => forall dp p, Linked st node v dp -> fine node (fst (synth_node st node v dp p))) l0 ->
        match fst (elements (synth_node st node) dp i l0 p) with
        | Ok l' => Forall (fun x => Clean node x /\
                     (x = VNull -> forall t nn, p_type node = TList t nn -> is_nullable t = true)) l'
        | Err e => e <> EPanic
        end).
      { intros i l0. revert i. induction l0 as [|x t IHt]; intros i q Lk F; [constructor|].
        inversion F as [|? ? Fx Ft]; subst.
        rewrite elements_cons.
        assert (Lx : Linked st node x (dp ++ [i])).
        { specialize (Lk 0 x eq_refl). now rewrite Nat.add_0_r in Lk. }
        specialize (Fx (dp ++ [i]) (SIndex i :: q) Lx).
        destruct (synth_node st node x (dp ++ [i]) (SIndex i :: q)) as [[y|e] q1] eqn:Sy; [|exact Fx].
        assert (Lt : forall j z, nth_error t j = Some z -> Linked st node z (dp ++ [S i + j])).
        { intros j z Hz. specialize (Lk (S j) z Hz). now rewrite <- plus_n_Sm in Lk. }
        specialize (IHt (S i) (snd (mpop (E := E) q1)) Lt Ft).
        destruct (elements (synth_node st node) dp (S i) t (snd (mpop (E := E) q1))) as [[ys|e] q2];
          [|exact IHt]. simpl in IHt |- *.
        constructor; [|exact IHt]. split; [exact Fx|].
        intros -> t' nn Ty. apply synth_null_allowed in Sy; [|exact Kn]. now rewrite Ty in Sy. }
      unfold mbind. specialize (El 0 l p).
      destruct (elements (synth_node st node) dp 0 l p) as [[l'|e] q].
      + simpl. apply cl_list. apply El; [|exact IHl].
        intros j x Hx. destruct L as [L|(W & Wk & St)]; [left; exact L|].
        right. exists W. split; [|exact St]. eapply walk_snoc; eauto.
      + simpl. apply El; [|exact IHl].
        intros j x Hx. destruct L as [L|(W & Wk & St)]; [left; exact L|].
        right. exists W. split; [|exact St]. eapply walk_snoc; eauto.
    - destruct (p_scalar node) eqn:Sc;
       [destruct (validate _ _); simpl; [apply cl_leaf; [left; congruence|discriminate]|discriminate]|].
      destruct (p_is_enum node) eqn:En;
       [destruct (enum_ok _ _ _); simpl; [apply cl_leaf; [right; auto|discriminate]|discriminate]|].
      assert (Me : forall l0 p, (forall c, In c l0 -> In c (p_selection node)) ->
        match fst (members st node (VObj m) dp l0 p) with
        | Ok m' => Forall (fun kv => exists c, In c (p_selection node) /\ fst kv = p_output c /\
                             (p_name c = "__typename" /\ (exists t, snd kv = VStr t) \/ Clean c (snd kv))) m'
        | Err e => e <> EPanic
        end).
      { induction l0 as [|c t IHt]; intros q Sub; [constructor|]. rewrite members_cons.
        assert (Subt : forall c0, In c0 t -> In c0 (p_selection node)) by (intros; apply Sub; right; auto).
        destruct (_ && _); [|apply IHt; exact Subt].
        assert (C : In c (p_selection node)) by (apply Sub; left; reflexivity).
        destruct (String.eqb_spec (p_name c) "__typename") as [Tn|Tn].
        - unfold mret at 1. specialize (IHt q Subt).
          destruct (members st node (VObj m) dp t q) as [[xs|e] q2]; [|exact IHt]. simpl in IHt |- *.
          constructor; [|exact IHt]. exists c. split; [exact C|]. split; [reflexivity|]. left. split; [exact Tn|]. eexists; reflexivity.
        - assert (Fc : match fst (iter_with st (synth_node st c) c (get_key (p_name c) (VObj m)) dp None q) with
                       | Ok y => (p_name c = "__typename" /\ exists r, None = Some r /\ y = VStr r) \/ Clean c y
                       | Err e => e <> EPanic
                       end).
          { rewrite Forall_forall in IH, Uc.
            assert (Kc : forall g, Within g c -> field_skip vars g = false)
              by (intros g G; apply K; eapply within_below; eauto).
            assert (Idc : In (p_id c) (plan_ids (p_selection node))).
            { apply in_flat_map. exists c. split; [exact C|]. rewrite field_ids_eq. left. reflexivity. }
            assert (Sub2 : forall i, In i (plan_ids (p_selection c)) -> In i (plan_ids (p_selection node))).
            { intros i I. apply in_flat_map. exists c. split; [exact C|]. rewrite field_ids_eq. right. exact I. }
            specialize (Uc c C).
            apply iter_fine.
            - intros sv S0. destruct L as [L|(W & Wk & St)]; [rewrite L in S0 by exact Idc; discriminate|].
              inversion St as [? ? F]; subst. rewrite Forall_forall in F. destruct (F c C) as [F1 F2].
              destruct (p_ir c) as [ir|] eqn:Qi; [|destruct (F2 eq_refl); congruence].
              destruct F1 as [F1 _]; [discriminate|]. assert (F1' : snd (execute_ir c (Some W)) = Ok sv) by congruence.
              eapply (execute_walk c W sv dp (VObj m)); [exact F1'|exact Wk|discriminate].
            - intros x q0 Src. apply IH; auto.
              destruct L as [L|(W & Wk & St)].
              + left. intros i I. apply L. auto.
              + inversion St as [? ? F]; subst. rewrite Forall_forall in F. destruct (F c C) as [F1 F2].
                destruct (p_ir c) as [ir|] eqn:Qi.
                * destruct F1 as [F1 F1']; [discriminate|]. destruct Src as [(sv & S0 & Wx)|[S0 _]]; [|congruence].
                  right. exists sv. split; [exact Wx|]. apply F1'. congruence.
                * destruct (F2 eq_refl) as [F3 F4]. destruct Src as [(sv & S0 & Wx)|[_ Gk]]; [congruence|].
                  destruct (plain_value_ok (E := E) c (Some W)) as (w & Pw). specialize (F4 w Pw).
                  inversion Uc as [? Al _]; subst. destruct (Al Qi) as [Al'|Al'].
                  -- right. exists w. split; [|exact F4].
                     rewrite (plain_walk c W w dp (VObj m) Pw Wk) by discriminate.
                     unfold key_or_null. now rewrite Al', Gk.
                  -- left. eapply stored_below_none; eauto. }
          destruct (iter_with st (synth_node st c) c (get_key (p_name c) (VObj m)) dp None q) as [[y|e] q1];
            [|exact Fc]. simpl in Fc.
          specialize (IHt q1 Subt).
          destruct (members st node (VObj m) dp t q1) as [[xs|e] q2]; [|exact IHt]. simpl in IHt |- *.
          constructor; [|exact IHt]. exists c. split; [exact C|]. split; [reflexivity|]. right.
          destruct Fc as [(_ & r & Z & _)|Fc]; [discriminate|exact Fc]. }
      unfold mbind. specialize (Me (p_selection node) p (fun c H => H)).
      destruct (members st node (VObj m) dp (p_selection node) p) as [[m'|e] q]; simpl in *; [|exact Me].
      now apply cl_object.
  Qed.

  (** *** Skipping keeps the hypotheses *)
  Lemma skip_in (l : list field) c : In c (skip_fields vars l) ->
    exists d, In d l /\ c = skip_inside vars d.
  Proof.
    induction l as [|d t IH]; simpl; [intros []|]. destruct (field_skip vars d).
    - intros I. destruct (IH I) as (e & H1 & H2). exists e. auto.
    - intros [<-|I]; [exists d; auto|]. destruct (IH I) as (e & H1 & H2). exists e. auto.
  Qed.

  Lemma skip_header_of (d : field) :
    p_ir (skip_inside vars d) = p_ir d /\ p_output (skip_inside vars d) = p_output d /\
    p_name (skip_inside vars d) = p_name d.
  Proof. destruct d. auto. Qed.

  Lemma skip_resolver_below : forall f : field, ResolverBelow (skip_inside vars f) -> ResolverBelow f.
  Proof.
    induction f as [f IH] using pfield_ind'. intros R.
    rewrite Forall_forall in IH. destruct (skip_inside_eq vars f) as [_ Hs].
    inversion R as [? c C Q|? c C Q]; subst; rewrite Hs in C; apply skip_in in C as (d & D & ->).
    - apply rb_here with (c := d); auto. now rewrite (proj1 (skip_header_of d)) in Q.
    - apply rb_below with (c := d); auto.
  Qed.

  Lemma skip_unaliased : forall f : field, Unaliased f -> Unaliased (skip_inside vars f).
  Proof.
    induction f as [f IH] using pfield_ind'. intros U. inversion U as [? A F]; subst.
    destruct (skip_header_of f) as (H1 & H2 & H3). destruct (skip_inside_eq vars f) as [_ Hs].
    constructor.
    - rewrite H1, H2, H3. intros Q. destruct (A Q) as [B|B]; [auto|]. right. intros R. apply B.
      now apply skip_resolver_below.
    - rewrite Hs. apply Forall_forall. intros c C. apply skip_in in C as (d & D & ->).
      rewrite Forall_forall in IH, F. auto.
  Qed.

  Lemma skip_fields_unaliased (l : list field) : Forall Unaliased l -> Forall Unaliased (skip_fields vars l).
  Proof.
    intros F. apply Forall_forall. intros c C. apply skip_in in C as (d & D & ->).
    rewrite Forall_forall in F. apply skip_unaliased. auto.
  Qed.

  (** *** The root *)
  Lemma aset_forall (P : string * value -> Prop) k v data :
    (forall v0, P (k, v0) -> True) -> P (k, v) -> Forall P data -> Forall P (aset k v data).
  Proof.
    intros _ Pk F. induction F as [|[k' v'] t X T IH]; simpl; [constructor; auto|].
    destruct (String.eqb_spec k k'); [subst|]; constructor; auto.
  Qed.

  Lemma root_stored (l : list field) c : NoDup (plan_ids l) -> In c l ->
    let st := store_of (exec_all implements resolve missing l) in
    (p_ir c <> None -> st (p_id c) = Some (snd (execute_ir c None)) /\
                       (forall v, snd (execute_ir c None) = Ok v -> Stored st c v)) /\
    (p_ir c = None -> st (p_id c) = None).
  Proof.
    intros ND C st0.
    assert (NDc : NoDup (field_ids c)).
    { clear -ND C. induction l as [|d t IHt]; [contradiction|].
      simpl in ND. apply NoDup_app_parts in ND as (A & B & _). destruct C as [->|C]; auto. }
    destruct (holds_stored st0 c None NDc) as [H1 H2].
    { eapply holds_child; eauto. now apply run_holds. }
    split; [exact H1|]. intros Q. now destruct (H2 Q).
  Qed.

  Lemma root_fine root (whole : list field) :
    NoDup (plan_ids whole) -> Forall Unaliased whole ->
    (forall f g, In f whole -> Within g f -> field_skip vars g = false) ->
    forall l data p, (forall c, In c l -> In c whole) -> Forall (CleanEntry whole) data ->
    match fst (synth_root (store_of (exec_all implements resolve missing whole)) root l data p) with
    | Ok out => exists m, out = VObj m /\ Forall (CleanEntry whole) m
    | Err e => e <> EPanic
    end.
  Proof.
    intros ND U K. induction l as [|c t IH]; intros data p Sub D; [simpl; eauto|]. cbn [PlanModel.synth_root].
    assert (C : In c whole) by (apply Sub; left; reflexivity).
    assert (Subt : forall c0, In c0 t -> In c0 whole) by (intros; apply Sub; right; auto).
    rewrite (K c c C (within_here c)). unfold mbind.
    destruct (root_stored whole c ND C) as [S1 S2].
    set (st := store_of (exec_all implements resolve missing whole)) in *.
    assert (Fc : match fst (iter_with st (synth_node st c) c None [] (Some root) p) with
                 | Ok y => (p_name c = "__typename" /\ exists r, Some root = Some r /\ y = VStr r) \/ Clean c y
                 | Err e => e <> EPanic
                 end).
    { apply iter_fine.
      - intros sv _. exists sv. reflexivity.
      - intros x q Src. rewrite Forall_forall in U. apply synth_fine; auto.
        + intros g G. apply (K c); auto.
        + destruct Src as [(sv & S0 & Wx)|[_ Q]]; [|discriminate].
          simpl in Wx. inv Wx. right. exists x. split; [reflexivity|].
          destruct (p_ir c) as [ir|] eqn:Qi; [|rewrite (S2 eq_refl) in S0; discriminate].
          destruct S1 as [S1 S1']; [discriminate|]. apply S1'. congruence. }
    destruct (iter_with st (synth_node st c) c None [] (Some root) p) as [[y|e] q]; [|exact Fc].
    simpl in Fc. apply IH; [exact Subt|]. apply aset_forall; auto.
    exists c. split; [exact C|]. split; [reflexivity|]. simpl.
    destruct Fc as [(N & r & _ & ->)|Fc]; [left; eauto|right; exact Fc].
  Qed.

  Lemma run_fine root (sel : list field) :
    NoDup (plan_ids sel) -> Forall Unaliased sel ->
    match snd (run implements resolve missing validate enum_value root vars sel) with
    | Ok out => exists m, out = VObj m /\ Forall (CleanEntry (skip_fields vars sel)) m
    | Err e => e <> EPanic
    end.
  Proof.
    intros ND U. unfold run, synthesize. cbn [snd]. apply root_fine.
    - now apply skip_ids_nodup.
    - now apply skip_fields_unaliased.
    - intros f g F G. eapply skip_fields_kept; eauto.
    - auto.
    - constructor.
  Qed.

  (** A root resolver answering null for a non-null named type. *)
  Lemma root_null_error root (whole : list field) c n :
    NoDup (plan_ids whole) -> In c whole -> field_skip vars c = false ->
    p_ir c <> None -> p_type c = TNamed n true ->
    snd (execute_ir c None) = Ok VNull ->
    forall l data p, In c l ->
    exists e, fst (synth_root (store_of (exec_all implements resolve missing whole)) root l data p) = Err e.
  Proof.
    intros ND C K Q Ty R. destruct (root_stored whole c ND C) as [S1 _]. destruct (S1 Q) as [S0 _].
    set (st := store_of (exec_all implements resolve missing whole)) in *.
    induction l as [|d t IH]; intros data p I; [contradiction|]. cbn [PlanModel.synth_root].
    destruct (field_skip vars d) eqn:Kd.
    - destruct I as [->|I]; [congruence|auto].
    - unfold mbind. destruct (iter_with st (synth_node st d) d None [] (Some root) p) as [[y|e] q] eqn:It;
        [|eexists; reflexivity].
      destruct I as [->|I]; [exfalso|auto].
      unfold iter_with, mbind, mpush in It. rewrite S0, R in It. cbn [walk] in It. rewrite Ty in It.
      cbn [is_list is_array as_array Bool.eqb] in It. rewrite synth_node_eq, K, Ty in It. discriminate.
  Qed.

  (** ** Error locations *)

  Definition located (node : field) (p : list segment)
             (res : result value (synth_error (E := E)) * list segment) : Prop :=
    match fst res with
    | Ok _ => snd res = p
    | Err e => forall i path, error_location e = Some (i, path) ->
                 exists suffix, path = rev p ++ suffix /\ Locates node suffix i
    end.

  (** Resolvers answer lists exactly for list-typed fields. *)
  Definition ListsAsTyped : Prop :=
    forall c v x, resolve c v = Ok x -> is_array x = is_list (p_type c).

  Lemma execute_walk_typed (c : field) W sv dp m :
    ListsAsTyped -> snd (execute_ir c (Some W)) = Ok sv -> walk dp W = WFound (VObj m) ->
    part_of_value c (VObj m) = true ->
    exists x, walk dp sv = WFound x /\ is_array x = is_list (p_type c).
  Proof.
    intros T P Wk A. destruct W as [| | | | |l|m0];
      try (destruct dp; simpl in Wk; [|discriminate]; try discriminate).
    - unfold PlanModel.execute_ir in P. apply (execute_list_shape _ _ (call_ir resolve c None) missing) in P.
      destruct (lifted_walk _ _ _ P dp (VObj m) Wk ltac:(discriminate)) as (v' & Wk' & [(_ & H)|(H & _)]);
        [|congruence].
      exists v'. split; [exact Wk'|]. simpl in H. eapply T; eauto.
    - inv Wk. exists sv. split; [reflexivity|]. simpl in P. eapply T; eauto.
  Qed.

  Lemma guard_located (c : field) root p0 p node :
    node = c -> p = p0 -> located node p (nullable_guard (E := E) c root p0).
  Proof.
    intros -> ->. unfold nullable_guard, located.
    assert (X : match (if is_nullable (p_type c) then mret VNull else mfail (ERequired (p_id c))) p0 with
                | (Ok _, q) => q = p0
                | (Err e, _) => forall i path, error_location (E := E) e = Some (i, path) ->
                     exists suffix, path = rev p0 ++ suffix /\ Locates c suffix i
                end).
    { destruct (is_nullable (p_type c)); simpl; [reflexivity|]. intros i path Q. inv Q.
      exists []. split; [now rewrite app_nil_r|constructor]. }
    destruct root as [r|].
    - destruct (String.eqb (p_name c) "__typename"); [reflexivity|].
      destruct ((if is_nullable (p_type c) then mret VNull else mfail (ERequired (p_id c))) p0) as [[|] q]; exact X.
    - destruct ((if is_nullable (p_type c) then mret VNull else mfail (ERequired (p_id c))) p0) as [[|] q]; exact X.
  Qed.

  (** [iter] restores the path, or locates its error below the pushed segment. *)
  Lemma iter_located (st : store) (c : field) v dp root p :
    (forall sv, st (p_id c) = Some (Ok sv) ->
                exists x, walk dp sv = WFound x /\ is_array x = is_list (p_type c)) ->
    (forall x p, (exists sv, st (p_id c) = Some (Ok sv) /\ walk dp sv = WFound x) \/
                 (st (p_id c) = None /\ v = Some x) ->
                 located c p (synth_node st c x dp p)) ->
    match iter_with st (synth_node st c) c v dp root p with
    | (Ok _, q) => q = p
    | (Err e, _) => forall i path, error_location e = Some (i, path) ->
          exists suffix, path = rev p ++ SField (p_output c) :: suffix /\ Locates c suffix i
    end.
  Proof.
    intros NA I.
    assert (Fin : forall m, located c (SField (p_output c) :: p) m ->
              match (let '(r, p') := m in (r, snd (mpop (E := E) p'))) with
              | (Ok _, q) => q = p
              | (Err e, _) => forall i path, error_location e = Some (i, path) ->
                 exists suffix, path = rev p ++ SField (p_output c) :: suffix /\ Locates c suffix i
              end).
    { intros [[a|e] q] L; unfold located in L; simpl in L.
      - subst q. reflexivity.
      - intros i path Q. destruct (L i path Q) as (suffix & -> & Lo). exists suffix. split; [|exact Lo].
        now rewrite <- app_assoc. }
    unfold iter_with, mbind, mpush.
    destruct (st (p_id c)) as [[sv|e]|] eqn:S0.
    - destruct (NA sv eq_refl) as (x & Wx & B). rewrite Wx, B, Bool.eqb_reflx.
      apply Fin. apply I. left. eauto.
    - intros i path Q. discriminate.
    - destruct v as [x|].
      + apply Fin. apply I. right. auto.
      + apply Fin. now apply guard_located.
  Qed.

  Lemma synth_located (st : store) : ListsAsTyped -> forall node,
    Unaliased node ->
    (forall g, Within g node -> field_skip vars g = false) ->
    forall v dp p, Linked st node v dp -> located node p (synth_node st node v dp p).
  Proof.
    intros T. induction node as [node IH] using pfield_ind'. intros U K.
    assert (Kn : field_skip vars node = false) by (apply K; constructor).
    inversion U as [? _ Uc]; subst.
    assert (Here : forall p mk,
      (forall path, exists i, error_location (mk path) = Some (i, path) /\ i = p_id node) ->
      located node p (mfail (A := value) mk p)).
    { intros p mk Hm. unfold located, mfail. simpl. intros i path Q.
      destruct (Hm (rev p)) as (i' & Q' & ->). rewrite Q' in Q. inv Q.
      exists []. split; [now rewrite app_nil_r|constructor]. }
    assert (H1 : forall p, located node p (mfail (A := value) (ERequired (p_id node)) p))
      by (intros p; apply Here; intros path; simpl; eauto).
    assert (H2 : forall p t, located node p (mfail (A := value) (EScalar (p_id node) t) p))
      by (intros p t; apply Here; intros path; simpl; eauto).
    assert (H3 : forall p t, located node p (mfail (A := value) (EEnum (p_id node) t) p))
      by (intros p t; apply Here; intros path; simpl; eauto).
    assert (H0 : forall p x, located node p (mret x p)) by (intros; reflexivity).
    intros v. induction v as [| | | | |l IHl|m _] using value_ind'; intros dp p L;
      rewrite synth_node_eq, Kn; cbn [is_null].
    1:{ destruct (null_allowed (p_type node)); auto. }
    1,2,3,4: (destruct (p_scalar node); [destruct (validate _ _); auto|];
              destruct (p_is_enum node); [destruct (enum_ok _ _ _); auto|]; auto).
    - destruct (p_scalar node); [destruct (validate _ _); auto|].
      destruct (p_is_enum node); [destruct (enum_ok _ _ _); auto|].
      assert (El : forall i l0 p,
        (forall j x, nth_error l0 j = Some x -> Linked st node x (dp ++ [i + j])) ->
        Forall (fun v => forall dp p, Linked st node v dp -> located node p (synth_node st node v dp p)) l0 ->
        match elements (synth_node st node) dp i l0 p with
        | (Ok _, q) => q = p
        | (Err e, _) => forall i path, error_location e = Some (i, path) ->
             exists suffix, path = rev p ++ suffix /\ Locates node suffix i
        end).
      { intros i l0. revert i. induction l0 as [|x t IHt]; intros i q Lk F; [reflexivity|].
        inversion F as [|? ? Fx Ft]; subst. rewrite elements_cons.
        assert (Lx : Linked st node x (dp ++ [i])).
        { specialize (Lk 0 x eq_refl). now rewrite Nat.add_0_r in Lk. }
        specialize (Fx (dp ++ [i]) (SIndex i :: q) Lx). unfold located in Fx.
        destruct (synth_node st node x (dp ++ [i]) (SIndex i :: q)) as [[y|e] q1] eqn:Sy; cbn [fst snd] in Fx.
        - subst q1. cbn [mpop snd].
          assert (Lt : forall j z, nth_error t j = Some z -> Linked st node z (dp ++ [S i + j])).
          { intros j z Hz. specialize (Lk (S j) z Hz). now rewrite <- plus_n_Sm in Lk. }
          specialize (IHt (S i) q Lt Ft).
          destruct (elements (synth_node st node) dp (S i) t q) as [[ys|e] q2]; exact IHt.
        - intros i' path Q. destruct (Fx i' path Q) as (suffix & -> & Lo).
          exists (SIndex i :: suffix). split; [simpl; now rewrite <- app_assoc|now constructor]. }
      unfold mbind, located. specialize (El 0 l p).
      assert (Lk : forall j x, nth_error l j = Some x -> Linked st node x (dp ++ [0 + j])).
      { intros j x Hx. destruct L as [L|(W & Wk & St)]; [left; exact L|].
        right. exists W. split; [|exact St]. eapply walk_snoc; eauto. }
      specialize (El Lk IHl).
      destruct (elements (synth_node st node) dp 0 l p) as [[l'|e] q]; exact El.
    - destruct (p_scalar node); [destruct (validate _ _); auto|].
      destruct (p_is_enum node); [destruct (enum_ok _ _ _); auto|].
      assert (Me : forall l0 p, (forall c, In c l0 -> In c (p_selection node)) ->
        match members st node (VObj m) dp l0 p with
        | (Ok _, q) => q = p
        | (Err e, _) => forall i path, error_location e = Some (i, path) ->
             exists suffix, path = rev p ++ suffix /\ Locates node suffix i
        end).
      { induction l0 as [|c t IHt]; intros q Sub; [reflexivity|]. rewrite members_cons.
        assert (Subt : forall c0, In c0 t -> In c0 (p_selection node)) by (intros; apply Sub; right; auto).
        destruct (part_of_value c (VObj m)) eqn:Pt; cbn [andb]; [|apply IHt; exact Subt].
        destruct (negb (field_skip vars c)); [|apply IHt; exact Subt].
        assert (C : In c (p_selection node)) by (apply Sub; left; reflexivity).
        destruct (String.eqb_spec (p_name c) "__typename") as [Tn|Tn].
        - unfold mret at 1. specialize (IHt q Subt).
          destruct (members st node (VObj m) dp t q) as [[xs|e] q2]; exact IHt.
        - assert (Fc := iter_located st c (get_key (p_name c) (VObj m)) dp None q).
          destruct (iter_with st (synth_node st c) c (get_key (p_name c) (VObj m)) dp None q) as [[y|e] q1].
          + rewrite Fc; clear Fc.
            * specialize (IHt q Subt).
              destruct (members st node (VObj m) dp t q) as [[xs|e] q2]; exact IHt.
            * intros sv S0. destruct L as [L|(W & Wk & St)].
              { assert (Idc : In (p_id c) (plan_ids (p_selection node)))
                  by (apply in_flat_map; exists c; split; [exact C|rewrite field_ids_eq; left; reflexivity]).
                rewrite L in S0 by exact Idc. discriminate. }
              inversion St as [? ? F]; subst. rewrite Forall_forall in F. destruct (F c C) as [F1 F2].
              destruct (p_ir c) as [ir|] eqn:Qi; [|destruct (F2 eq_refl); congruence].
              destruct F1 as [F1 _]; [discriminate|].
              eapply (execute_walk_typed c W sv dp m T); [congruence|exact Wk|exact Pt].
            * intros x q0 Src. rewrite Forall_forall in IH, Uc.
              apply IH; auto; [intros g G; apply K; eapply within_below; eauto|].
              eapply linked_child; eauto.
          + intros i path Q.
            destruct (Fc) with (i := i) (path := path) as (suffix & -> & Lo); clear Fc.
            * intros sv S0. destruct L as [L|(W & Wk & St)].
              { assert (Idc : In (p_id c) (plan_ids (p_selection node)))
                  by (apply in_flat_map; exists c; split; [exact C|rewrite field_ids_eq; left; reflexivity]).
                rewrite L in S0 by exact Idc. discriminate. }
              inversion St as [? ? F]; subst. rewrite Forall_forall in F. destruct (F c C) as [F1 F2].
              destruct (p_ir c) as [ir|] eqn:Qi; [|destruct (F2 eq_refl); congruence].
              destruct F1 as [F1 _]; [discriminate|].
              eapply (execute_walk_typed c W sv dp m T); [congruence|exact Wk|exact Pt].
            * intros x q0 Src. rewrite Forall_forall in IH, Uc.
              apply IH; auto; [intros g G; apply K; eapply within_below; eauto|].
              eapply linked_child; eauto.
            * exact Q.
            * exists (SField (p_output c) :: suffix). split; [reflexivity|]. apply loc_field; auto. }
      unfold mbind, located. specialize (Me (p_selection node) p (fun c H => H)).
      destruct (members st node (VObj m) dp (p_selection node) p) as [[m'|e] q]; exact Me.
  Qed.

  Lemma root_located root (whole : list field) :
    ListsAsTyped ->
    NoDup (plan_ids whole) -> Forall Unaliased whole ->
    (forall f g, In f whole -> Within g f -> field_skip vars g = false) ->
    forall l data e i path, (forall c, In c l -> In c whole) ->
    fst (synth_root (store_of (exec_all implements resolve missing whole)) root l data []) = Err e ->
    error_location e = Some (i, path) ->
    exists c suffix, In c whole /\ path = SField (p_output c) :: suffix /\ Locates c suffix i.
  Proof.
    intros T ND U K. induction l as [|c t IH]; intros data e i path Sub H Q; [discriminate|].
    cbn [PlanModel.synth_root] in H.
    assert (C : In c whole) by (apply Sub; left; reflexivity).
    assert (Subt : forall c0, In c0 t -> In c0 whole) by (intros; apply Sub; right; auto).
    rewrite (K c c C (within_here c)) in H. unfold mbind in H.
    destruct (root_stored whole c ND C) as [S1 S2].
    set (st := store_of (exec_all implements resolve missing whole)) in *.
    assert (Fc := iter_located st c None [] (Some root) []).
    assert (A1 : forall sv, st (p_id c) = Some (Ok sv) ->
                exists x, walk [] sv = WFound x /\ is_array x = is_list (p_type c)).
    { intros sv S0. exists sv. split; [reflexivity|].
      destruct (p_ir c) as [ir|] eqn:Qi; [|rewrite (S2 eq_refl) in S0; discriminate].
      destruct S1 as [S1 _]; [discriminate|]. apply (T c None).
      assert (X : snd (execute_ir c None) = Ok sv) by congruence. exact X. }
    specialize (Fc A1).
    assert (A2 : forall x p,
      (exists sv, st (p_id c) = Some (Ok sv) /\ walk [] sv = WFound x) \/ (st (p_id c) = None /\ None = Some x) ->
      located c p (synth_node st c x [] p)).
    { intros x q Src. rewrite Forall_forall in U. apply synth_located; auto.
      - intros g G. apply (K c); auto.
      - destruct Src as [(sv & S0 & Wx)|[_ Z]]; [|discriminate].
        simpl in Wx. inv Wx. right. exists x. split; [reflexivity|].
        destruct (p_ir c) as [ir|] eqn:Qi; [|rewrite (S2 eq_refl) in S0; discriminate].
        destruct S1 as [S1 S1']; [discriminate|]. apply S1'. congruence. }
    specialize (Fc A2).
    destruct (iter_with st (synth_node st c) c None [] (Some root) []) as [[y|e0] q].
    - subst q. eapply IH; eauto.
    - simpl in H. inv H. destruct (Fc i path Q) as (suffix & -> & Lo). exists c, suffix. auto.
  Qed.

  Lemma run_located root (sel : list field) e i path :
    ListsAsTyped -> NoDup (plan_ids sel) -> Forall Unaliased sel ->
    snd (run implements resolve missing validate enum_value root vars sel) = Err e ->
    error_location e = Some (i, path) ->
    exists c suffix, In c (skip_fields vars sel) /\ path = SField (p_output c) :: suffix /\ Locates c suffix i.
  Proof.
    intros T ND U. unfold run, synthesize. cbn [snd]. intros H Q. eapply root_located; eauto.
    - now apply skip_ids_nodup.
    - now apply skip_fields_unaliased.
    - intros f g F G. eapply skip_fields_kept; eauto.
  Qed.
End Facts.
