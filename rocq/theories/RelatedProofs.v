From Coq Require Import String Ascii Bool Lia List.
From Verif Require Import Base BaseFacts RequestModel GqlModel RequestSpec RequestProofs.
Import ListNotations.
Open Scope list_scope.

(** Everything below a type is there. *)
Inductive complete (c : gconfig) : string -> related -> Prop :=
| complete_scalar T : aget T (g_types c) = None -> complete c T (Related [])
| complete_type T fields r :
    aget T (g_types c) = Some fields ->
    (forall n f, In (n, f) fields -> exists r', related_get r n = Some (n, r') /\ complete c (cf_type f) r') ->
    complete c T r.

Definition leaf (c : gconfig) (x : string) : Prop := aget x (g_types c) = None.

Section Related.
  Variable c : gconfig.

  Definition goal (rec : string -> list string -> related * list string) (n : nat) : Prop :=
    forall T l vis, unfolds c T l -> NoDup l -> length l <= n -> (forall x, In x l -> ~ In x vis) ->
    complete c T (fst (rec T vis)) /\
    forall x, In x (snd (rec T vis)) -> In x vis \/ In x l \/ leaf c x.

  Lemma fields_complete rec n : goal rec n -> forall fields ls m vis,
    Forall2 (fun nf l => unfolds c (cf_type (snd nf)) l) fields ls ->
    (forall k f, In (k, f) fields -> cf_resolver f = false /\ cf_modify f = None) ->
    NoDup (map fst fields) -> NoDup (concat ls) -> length (concat ls) <= n ->
    (forall x, In x (concat ls) -> ~ In x vis) ->
    let r := fold_left (related_field rec) fields (m, vis) in
    (forall k, ~ In k (map fst fields) -> aget k (fst r) = aget k m) /\
    (forall k f, In (k, f) fields -> exists r', aget k (fst r) = Some (k, r') /\ complete c (cf_type f) r') /\
    (forall x, In x (snd r) -> In x vis \/ In x (concat ls) \/ leaf c x).
  Proof.
    intros G fields. induction fields as [|[k f] fields IH]; intros ls m vis F P N D L V; cbn zeta.
    - inversion F; subst. cbn. repeat split; auto. intros k f [].
    - inversion F as [|a l0 b ls' U F' E1 E2]; subst. cbn [fold_left].
      destruct (P k f (or_introl eq_refl)) as [P1 P2].
      assert (E : related_field rec (m, vis) (k, f) = let '(r, v) := rec (cf_type f) vis in (aset k (k, r) m, v))
        by (unfold related_field; now rewrite P1, P2).
      rewrite E. clear E. cbn [snd] in U.
      cbn [concat] in D, L, V. rewrite app_length in L.
      assert (D1 : NoDup l0 /\ NoDup (concat ls') /\ forall x, In x l0 -> ~ In x (concat ls')).
      { clear -D. induction l0 as [|a l0 IH]; cbn in D.
        - repeat split; [constructor|exact D|intros x []].
        - inversion D as [|? ? A B]; subst. destruct (IH B) as (X & Y & Z). repeat split; [|exact Y|].
          + constructor; [|exact X]. intros I. apply A. apply in_app_iff. now left.
          + intros x [<-|I] J; [apply A; apply in_app_iff; now right|exact (Z x I J)]. }
      destruct D1 as (D1 & D2 & D3).
      destruct (G (cf_type f) l0 vis U D1) as [G1 G2]; [lia|intros x I; apply V; apply in_app_iff; now left|].
      destruct (rec (cf_type f) vis) as [r0 vis0]. cbn [fst snd] in G1, G2.
      inversion N as [|? ? N1 N2]; subst.
      destruct (IH ls' (aset k (k, r0) m) vis0) as (H1 & H2 & H3); auto.
      + intros k' f' I. apply (P k' f'). now right.
      + lia.
      + intros x I J. destruct (G2 x J) as [K|[K|K]].
        * apply (V x); [apply in_app_iff; now right|exact K].
        * exact (D3 x K I).
        * (* an object type is no leaf *)
          clear -I K F'. apply in_concat in I as (l & J & I).
          assert (E : forall T l, unfolds c T l -> forall x, In x l -> ~ leaf c x).
          { clear. fix IH 3. intros T l U x I K. destruct U as [T _ _|T fields ls H _ _ F]; [destruct I|].
            destruct I as [<-|I]; [unfold leaf in K; congruence|]. clear H.
            induction F as [|a b fs ls A F IHF]; [destruct I|]. cbn in I. apply in_app_iff in I as [I|I]; [exact (IH _ _ A x I K)|exact (IHF I)]. }
          clear -J I K E F'. induction F' as [|a b fs ls A F IHF]; [destruct J|]. destruct J as [<-|J]; [exact (E _ _ A x I K)|exact (IHF J)].
      + repeat split.
        * intros k' I. cbn in I. rewrite H1 by tauto. apply aget_aset_other. intros ->. apply I. now left.
        * intros k' f' [[= <- <-]|I].
          -- exists r0. rewrite H1 by exact N1. split; [apply aget_aset_same|exact G1].
          -- now apply H2.
        * intros x I. destruct (H3 x I) as [J|[J|J]]; auto.
          -- destruct (G2 x J) as [K|[K|K]]; auto. right. left. cbn. apply in_app_iff. now left.
          -- right. left. cbn. apply in_app_iff. now right.
  Qed.

  Lemma create_complete n : goal (create_related n c) n.
  Proof.
    induction n as [|n IH]; intros T l vis U D L V.
    - destruct U as [T H1 H2|T fields ls]; [|cbn in L; lia].
      cbn. assert (X : complete c T (Related [])) by now constructor. destruct (smem T vis); cbn; auto.
    - cbn [create_related]. destruct U as [T H1 H2|T fields ls H N P F].
      + assert (X : complete c T (Related [])) by now constructor. destruct (smem T vis); cbn [fst snd]; [auto|].
        rewrite H1, H2. cbn. split; [exact X|]. intros x [<-|I]; auto.
      + assert (M : smem T vis = false) by (apply smem_false; apply V; now left). rewrite M, H.
        inversion D as [|? ? D1 D2]; subst.
        destruct (fields_complete _ _ IH fields ls [] (T :: vis) F P N D2) as (H1 & H2 & H3).
        * cbn in L. lia.
        * intros x I [<-|J]; [contradiction|]. apply (V x); [now right|exact J].
        * destruct (fold_left (related_field (create_related n c)) fields ([], T :: vis)) as [m vis']. cbn [fst snd] in *. split.
          -- econstructor; [exact H|]. intros k f I. cbn. now apply H2.
          -- intros x I. destruct (H3 x I) as [[<-|J]|[J|J]]; auto; right; left; [now left|now right].
  Qed.

  Lemma unfolds_types T l : unfolds c T l -> forall x, In x l -> In x (map fst (g_types c)).
  Proof.
    revert T l. fix IH 3. intros T l U x I. destruct U as [T _ _|T fields ls H _ _ F]; [destruct I|].
    destruct I as [<-|I]; [exact (aget_Some_key _ _ _ H)|]. clear H.
    induction F as [|a b fs ls A F IHF]; [destruct I|]. cbn in I. apply in_app_iff in I as [I|I]; [exact (IH _ _ A x I)|exact (IHF I)].
  Qed.

  Lemma related_complete T l : unfolds c T l -> NoDup l -> complete c T (related_fields c T).
  Proof.
    intros U D. unfold related_fields. refine (proj1 (create_complete _ T l [] U D _ _)); [|intros x _ []].
    pose proof (NoDup_incl_length D (unfolds_types T l U)) as L. rewrite map_length in L. lia.
  Qed.

  Lemma complete_covered f : forall rel, complete c (f_type f) rel -> selects c f -> covered rel f.
  Proof.
    induction f as [f IH] using gfield_nest. intros rel C S1. inversion S1 as [f' O H Ef]; subst f'. constructor; [exact O|].
    intros g I A. destruct (H g I A) as (fields & k & T1 & T2 & T3 & Sg).
    inversion C as [T E|T fs r E R]; subst; [congruence|]. assert (fs = fields) by congruence. subst fs.
    destruct (R (f_name g) k (aget_In _ _ _ T2)) as (r' & G & Cr). exists r'. split; [exact G|].
    apply IH; [exact I| |exact Sg]. now rewrite <- T3.
  Qed.
End Related.

Lemma selection_sent c f l : unfolds c (f_type f) l -> NoDup l -> selects c f ->
  format_selection_set (fun s => s) (s_selection (from_jit_field f)) (related_fields c (f_type f)) =
  selection_text (map client_text (filter (meant_for (f_type f)) (f_selection f))).
Proof. intros U D S1. apply selection_client. apply (complete_covered c); [now apply (related_complete c _ l)|exact S1]. Qed.

(** * Names *)
Definition public (nf : string * cfield) : option string :=
  if cf_resolver (snd nf) then None
  else match cf_modify (snd nf) with None => Some (fst nf) | Some o => o end.
Lemma related_field_public rec m vis nf :
  related_field rec (m, vis) nf =
  match public nf with
  | Some k => let '(r, v) := rec (cf_type (snd nf)) vis in (aset k (fst nf, r) m, v)
  | None => (m, vis)
  end.
Proof.
  destruct nf as [n f]. unfold related_field, public. cbn [fst snd]. destruct (cf_resolver f); [reflexivity|].
  destruct (cf_modify f) as [[k|]|]; reflexivity.
Qed.
Lemma public_offers c T fields n f k : aget T (g_types c) = Some fields -> In (n, f) fields -> public (n, f) = Some k -> offers c T k n.
Proof.
  intros H I P. unfold public in P. cbn [fst snd] in P. destruct (cf_resolver f) eqn:R; [discriminate|].
  eapply offers_field; eauto. destruct (cf_modify f); [right; congruence|left; split; congruence].
Qed.

Lemma fold_fields_names rec : forall fields m vis k n r,
  aget k (fst (fold_left (related_field rec) fields (m, vis))) = Some (n, r) ->
  (exists r', aget k m = Some (n, r')) \/ exists f, In (n, f) fields /\ public (n, f) = Some k.
Proof.
  induction fields as [|[n0 f0] fields IH]; intros m vis k n r H; [left; eauto|].
  cbn [fold_left] in H. rewrite related_field_public in H. destruct (public (n0, f0)) as [k0|] eqn:P.
  - destruct (rec (cf_type (snd (n0, f0))) vis) as [r0 v0]. cbn [fst] in H. apply IH in H as [[r' H]|(f & I & Q)]; [|right; exists f; split; [now right|auto]].
    destruct (String.eqb_spec k k0) as [->|D].
    + rewrite aget_aset_same in H. injection H as <- <-. right. exists f0. split; [now left|auto].
    + rewrite aget_aset_other in H by auto. left. eauto.
  - apply IH in H as [H|(f & I & Q)]; [auto|]. right. exists f. split; [now right|auto].
Qed.
Lemma create_names c : forall fuel T vis k n r,
  related_get (fst (create_related fuel c T vis)) k = Some (n, r) -> offers c T k n.
Proof.
  induction fuel as [|fuel IH]; intros T vis k n r H; cbn [create_related] in H.
  - destruct (smem T vis); discriminate.
  - destruct (smem T vis); [discriminate|]. destruct (aget T (g_types c)) as [fields|] eqn:Ht.
    + destruct (fold_left (related_field (create_related fuel c)) fields ([], T :: vis)) as [m v] eqn:F. cbn in H.
      pose proof (fold_fields_names (create_related fuel c) fields [] (T :: vis) k n r) as X. rewrite F in X. cbn [fst] in X.
      destruct (X H) as [[r' Y]|(f & I & P)]; [discriminate|]. now apply (public_offers c T fields n f).
    + destruct (aget T (g_unions c)) as [members|] eqn:Hu; [|discriminate].
      set (step := fun acc t => let '(m, visited) := acc in let '(Related r, visited) := create_related fuel c t visited in
        (fold_left (fun m kv => aset (fst kv) (snd kv) m) r m, visited)) in H.
      assert (G : forall ms (m : list (string * (string * related))) v, (forall k n r, aget k m = Some (n, r) -> exists U, In U members /\ offers c U k n) -> incl ms members ->
        forall k n r, aget k (fst (fold_left step ms (m, v))) = Some (n, r) -> exists U, In U members /\ offers c U k n).
      { induction ms as [|U ms IHm]; intros m v A In_ k' n' r' H'; [eauto|]. cbn [fold_left] in H'. unfold step in H' at 2.
        destruct (create_related fuel c U v) as [[rm] v'] eqn:CU. eapply IHm; [| |exact H'].
        - assert (B : forall l (m : list (string * (string * related))), (forall k n r, aget k m = Some (n, r) -> exists U, In U members /\ offers c U k n) ->
            (forall k n r, In (k, (n, r)) l -> exists U, In U members /\ offers c U k n) ->
            forall k n r, aget k (fold_left (fun m kv => aset (fst kv) (snd kv) m) l m) = Some (n, r) -> exists U, In U members /\ offers c U k n).
          { clear. induction l as [|[k0 [n0 r0]] l IHl]; intros m A B k n r H; [eauto|]. cbn [fold_left fst snd] in H. eapply IHl; [| |exact H].
            - intros k1 n1 r1 H1. destruct (String.eqb_spec k1 k0) as [->|D].
              + rewrite aget_aset_same in H1. injection H1 as <- <-. eapply B. now left.
              + rewrite aget_aset_other in H1 by auto. eauto.
            - intros k1 n1 r1 I. eapply B. right. exact I. }
          apply B; [exact A|]. intros k1 n1 r1 I. exists U. split; [apply In_; now left|].
          destruct (aget k1 rm) as [[n2 r2]|] eqn:G1.
          + assert (E : n2 = n1 /\ r2 = r1).
            { assert (NDk : forall fuel T vis, NoDup (map fst (match fst (create_related fuel c T vis) with Related m => m end))).
              { clear. assert (Nd : forall k (x : string * related) m, NoDup (map fst m) -> NoDup (map fst (aset k x m))).
                { intros k x. induction m as [|[k0 x0] m IHm]; intros N; cbn; [constructor; [intros []|constructor]|].
                  inversion N as [|? ? N1 N2]; subst. destruct (String.eqb_spec k k0) as [->|D]; cbn; [now constructor|].
                  constructor; [|auto]. intros I. apply in_map_iff in I as ([k1 x1] & <- & I). cbn in N1.
                  assert (In (fst (k1, x1)) (map fst (aset k x m))) as I' by (apply in_map; exact I). cbn in I'.
                  apply N1. clear -I' D. induction m as [|[k2 x2] m IH]; cbn in *; [destruct I' as [->|[]]; contradiction|].
                  destruct (String.eqb_spec k k2) as [->|D2]; cbn in I'; [exact I'|]. destruct I' as [->|I']; auto. }
                induction fuel as [|fuel IH]; intros T vis; cbn [create_related]; [destruct (smem T vis); constructor|].
                destruct (smem T vis); [constructor|]. destruct (aget T (g_types c)) as [fields|].
                - assert (Fo : forall fields m v, NoDup (map fst m) -> NoDup (map fst (fst (fold_left (related_field (create_related fuel c)) fields (m, v))))).
                  { induction fields0 as [|nf fs IHf]; intros m v N; [exact N|]. cbn [fold_left]. rewrite related_field_public.
                    destruct (public nf) as [k|]; [|auto]. destruct (create_related fuel c (cf_type (snd nf)) v) as [r0 v0]. apply IHf. now apply Nd. }
                  pose proof (Fo fields [] (T :: vis) (NoDup_nil _)) as X.
                  destruct (fold_left (related_field (create_related fuel c)) fields ([], T :: vis)) as [m v]. exact X.
                - destruct (aget T (g_unions c)) as [members|]; [|constructor].
                  assert (Fl : forall l m, NoDup (map fst m) -> NoDup (map fst (fold_left (fun (m : list (string * (string * related))) kv => aset (fst kv) (snd kv) m) l m))).
                  { induction l as [|kv l IHl]; intros m N; [exact N|]. cbn [fold_left]. apply IHl. now apply Nd. }
                  match goal with |- context [fold_left ?st members _] => set (step := st) end.
                  assert (Fo : forall ms m v, NoDup (map fst m) -> NoDup (map fst (fst (fold_left step ms (m, v))))).
                  { induction ms as [|U ms IHm]; intros m v N; [exact N|]. cbn [fold_left]. unfold step at 2.
                    destruct (create_related fuel c U v) as [[rm] v']. apply IHm. now apply Fl. }
                  pose proof (Fo members [] (T :: vis) (NoDup_nil _)) as X.
                  destruct (fold_left step members ([], T :: vis)) as [m v]. exact X. }
              pose proof (NDk fuel U v) as X. rewrite CU in X. cbn [fst] in X. clear -I G1 X.
              induction rm as [|[k3 x3] rm IH]; [destruct I|]. inversion X as [|? ? X1 X2]; subst. cbn in G1. destruct I as [E|I].
              - injection E as -> ->. rewrite String.eqb_refl in G1. injection G1 as <- <-. auto.
              - destruct (String.eqb_spec k1 k3) as [->|D]; [|auto]. destruct X1. apply in_map_iff. now exists (k3, (n1, r1)). }
            destruct E as [-> ->]. apply (IH U v k1 n1 r1). rewrite CU. exact G1.
          + exfalso. clear -I G1. induction rm as [|[k3 x3] rm IH]; [destruct I|]. cbn in G1. destruct I as [E|I].
            * injection E as -> ->. rewrite String.eqb_refl in G1. discriminate.
            * destruct (String.eqb k1 k3); [discriminate|auto].
        - intros x I. apply In_. now right. }
      destruct (fold_left step members ([], T :: vis)) as [m v] eqn:F. cbn in H.
      specialize (G members [] (T :: vis)). rewrite F in G. destruct (G (fun k n r (X : aget k [] = Some (n, r)) => ltac:(discriminate X)) (incl_refl _) k n r H) as (U & I & O).
      eapply offers_member; eauto.
Qed.

Lemma fold_fields_asked rec : forall fields m vis k n f,
  In (n, f) fields -> public (n, f) = Some k ->
  (forall n' f', In (n', f') fields -> public (n', f') = Some k -> n' = n) ->
  exists r, aget k (fst (fold_left (related_field rec) fields (m, vis))) = Some (n, r).
Proof.
  intros fields m vis k n f I P U.
  assert (G : forall fields m vis, (forall n' f', In (n', f') fields -> public (n', f') = Some k -> n' = n) ->
    (exists r, aget k m = Some (n, r)) -> exists r, aget k (fst (fold_left (related_field rec) fields (m, vis))) = Some (n, r)).
  { clear. induction fields as [|[n0 f0] fields IH]; intros m vis U H; [exact H|]. cbn [fold_left]. rewrite related_field_public.
    destruct (public (n0, f0)) as [k0|] eqn:P0; [|apply IH; auto; intros; eapply U; eauto; now right].
    destruct (rec (cf_type (snd (n0, f0))) vis) as [r0 v0]. cbn [fst]. apply IH; [intros; eapply U; eauto; now right|].
    destruct (String.eqb_spec k k0) as [->|D].
    - rewrite aget_aset_same. assert (n0 = n) as -> by (eapply U; eauto; now left). eauto.
    - now rewrite aget_aset_other. }
  revert m vis. induction fields as [|[n0 f0] fields IH]; intros m vis; [destruct I|]. cbn [fold_left].
  destruct I as [E|I].
  - injection E as -> ->. rewrite related_field_public, P. destruct (rec (cf_type (snd (n, f))) vis) as [r0 v0]. cbn [fst].
    apply G; [intros; eapply U; eauto; now right|]. rewrite aget_aset_same. eauto.
  - destruct (related_field rec (m, vis) (n0, f0)) as [m' v']. apply IH; [exact I|]. intros. eapply U; eauto. now right.
Qed.

Lemma related_names c T k n :
  ((exists r, related_get (related_fields c T) k = Some (n, r)) -> offers c T k n) /\
  (forall fields, aget T (g_types c) = Some fields -> (forall n', offers c T k n' -> n' = n) -> offers c T k n ->
     exists r, related_get (related_fields c T) k = Some (n, r)).
Proof.
  split.
  - intros [r H]. eapply create_names. exact H.
  - intros fields Ht U O. unfold related_fields. cbn [create_related smem existsb]. rewrite Ht.
    inversion O as [T' fs n' f k' H I R M|T' ms U' k' n' H]; subst; [|congruence]. assert (fs = fields) by congruence. subst fs.
    assert (P : public (n, f) = Some k).
    { unfold public. cbn [fst snd]. rewrite R. destruct M as [[-> ->]| ->]; reflexivity. }
    destruct (fold_fields_asked (create_related (length (g_types c) + length (g_unions c)) c) fields [] [T] k n f I P) as [r Hr].
    { intros n' f' I' P'. apply U. now apply (public_offers c T fields n' f'). }
    exists r. destruct (fold_left _ fields ([], [T])) as [m v]. exact Hr.
Qed.
