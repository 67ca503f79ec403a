(** Proofs about the hosts (C100). *)
From Coq Require Import String Ascii NArith Bool List Lia.
From Verif Require Import Base BaseFacts StringFacts JsonModel HoModel HoSpec.
Import ListNotations.
Open Scope string_scope.
Open Scope list_scope.

Lemma known_ok : forall m, smem m known_methods = true <-> In m http_methods.
Proof. intro m. rewrite smem_In. unfold known_methods, http_methods. simpl. tauto. Qed.
Lemma joined_ok : forall l, joined l (join_with "/" l).
Proof.
  induction l as [|x l IH]; [constructor|]. destruct l as [|y l]; [constructor|].
  change (join_with "/" (x :: y :: l)) with (x ++ "/" ++ join_with "/" (y :: l))%string. constructor. exact IH.
Qed.
Lemma joined_fun : forall l a, joined l a -> forall b, joined l b -> a = b.
Proof.
  induction 1; intros b J; inversion J; subst; try reflexivity. f_equal. f_equal. apply IHjoined. assumption.
Qed.
Lemma values_ok : forall k l, values_of k l (map snd (filter (fun kv => String.eqb (fst kv) k) l)).
Proof.
  intros k l. induction l as [|[j v] l IH]; simpl; [constructor|].
  destruct (String.eqb_spec j k) as [E|N]; simpl; [subst j|]; constructor; assumption.
Qed.
Lemma values_fun : forall k l a, values_of k l a -> forall b, values_of k l b -> a = b.
Proof.
  induction 1; intros b V; inversion V; subst; try reflexivity; try congruence; try (f_equal; auto); auto.
Qed.
Lemma append_headers_ok : forall utf8 l acc, append_headers utf8 acc l = if forallb (fun kv => utf8 (snd kv)) l then Some (acc ++ l) else None.
Proof.
  intros utf8 l. induction l as [|[k v] l IH]; intro acc; simpl; [rewrite app_nil_r; reflexivity|].
  destruct (utf8 v); [|reflexivity]. simpl. rewrite IH. destruct (forallb _ l); [|reflexivity]. rewrite <- app_assoc. reflexivity.
Qed.

Section Contexts.
  Context {World Ctx : Type}.
  Variable params : string -> option (list (string * string)).
  Variable make : World -> string -> created Ctx.
  Hypothesis K : keys_once params.
  Lemma path_names : forall q f, file_path params q = Some f <-> names params q f.
  Proof.
    intros q f. split.
    - unfold file_path. destruct q as [q|]; [|discriminate]. destruct (params q) as [l|] eqn:P; [|discriminate].
      intro A. exists q, l. split; [reflexivity|]. split; [exact P|]. split; [apply aget_In; exact A|].
      intros g G. pose proof (K _ _ P) as N. clear P. induction l as [|[k v] l IH]; [destruct G|].
      cbn [aget] in A. simpl in G, N. inversion N as [|? ? Hn N' E]; subst.
      destruct (String.eqb_spec "config" k) as [Ek|Nk].
      + injection A as <-. destruct G as [G|G]; [congruence|]. exfalso. apply Hn. rewrite <- Ek. apply in_map_iff. exists ("config", g). auto.
      + destruct G as [G|G]; [congruence|]. apply IH; assumption.
    - intros (q' & l & -> & P & I & U). unfold file_path. rewrite P. clear P.
      induction l as [|[k v] l IH]; [destruct I|]. cbn [aget]. destruct (String.eqb_spec "config" k) as [Ek|Nk].
      + f_equal. apply U. left. congruence.
      + destruct I as [I|I]; [congruence|]. apply IH; [exact I|]. intros g G. apply U. right. exact G.
  Qed.
  Lemma path_nothing : forall q, file_path params q = None <-> names_nothing params q.
  Proof.
    intro q. split.
    - intros A q' l f -> P I. unfold file_path in A. rewrite P in A. clear P.
      induction l as [|[k v] l IH]; [exact I|]. cbn [aget] in A. destruct (String.eqb_spec "config" k) as [Ek|Nk]; [discriminate|].
      destruct I as [I|I]; [congruence|]. auto.
    - intro N. unfold file_path. destruct q as [q|]; [|reflexivity]. destruct (params q) as [l|] eqn:P; [|reflexivity].
      destruct (aget "config" l) as [f|] eqn:A; [|reflexivity]. exfalso. eapply N; [reflexivity|exact P|apply aget_In; exact A].
  Qed.
  (** What the worker keeps was created for its name, by one of these. *)
  Definition kept (past : list (World * option string)) (st : option (string * Ctx)) : Prop :=
    forall f c, st = Some (f, c) -> exists w q, In (w, q) past /\ file_path params q = Some f /\ make w f = Made c.
  Lemma store_kept : forall past st w q, kept past st -> kept (past ++ [(w, q)]) (store params make st w q).
  Proof.
    intros past st w q H f c E. unfold store, create in E.
    destruct (file_path params q) as [g|] eqn:P.
    - destruct (make w g) as [|r|c'] eqn:M.
      + destruct (H _ _ E) as (w' & q' & I & A). exists w', q'. split; [apply in_or_app; left; exact I|exact A].
      + destruct (H _ _ E) as (w' & q' & I & A). exists w', q'. split; [apply in_or_app; left; exact I|exact A].
      + injection E as <- <-. exists w, q. split; [apply in_or_app; right; left; reflexivity|]. split; assumption.
    - destruct (H _ _ E) as (w' & q' & I & A). exists w', q'. split; [apply in_or_app; left; exact I|exact A].
  Qed.
  Lemma kept_more : forall past x st, kept past st -> kept (past ++ x) st.
  Proof. intros past x st H f c E. destruct (H _ _ E) as (w & q & I & A). exists w, q. split; [apply in_or_app; left; exact I|exact A]. Qed.
  Lemma look_kept : forall past st q c, kept past st -> look params st q = Some c ->
    exists f w q', file_path params q = Some f /\ In (w, q') past /\ file_path params q' = Some f /\ make w f = Made c.
  Proof.
    intros past st q c H L. unfold look in L. destruct (file_path params q) as [f|] eqn:P; [|discriminate].
    destruct st as [[g c']|]; [|discriminate]. destruct (String.eqb_spec g f) as [E|N]; [|discriminate].
    injection L as <-. subst g. destruct (H _ _ eq_refl) as (w & q' & I & A & M). exists f, w, q'. auto.
  Qed.
  Lemma get_kept : forall past st w q, kept past st -> kept (past ++ [(w, q)]) (snd (get_app_ctx params make st w q)).
  Proof.
    intros past st w q H. unfold get_app_ctx. destruct (look params st q); simpl; [apply kept_more; exact H|apply store_kept; exact H].
  Qed.
  Lemma serve_kept : forall l past st, kept past st ->
    forall i q c, option_map snd (nth_error l i) = Some q -> nth_error (serve params make st l) i = Some (Made c) ->
    exists f w q', file_path params q = Some f /\ In (w, q') (past ++ firstn (S i) l) /\ file_path params q' = Some f /\ make w f = Made c.
  Proof.
    induction l as [|[w q0] l IH]; intros past st H i q c Q A; [destruct i; discriminate|].
    destruct i as [|i]; simpl in Q, A.
    - injection Q as <-. injection A as A. unfold get_app_ctx in A. destruct (look params st q0) as [c'|] eqn:L; simpl in A.
      + injection A as <-. destruct (look_kept _ _ _ _ H L) as (f & w' & q' & P & I & P' & M). exists f, w', q'.
        split; [exact P|]. split; [apply in_or_app; left; exact I|]. auto.
      + unfold create in A. destruct (file_path params q0) as [f|] eqn:P; [|discriminate].
        exists f, w, q0. split; [first [exact P|reflexivity]|]. split; [apply in_or_app; right; left; reflexivity|]. auto.
    - destruct (IH (past ++ [(w, q0)]) _ (get_kept _ _ _ _ H) i q c Q A) as (f & w' & q' & P & I & P' & M).
      exists f, w', q'. split; [exact P|]. rewrite <- app_assoc in I. auto.
  Qed.
  Definition creations (l : list (@step World)) : list (World * option string) :=
    flat_map (fun s => match s with Creates w q => [(w, q)] | Asks _ => [] end) l.
  Lemma steps_kept : forall l past st, kept past st ->
    forall i q c, nth_error l i = Some (Asks q) -> nth_error (steps params make st l) i = Some (Some (Made c)) ->
    exists f w q', file_path params q = Some f /\ In (w, q') (past ++ creations (firstn i l)) /\ file_path params q' = Some f /\ make w f = Made c.
  Proof.
    induction l as [|s l IH]; intros past st H i q c Q A; [destruct i; discriminate|].
    destruct i as [|i]; simpl in Q.
    - injection Q as ->. simpl in A. destruct (look params st q) as [c'|] eqn:L; [|discriminate]. injection A as <-.
      destruct (look_kept _ _ _ _ H L) as (f & w' & q' & P & I & R). exists f, w', q'. split; [exact P|].
      split; [apply in_or_app; left; exact I|exact R].
    - destruct s as [q0|w q0]; simpl in A.
      + exact (IH past st H i q c Q A).
      + destruct (IH (past ++ [(w, q0)]) _ (store_kept _ _ _ _ H) i q c Q A) as (f & w' & q' & P & I & R).
        exists f, w', q'. split; [exact P|]. rewrite <- app_assoc in I. auto.
  Qed.
  Lemma store_same : forall st w q, (forall c, create params make w q <> Made c) -> store params make st w q = st.
  Proof. intros st w q N. unfold store. destruct (create params make w q) as [| |c]; try reflexivity. destruct (N c eq_refl). Qed.
  Lemma get_same : forall st w q, (forall c, fst (get_app_ctx params make st w q) <> Made c) -> snd (get_app_ctx params make st w q) = st.
  Proof.
    intros st w q N. unfold get_app_ctx in *. destruct (look params st q) as [c|]; [reflexivity|]. simpl in *. apply store_same. exact N.
  Qed.
  Fixpoint final (st : option (string * Ctx)) (l : list (World * option string)) : option (string * Ctx) :=
    match l with [] => st | (w, q) :: t => final (snd (get_app_ctx params make st w q)) t end.
  Lemma serve_app : forall l st m, serve params make st (l ++ m) = serve params make st l ++ serve params make (final st l) m.
  Proof. induction l as [|[w q] l IH]; intros st m; simpl; [reflexivity|rewrite IH; reflexivity]. Qed.
  Lemma final_kept : forall l past st, kept past st -> kept (past ++ l) (final st l).
  Proof.
    induction l as [|[w q] l IH]; intros past st H; simpl; [rewrite app_nil_r; exact H|].
    specialize (IH (past ++ [(w, q)]) _ (get_kept past st w q H)). rewrite <- app_assoc in IH. exact IH.
  Qed.
  Lemma serve_length : forall l st, List.length (serve params make st l) = List.length l.
  Proof. induction l as [|[w q] l IH]; intro st; simpl; [reflexivity|rewrite IH; reflexivity]. Qed.
  (** Once a context was given for a name, requests for it get the same until another name is asked for. *)
  Lemma get_again : forall st w q c f, fst (get_app_ctx params make st w q) = Made c -> file_path params q = Some f ->
    snd (get_app_ctx params make st w q) = Some (f, c).
  Proof.
    intros st w q c f A P. unfold get_app_ctx in *. unfold look in *. rewrite P in *.
    destruct st as [[g c']|].
    - destruct (String.eqb_spec g f) as [E|N]; simpl in *; [injection A as ->; subst g; reflexivity|].
      unfold store. rewrite A, P. reflexivity.
    - simpl in *. unfold store. rewrite A, P. reflexivity.
  Qed.
End Contexts.

Section Values.
  Variable number_text : number -> string.
  Variable quoted : string -> string.
  Lemma name_not : forall c, name_start c -> ~ blank c /\ c <> """"%char /\ c <> "}"%char.
  Proof.
    intros c N. unfold name_start in N. split; [intros [E|[E|[E|E]]]|split; intro E]; rewrite E in N; vm_compute in N; intuition (try discriminate; try congruence).
  Qed.
  Lemma join_head : forall sep x l, exists r, join_with sep (x :: l) = (x ++ r)%string.
  Proof. intros sep x l. destruct l as [|y l]; simpl; [exists ""; rewrite str_app_nil_r; reflexivity|eexists; reflexivity]. Qed.
  Lemma display_start : forall v, objects_first v -> forall r, ~ json_start (display number_text quoted v ++ r)%string.
  Proof.
    induction 1 as [c k v m N|v l O IH]; intros r J.
    - simpl in J. destruct (join_head ", " (String c k ++ ": " ++ display number_text quoted v)%string (map (fun kv => (fst kv ++ ": " ++ display number_text quoted (snd kv))%string) m)) as (t & T).
      simpl in T. rewrite T in J. simpl in J. destruct (name_not _ N) as (B & Q & C).
      inversion J as [c' s A1 A2 E|w c' s W D E|w s W D E]; subst.
      + apply A1. reflexivity.
      + destruct w as [|d w]; simpl in *; [injection E as <- _; destruct D as [D|D]; congruence|injection E as <- _; destruct W as [W _]; exact (B W)].
    - simpl in J. destruct (join_head ", " (display number_text quoted v) (map (display number_text quoted) l)) as (t & T).
      simpl in T. rewrite T in J. inversion J as [c' s A1 A2 E|w c' s W D E|w s W D E]; subst.
      + apply A2. reflexivity.
      + destruct w as [|d w]; simpl in *.
        * subst s. apply (IH (t ++ "]" ++ r)%string). rewrite <- !str_app_assoc in *. exact D.
        * destruct W as [W _]. destruct O as [c k v m N|v' l' O]; simpl in E; injection E as E _; rewrite E in W || rewrite <- E in W;
            destruct W as [W|[W|[W|W]]]; discriminate W.
  Qed.
  Fixpoint vsize (v : value) : nat :=
    match v with
    | VList l => S (fold_right (fun x n => vsize x + n) 0 l)
    | _ => 1
    end.
  Lemma separated_ok : forall ts, separated ts (join_with ", " ts).
  Proof.
    induction ts as [|x ts IH]; [constructor|]. destruct ts as [|y ts]; [constructor|].
    change (join_with ", " (x :: y :: ts)) with (x ++ "," ++ " " ++ join_with ", " (y :: ts))%string. constructor; [|exact IH].
    simpl. split; [left; reflexivity|exact I].
  Qed.
  Lemma display_text : forall n v, vsize v < n -> plain v -> json_text number_text quoted (display number_text quoted v) v.
  Proof.
    induction n as [|n IH]; intros v L P; [lia|]. destruct P as [|b|k|s|l P|]; simpl; try constructor.
    - destruct b; constructor.
    - apply text_list with (ts := map (display number_text quoted) l); [|apply separated_ok].
      assert (forall x, In x l -> vsize x < n) as S.
      { intros x I. simpl in L. clear - I L. revert n L. induction l as [|y l IHl]; intros n L; [destruct I|].
        simpl in L. destruct I as [->|I]; [lia|]. apply IHl; [exact I|lia]. }
      clear L. induction l as [|x l IHl]; simpl; constructor.
      + apply IH; [apply S; left; reflexivity|apply P; left; reflexivity].
      + apply IHl; [intros y Y; apply P; right; exact Y|intros y Y; apply S; right; exact Y].
  Qed.
End Values.

Lemma lower_letter : forall c d, (97 <= N_of_ascii c <= 122)%N -> (lower d = lower c <-> letter_of c d).
Proof.
  intros c d B. split.
  - intro E. assert (lower c = c) as Lc.
    { unfold lower. replace (((65 <=? N_of_ascii c) && (N_of_ascii c <=? 90))%N) with false; [reflexivity|].
      symmetry. apply andb_false_iff. right. apply N.leb_gt. lia. }
    rewrite Lc in E. unfold lower in E.
    destruct (((65 <=? N_of_ascii d) && (N_of_ascii d <=? 90))%N) eqn:D.
    + apply andb_true_iff in D. destruct D as (D1 & D2). apply N.leb_le in D1. apply N.leb_le in D2.
      assert (d = ascii_of_N (N_of_ascii d + 32 - 32)) as Ed.
      { replace (N_of_ascii d + 32 - 32)%N with (N_of_ascii d) by lia. symmetry. apply ascii_N_embedding. }
      rewrite Ed. rewrite <- E. apply letter_big. lia.
    + subst d. rewrite <- (ascii_N_embedding c). apply letter_small. exact B.
  - intro L. destruct L as [n Bn|n Bn]; [reflexivity|]. unfold lower.
    rewrite !N_ascii_embedding by lia.
    replace (((65 <=? n - 32) && (n - 32 <=? 90))%N) with true by (symmetry; apply andb_true_iff; split; apply N.leb_le; lia).
    replace (((65 <=? n) && (n <=? 90))%N) with false by (symmetry; apply andb_false_iff; right; apply N.leb_gt; lia).
    f_equal. lia.
Qed.
Fixpoint small (w : string) : Prop := match w with "" => True | String c t => (97 <= N_of_ascii c <= 122)%N /\ small t end.
Lemma ignore_case_ok : forall w v, small w -> (eq_ignore_case v w = true <-> in_any_case w v).
Proof.
  induction w as [|c w IH]; intros v S.
  - destruct v; simpl; split; intro H; try discriminate; try constructor; inversion H.
  - destruct v as [|d v]; [split; intro H; [discriminate|inversion H]|]. destruct S as (B & S). simpl. rewrite andb_true_iff, (IH v S).
    rewrite Ascii.eqb_eq, (lower_letter c d B). split; [intros (A & C); constructor; assumption|intro H; inversion H; subst; auto].
Qed.
