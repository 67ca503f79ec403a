(** Proofs about answers of GraphQL servers and errors of an answer (C90). *)
From Coq Require Import String Ascii ZArith Bool Arith Lia List.
From Verif Require Import Base StringFacts JsonModel ErModel ErSpec ErProofs UgModel UgSpec.
Import ListNotations.
Open Scope string_scope.
Open Scope list_scope.

(** ** Texts *)
Lemma plain_leaf : forall r m d t, plain (Errata r false m d t []).
Proof. intros r m d t. split; [reflexivity|]. intros c B. inversion B; cbn in *; contradiction. Qed.
Lemma described_text : forall paint m d, display paint (describe d (new m)) = Some (m ++ ": " ++ d)%string.
Proof. intros paint m d. cbn. rewrite str_app_nil_r. reflexivity. Qed.
Lemma api_main : forall es, match display (fun _ s => s) (caused_by (map new es) (new "API Validation Error")) with
  | Some t => ~ In "" es /\ message_of (IR (APIValidation es)) t
  | None => In "" es
  end.
Proof.
  intros es. set (e := caused_by (map new es) (new "API Validation Error")).
  assert (C : causes_of e = map (fun m => Errata false false m None [] []) es) by (unfold e; cbn; rewrite map_map; reflexivity).
  assert (S : says e = "API Validation Error") by reflexivity.
  assert (B : forall c, below e c -> exists m, In m es /\ c = Errata false false m None [] []).
  { intros c X. inversion X as [? ? I|? x ? I Y]; subst.
    - rewrite C in I. apply in_map_iff in I as (m & <- & I). eauto.
    - rewrite C in I. apply in_map_iff in I as (m & <- & I). inversion Y; cbn in *; contradiction. }
  pose proof (display_main (fun _ s => s) e (or_intror (fun _ _ => eq_refl))) as M. destruct (display _ e) as [t|].
  - destruct M as [L N]. split.
    + intros I. apply (N (Errata false false "" None [] [])); [apply below_one; rewrite C; apply in_map_iff; eauto|]. split; reflexivity.
    + rewrite <- (text_lines t), L, layout_eq, S, C. destruct es as [|x es]; [constructor|].
      replace (text_of _) with (text_of ("API Validation Error" :: "Caused by:" :: flat_map (fun e => as_item (lines e)) (x :: es))); [constructor; discriminate|].
      f_equal. cbn [map]. change (lines "API Validation Error") with ["API Validation Error"]. cbn [app]. do 2 f_equal.
      change (Errata false false x None [] [] :: map (fun m => Errata false false m None [] []) es) with (map (fun m => Errata false false m None [] []) (x :: es)).
      generalize (x :: es) as l. induction l as [|y l IH]; [reflexivity|]. cbn [map flat_map]. rewrite IH. f_equal. rewrite layout_eq. cbn. now rewrite str_app_nil_r, app_nil_r.
  - destruct M as (c & X & [Sc _]). destruct (B c X) as (m & I & ->). cbn in Sc. rewrite str_app_nil_r in Sc. now subst.
Qed.
Lemma wire_json : forall m l p x, wire {| ge_message := m; ge_locations := l; ge_path := p; ge_extensions := x |} = error_json m l p (match x with Some x => x | None => [] end).
Proof. intros m l p x. unfold wire, error_json, member. cbn [ge_message ge_locations ge_path ge_extensions]. destruct l, p, x as [[|]|]; reflexivity. Qed.
Lemma to_gql_main : forall p, match to_gql p with
  | Some g => exists m, message_of (p_error p) m /\
      wire g = match p_error p with ParseError _ ps => error_json m ps [] [] | e => error_json m [p_pos p] (p_path p) (extensions_of e) end
  | None => exists es, p_error p = IR (APIValidation es) /\ In "" es
  end.
Proof.
  intros [e ps pa]. unfold to_gql. cbn [p_error p_pos p_path]. destruct e as [t|t l|i|t|s|].
  - eexists. split; [constructor|]. now rewrite wire_json.
  - eexists. split; [constructor|]. now rewrite wire_json.
  - cbn [jit_text jit_extend]. unfold ir_text. destruct i; cbn [errata_of ir_extend extensions_of]; try (rewrite described_text; eexists; (split; [constructor|]); now rewrite wire_json).
    pose proof (api_main errors) as A. destruct (display _ _) as [t|]; [|eauto]. destruct A as [_ A]. exists t. split; [exact A|]. now rewrite wire_json.
  - eexists. split; [constructor|]. now rewrite wire_json.
  - eexists. split; [constructor|]. now rewrite wire_json.
  - eexists. split; [constructor|]. now rewrite wire_json.
Qed.

(** ** Histories *)
Section History.
  Variable decode : value -> result (value * list server_error) string.
  Lemma value_main : forall body field, value_in decode body field (fst (parse_graphql_response decode body field)).
  Proof.
    intros body field. unfold parse_graphql_response. destruct (decode body) as [[d es]|e] eqn:D; cbn; [|now constructor].
    destruct d; try (eapply v_none; [exact D|intros m0 Q; discriminate]). destruct (aget field m) eqn:A; [eapply v_there; eauto|eapply v_missing; eauto].
  Qed.
  Lemma errors_main : forall body field, snd (parse_graphql_response decode body field) = map from_server (match decode body with Ok (_, es) => es | Err _ => [] end).
  Proof. intros body field. unfold parse_graphql_response. destruct (decode body) as [[d es]|e]; reflexivity. Qed.
  Lemma ok_main : forall body field, is_ok (fst (parse_graphql_response decode body field)) = is_ok (decode body).
  Proof. intros body field. unfold parse_graphql_response. destruct (decode body) as [[d es]|e]; reflexivity. Qed.

  (** the cache after [before] *)
  Definition knows (before : list fetch) (w : world) : Prop :=
    forall f, f_cached f = true -> match aget (f_key f) (w_cache w) with
      | Some v => exists i g, nth_error before i = Some g /\ leaves_value decode f g = true /\ value_in decode (f_body g) (f_field g) (Ok v) /\
          forall j g', j < i -> nth_error before j = Some g' -> leaves_value decode f g' = false
      | None => existsb (leaves_value decode f) before = false
      end.
  Lemma aget_aset : forall (k k' : string) (v : value) m, aget k (aset k' v m) = if String.eqb k k' then Some v else aget k m.
  Proof.
    intros k k' v m. induction m as [|[a b] m IH]; cbn; [reflexivity|]. destruct (String.eqb_spec k' a) as [->|N]; cbn.
    - destruct (String.eqb k a); reflexivity.
    - destruct (String.eqb_spec k a) as [->|N']; [|exact IH]. destruct (String.eqb_spec a k') as [->|_]; [now destruct N|reflexivity].
  Qed.
  Lemma existsb_first : forall (P : fetch -> bool) l, existsb P l = false <-> forall j g, nth_error l j = Some g -> P g = false.
  Proof.
    intros P l. split.
    - intros E j g N. destruct (P g) eqn:Q; [|reflexivity]. rewrite <- E. symmetry. apply existsb_exists. exists g. split; [now apply nth_error_In with j|exact Q].
    - intros H. destruct (existsb P l) eqn:E; [|reflexivity]. apply existsb_exists in E as (g & I & Q). apply In_nth_error in I as [j I]. rewrite (H j g I) in Q. discriminate.
  Qed.
  Lemma run_fetch_main : forall before w f, knows before w ->
    knows (before ++ [f]) (run_fetch decode w f) /\
    (forall r, added (run_fetch decode w f) r = added w r ++ map from_server
      (match hd_error (f_askers f) with Some leader => if Nat.eqb leader r && fresh decode before f then errors_in decode f else [] | None => [] end)) /\
    exists res, w_got (run_fetch decode w f) = w_got w ++ map (fun r => (r, res)) (f_askers f) /\
      (fresh decode before f = true -> value_in decode (f_body f) (f_field f) res) /\
      (fresh decode before f = false -> exists i g, nth_error before i = Some g /\ leaves_value decode f g = true /\ value_in decode (f_body g) (f_field g) res /\
          forall j g', j < i -> nth_error before j = Some g' -> leaves_value decode f g' = false).
  Proof.
    intros before w f K. assert (A : forall r l (e : list positioned), added {| w_cache := w_cache w; w_told := w_told w ++ map (fun x => (l, x)) e; w_got := w_got w |} r = added w r ++ (if Nat.eqb l r then e else [])).
    { intros r l e. unfold added. cbn. rewrite filter_app, map_app. f_equal. destruct (Nat.eqb l r) eqn:Q; induction e as [|x e IH]; cbn; rewrite ?Q; cbn; [reflexivity|now rewrite IH|reflexivity|exact IH]. }
    (** entries of the cache stay where they are when nothing new is left *)
    assert (Stay : forall w', w_cache w' = w_cache w -> (forall f', f_cached f' = true -> aget (f_key f') (w_cache w) = None -> leaves_value decode f' f = false) -> knows (before ++ [f]) w').
    { intros w' E N f' C. specialize (K f' C). rewrite E. destruct (aget (f_key f') (w_cache w)) as [v|] eqn:G.
      - destruct K as (i & g & Ni & Lv & V & F). assert (Li : i < length before) by (apply nth_error_Some; congruence). exists i, g. split; [rewrite nth_error_app1 by exact Li; exact Ni|].
        split; [exact Lv|]. split; [exact V|]. intros j g' J Nj. rewrite nth_error_app1 in Nj by lia. now apply (F j).
      - rewrite existsb_app, K. cbn. rewrite (N f' C G). reflexivity. }
    unfold run_fetch. pose proof K as K0. destruct (f_cached f) eqn:C.
    - specialize (K0 f C). destruct (aget (f_key f) (w_cache w)) as [v|] eqn:G.
      + assert (X : existsb (leaves_value decode f) before = true).
        { destruct K0 as (i & g & Ni & Lv & _). apply existsb_exists. exists g. split; [now apply nth_error_In with i|exact Lv]. }
        assert (Fr : fresh decode before f = false) by (unfold fresh; rewrite C, X; reflexivity). rewrite Fr. split; [|split].
        * apply Stay; [reflexivity|]. intros f' _ G'. unfold leaves_value. destruct (String.eqb_spec (f_key f) (f_key f')) as [E|N]; [rewrite E in G; congruence|now rewrite andb_false_r].
        * intros r. destruct (hd_error (f_askers f)); [rewrite andb_false_r|]; cbn; rewrite app_nil_r; reflexivity.
        * exists (Ok v). split; [reflexivity|]. split; [discriminate|]. intros _. exact K0.
      + assert (Fr : fresh decode before f = true) by (unfold fresh; rewrite C, K0; reflexivity). rewrite Fr. destruct (f_askers f) as [|leader others] eqn:As.
        * split; [|split].
          -- apply Stay; [reflexivity|]. intros f' _ _. unfold leaves_value. rewrite As. cbn. now rewrite andb_false_r.
          -- intros r. cbn. now rewrite app_nil_r.
          -- exists (fst (parse_graphql_response decode (f_body f) (f_field f))). split; [cbn; now rewrite app_nil_r|]. split; [intros _; apply value_main|discriminate].
        * pose proof (value_main (f_body f) (f_field f)) as V. pose proof (errors_main (f_body f) (f_field f)) as E. pose proof (ok_main (f_body f) (f_field f)) as O.
          destruct (parse_graphql_response decode (f_body f) (f_field f)) as [res errors]. cbn [fst snd] in V, E, O. split; [|split].
          -- destruct res as [v|e].
             ++ intros f' C'. specialize (K f' C'). cbn [w_cache]. rewrite aget_aset. destruct (String.eqb_spec (f_key f') (f_key f)) as [Ek|Nk].
                ** rewrite Ek in K. rewrite G in K. exists (length before), f. split; [rewrite nth_error_app2 by apply le_n; rewrite Nat.sub_diag; reflexivity|].
                   split; [unfold leaves_value; rewrite C, Ek, String.eqb_refl, As, <- O; reflexivity|]. split; [exact V|]. intros j g' J Nj. rewrite nth_error_app1 in Nj by exact J.
                   rewrite existsb_first in K. now apply (K j).
                ** destruct (aget (f_key f') (w_cache w)) as [v'|].
                   --- destruct K as (i & g & Ni & Lv & V' & F). assert (Li : i < length before) by (apply nth_error_Some; congruence). exists i, g.
                       split; [rewrite nth_error_app1 by exact Li; exact Ni|]. split; [exact Lv|]. split; [exact V'|]. intros j g' J Nj. rewrite nth_error_app1 in Nj by lia. now apply (F j).
                   --- rewrite existsb_app, K. cbn. unfold leaves_value. destruct (String.eqb_spec (f_key f) (f_key f')) as [Q|_]; [now destruct Nk|]. now rewrite andb_false_r.
             ++ apply Stay; [reflexivity|]. intros f' _ _. unfold leaves_value. rewrite <- O. cbn. now rewrite andb_false_r.
          -- intros r. transitivity (added w r ++ (if Nat.eqb leader r then errors else [])); [apply (A r leader errors)|]. f_equal. cbn [hd_error]. rewrite andb_true_r.
             destruct (Nat.eqb leader r); [exact E|reflexivity].
          -- exists res. split; [reflexivity|]. split; [intros _; exact V|discriminate].
    - assert (Fr : fresh decode before f = true) by (unfold fresh; rewrite C; reflexivity). rewrite Fr. destruct (f_askers f) as [|leader others] eqn:As.
      + split; [|split].
        * apply Stay; [reflexivity|]. intros f' _ _. unfold leaves_value. rewrite C. reflexivity.
        * intros r. cbn. now rewrite app_nil_r.
        * exists (fst (parse_graphql_response decode (f_body f) (f_field f))). split; [cbn; now rewrite app_nil_r|]. split; [intros _; apply value_main|discriminate].
      + pose proof (value_main (f_body f) (f_field f)) as V. pose proof (errors_main (f_body f) (f_field f)) as E.
        destruct (parse_graphql_response decode (f_body f) (f_field f)) as [res errors]. cbn [fst snd] in V, E. split; [|split].
        * apply Stay; [destruct res; reflexivity|]. intros f' _ _. unfold leaves_value. rewrite C. reflexivity.
        * intros r. transitivity (added w r ++ (if Nat.eqb leader r then errors else [])); [apply (A r leader errors)|]. f_equal. cbn [hd_error]. rewrite andb_true_r.
          destruct (Nat.eqb leader r); [exact E|reflexivity].
        * exists res. split; [reflexivity|]. split; [intros _; exact V|discriminate].
  Qed.
  Lemma run_from : forall fs before w, knows before w ->
    knows (before ++ fs) (fold_left (run_fetch decode) fs w) /\
    forall r, added (fold_left (run_fetch decode) fs w) r = added w r ++ map from_server (errors_for decode r before fs).
  Proof.
    induction fs as [|f fs IH]; intros before w K; [cbn; rewrite app_nil_r; split; [exact K|]; intros r; now rewrite app_nil_r|].
    cbn [fold_left errors_for]. destruct (run_fetch_main before w f K) as (K' & A & _). destruct (IH _ _ K') as [K'' A']. split; [rewrite <- app_assoc in K''; exact K''|].
    intros r. rewrite A', A, map_app, app_assoc. reflexivity.
  Qed.
  Lemma knows_nothing : knows [] {| w_cache := []; w_told := []; w_got := [] |}.
  Proof. intros f C. reflexivity. Qed.
  Lemma from_server_gql : forall e, exists g, to_gql (from_server e) = Some g /\ wire g = passed_on e.
  Proof.
    intros e. eexists. split; [reflexivity|]. cbn [p_error p_path p_pos from_server]. rewrite wire_json. unfold passed_on. cbn [jit_extend]. destruct (se_locations e); reflexivity.
  Qed.
  Lemma all_gql_server : forall es, exists gs, all_gql (map from_server es) = Some gs /\ map wire gs = map passed_on es.
  Proof.
    induction es as [|e es (gs & E & M)]; [now exists []|]. destruct (from_server_gql e) as (g & Eg & W). exists (g :: gs). cbn [map all_gql]. rewrite Eg, E. split; [reflexivity|]. cbn. now rewrite W, M.
  Qed.
End History.
