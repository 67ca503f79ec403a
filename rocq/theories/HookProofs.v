(** Proofs about hooks (C76). *)
From Coq Require Import String Ascii ZArith NArith Bool Arith List Permutation Lia.
From Verif Require Import Base BaseFacts Ordered OrderedFacts JsonModel UrlModel UrlProofs RequestModel RequestSpec RequestProofs HookModel HookSpec.
Import ListNotations.
Open Scope string_scope.
Open Scope list_scope.

(** ** Redirects and calls *)
Section Flow.
  Variable ask : wreq -> result (option command) string.
  Variable responder : option (value -> result value string).
  Variable execute : wreq -> result wresp string.
  Variable parse_json : string -> option value.
  Variable norm_path : string -> string.
  Notation run := (execute_with_worker ask responder execute parse_json norm_path).

  Lemma redirect_model w w' : redirect ask norm_path w w' <->
    exists status hs body location, ask w = Ok (Some (CResponse status hs body)) /\
      (if Z.eqb status 301 || Z.eqb status 302 then aget "location" hs else None) = Some location /\ w' = set_path norm_path location w.
  Proof.
    split.
    - intros (s & hs & b & l & A & S & L & O & M & Q & H & B & V). exists s, hs, b, l. split; [exact A|]. split.
      + destruct S as [->| ->]; exact L.
      + destruct w'; cbn in *. subst. reflexivity.
    - intros (s & hs & b & l & A & L & ->). exists s, hs, b, l. split; [exact A|].
      destruct (Z.eqb s 301 || Z.eqb s 302)%bool eqn:S; [|discriminate]. apply orb_true_iff in S. rewrite !Z.eqb_eq in S. cbn. auto 10.
  Qed.

  Lemma finish_calls tr r : calls (fst (finish responder tr r)) = calls tr.
  Proof.
    destruct r as [p|e]; [|reflexivity]. cbn. unfold calls. rewrite flat_map_app. destruct responder; cbn; now rewrite app_nil_r.
  Qed.

  (** The run, as the number of redirects has it. *)
  Definition through (r : result wresp string) : result wresp string :=
    match r with Ok p => on_response responder p | Err e => Err e end.
  Lemma finish_result tr r : snd (finish responder tr r) = through r.
  Proof. now destruct r. Qed.

  Lemma run_settles fuel : forall w tr r, run fuel w = Some (tr, r) ->
    exists n w' cs a, settles ask norm_path n w w' /\ answered ask execute parse_json w' cs a /\ calls tr = cs /\
      (r = Nat.iter (S n) through a \/ exists e, r = Err e /\ a = Err e).
  Proof.
    induction fuel as [|fuel IH]; intros w tr r H; [discriminate|]. cbn in H.
    destruct (ask w) as [[[q|s hs b]|]|e] eqn:A.
    - exists 0, w, [q], (execute q). split; [constructor; intros w' R; apply redirect_model in R; destruct R as (? & ? & ? & ? & R & _); rewrite A in R; discriminate R|]. split; [now apply by_other|].
      destruct (finish responder [EvRequest w; EvCall q] (execute q)) as [tr' r'] eqn:F. injection H as <- <-.
      pose proof (finish_calls [EvRequest w; EvCall q] (execute q)) as C. pose proof (finish_result [EvRequest w; EvCall q] (execute q)) as R. rewrite F in C, R. cbn in C, R. split; [exact C|]. left. exact R.
    - destruct (if Z.eqb s 301 || Z.eqb s 302 then aget "location" hs else None) as [l|] eqn:L.
      + destruct (run fuel (set_path norm_path l w)) as [[tr' r']|] eqn:E; [|discriminate].
        destruct (IH _ _ _ E) as (n & w' & cs & a & Se & An & C & R).
        exists (S n), w', cs, a. split; [eapply settles_later; [|exact Se]; apply redirect_model; exists s, hs, b, l; auto|]. split; [exact An|].
        destruct (finish responder (EvRequest w :: tr') r') as [tr2 r2] eqn:F. injection H as <- <-.
        pose proof (finish_calls (EvRequest w :: tr') r') as C2. pose proof (finish_result (EvRequest w :: tr') r') as R2. rewrite F in C2, R2. cbn [fst snd] in C2, R2. split; [rewrite C2; exact C|].
        destruct R as [->|(e & -> & ->)]; [left; exact R2|]. right. exists e. split; [exact R2|reflexivity].
      + exists 0, w, [], (to_response parse_json s hs b). split; [constructor; intros w' R; apply redirect_model in R; destruct R as (? & ? & ? & ? & R & Y & _); rewrite A in R; injection R as <- <- <-; congruence|].
        destruct (finish responder [EvRequest w] (to_response parse_json s hs b)) as [tr' r'] eqn:F. injection H as <- <-.
        pose proof (finish_calls [EvRequest w] (to_response parse_json s hs b)) as C. pose proof (finish_result [EvRequest w] (to_response parse_json s hs b)) as R. rewrite F in C, R. cbn in C, R.
        split; [unfold to_response; destruct (parse_json b) eqn:J; [eapply by_script; eauto|eapply by_bad_script; eauto]|]. split; [exact C|]. left. exact R.
    - exists 0, w, [w], (execute w). split; [constructor; intros w' R; apply redirect_model in R; destruct R as (? & ? & ? & ? & R & _); rewrite A in R; discriminate R|]. split; [now apply by_itself|].
      destruct (finish responder [EvRequest w; EvCall w] (execute w)) as [tr' r'] eqn:F. injection H as <- <-.
      pose proof (finish_calls [EvRequest w; EvCall w] (execute w)) as C. pose proof (finish_result [EvRequest w; EvCall w] (execute w)) as R. rewrite F in C, R. cbn in C, R. split; [exact C|]. left. exact R.
    - injection H as <- <-. exists 0, w, [], (Err e). split; [constructor; intros w' R; apply redirect_model in R; destruct R as (? & ? & ? & ? & R & _); rewrite A in R; discriminate R|]. split; [now apply by_error|]. split; [reflexivity|]. right. eauto.
  Qed.

  Lemma settles_run n w w' : settles ask norm_path n w w' -> forall fuel, n < fuel -> run fuel w <> None.
  Proof.
    induction 1 as [w N|n w w' w'' R S IH]; intros fuel L; (destruct fuel as [|fuel]; [lia|]); cbn.
    - destruct (ask w) as [[[q|s hs b]|]|e] eqn:A; try discriminate.
      destruct (if Z.eqb s 301 || Z.eqb s 302 then aget "location" hs else None) as [l|] eqn:E; [|discriminate].
      exfalso. eapply N. apply redirect_model. exists s, hs, b, l. eauto.
    - apply redirect_model in R. destruct R as (s & hs & b & l & A & E & ->). rewrite A, E.
      assert (X : run fuel (set_path norm_path l w) <> None) by (apply IH; lia). destruct (run fuel (set_path norm_path l w)) as [[tr r]|]; [discriminate|contradiction].
  Qed.
End Flow.

Lemma iter_shift {A} (f : A -> A) n a : Nat.iter (S n) f a = Nat.iter n f (f a).
Proof. induction n as [|n IH]; [reflexivity|]. change (f (Nat.iter (S n) f a) = f (Nat.iter n f (f a))). now rewrite IH. Qed.
Lemma iter_err r n e : Nat.iter n (through r) (Err e) = Err e.
Proof. induction n as [|n IH]; [reflexivity|]. change (through r (Nat.iter n (through r) (Err e)) = Err e). now rewrite IH. Qed.
Lemma iter_none n a : Nat.iter n (through None) a = a.
Proof. induction n as [|n IH]; [reflexivity|]. change (through None (Nat.iter n (through None) a) = a). rewrite IH. now destruct a. Qed.
Lemma iter_through f n : forall p, rewritten f n p (Nat.iter n (through (Some f)) (Ok p)).
Proof.
  induction n as [|n IH]; intros p; [constructor|]. rewrite iter_shift. cbn [through on_response]. destruct (f (p_body p)) as [v|e] eqn:F.
  - eapply rewritten_ok; [exact F|]. apply IH.
  - rewrite iter_err. now constructor.
Qed.

(** ** A script that returns the request *)
Lemma omap_of_perm (l : list (string * string)) : single l -> Permutation (omap_of scmp l) l.
Proof.
  intros N. apply NoDup_Permutation.
  - apply (NoDup_map_inv fst), (osorted_nodup scmp scmp_order), (osorted_omap_of scmp scmp_order).
  - now apply (NoDup_map_inv fst).
  - intros [k v]. assert (G : forall k, oget scmp k (omap_of scmp l) = aget k l).
    { clear k v. intros k. unfold omap_of.
      assert (G : forall (l acc : list (string * string)), NoDup (map fst l) -> oget scmp k (fold_left (fun acc kv => oins scmp (fst kv) (snd kv) acc) l acc) = match aget k l with Some v => Some v | None => oget scmp k acc end).
      { clear l N. induction l as [|[k' v'] l IH]; intros acc N; [reflexivity|]. cbn in N. inversion N as [|? ? X Y]; subst. cbn [fold_left fst snd]. rewrite IH by exact Y. cbn [aget].
        destruct (String.eqb_spec k k') as [->|D].
        - replace (aget k' l) with (@None string) by (symmetry; apply aget_None; exact X). now rewrite (oget_oins_same scmp scmp_order).
        - destruct (aget k l); [reflexivity|]. now rewrite (oget_oins_other scmp scmp_order). }
      rewrite G by exact N. now destruct (aget k l). }
    split; intros I.
    + apply aget_In. rewrite <- G. apply (in_oget scmp scmp_order); [apply (osorted_omap_of scmp scmp_order)|exact I].
    + apply (oget_in scmp scmp_order). rewrite G. now apply NoDup_aget.
Qed.

Lemma visible_printable v : visible v = true <-> printable v.
Proof.
  unfold printable. induction v as [|ch v IH]; cbn [visible list_ascii_of_string]; [split; [intros _ x []|reflexivity]|]. rewrite andb_true_iff, IH.
  assert (C : visible_char ch = true <-> N_of_ascii ch = 9%N \/ (32 <= N_of_ascii ch <= 126)%N).
  { unfold visible_char. rewrite orb_true_iff, andb_true_iff, N.eqb_eq, N.leb_le, N.ltb_lt. lia. }
  rewrite C. split.
  - intros [A B] x [<-|I]; [exact A|now apply B].
  - intros H. split; [apply H; now left|intros x I; apply H; now right].
Qed.
Lemma header_texts_bad hs k v : In (k, v) hs -> ~ printable v -> header_texts hs = None.
Proof.
  intros I N. induction hs as [|[k' v'] hs IH]; [destruct I|]. cbn. destruct I as [I|I].
  - injection I as -> ->. rewrite <- visible_printable in N. destruct (visible v); [congruence|reflexivity].
  - rewrite (IH I). now destruct (visible v').
Qed.
Lemma headers_from_bad header_name hs k v : In (k, v) hs -> header_name k = None \/ ~ printable v -> forall acc, headers_from_js header_name hs acc = None.
Proof.
  intros I N. induction hs as [|[k' v'] hs IH]; [destruct I|]. intros acc. cbn. destruct I as [I|I].
  - injection I as -> ->. destruct (header_name k); [|reflexivity]. destruct N as [N|N]; [discriminate|]. rewrite <- visible_printable in N. destruct (visible v); [congruence|reflexivity].
  - destruct (header_name k'); [|reflexivity]. destruct (visible v'); [now apply IH|reflexivity].
Qed.
Lemma header_texts_ok hs : (forall k v, In (k, v) hs -> printable v) -> header_texts hs = Some hs.
Proof.
  induction hs as [|[k v] hs IH]; intros H; [reflexivity|]. cbn. rewrite (proj2 (visible_printable v) (H k v (or_introl eq_refl))), IH; [reflexivity|]. intros k' v' I. apply (H k'). now right.
Qed.
Lemma aset_new (k v : string) m : ~ In k (map fst m) -> aset k v m = (m ++ [(k, v)])%list.
Proof.
  induction m as [|[k' v'] m IH]; intros N; [reflexivity|]. cbn. cbn in N. destruct (String.eqb_spec k k') as [->|D]; [exfalso; auto|]. rewrite IH; auto.
Qed.
Lemma headers_from_ok header_name hs : forall acc, NoDup (map fst (acc ++ hs)) -> (forall k v, In (k, v) hs -> header_name k = Some k /\ printable v) ->
  headers_from_js header_name hs acc = Some (acc ++ hs)%list.
Proof.
  induction hs as [|[k v] hs IH]; intros acc N H; [cbn; now rewrite app_nil_r|]. cbn. destruct (H k v (or_introl eq_refl)) as [-> Hp]. rewrite (proj2 (visible_printable v) Hp).
  assert (K : ~ In k (map fst acc)).
  { rewrite map_app in N. cbn in N. apply NoDup_remove_2 in N. intros I. apply N, in_app_iff. now left. }
  rewrite aset_new by exact K. rewrite IH.
  - now rewrite <- app_assoc.
  - now rewrite <- app_assoc.
  - intros k' v' I. apply H. now right.
Qed.

Lemma read_pairs l : (forall k v, In (k, v) l -> safe_key k /\ safe_text v) ->
  form_pairs (encode_query (String.concat "&" (map (fun kv => (fst kv ++ "=" ++ snd kv)%string) l))) = l.
Proof.
  intros H. destruct l as [|kv l]; [reflexivity|]. change (String.concat "&") with (join "&"). rewrite form_pairs_join by discriminate.
  remember (kv :: l) as l' eqn:E. clear E. induction l' as [|[k v] l' IH]; [reflexivity|]. cbn [map flat_map fst snd].
  destruct (H k v (or_introl eq_refl)) as [Hk Hv]. rewrite (pair_read k v Hk Hv). cbn [app]. f_equal. apply IH. intros k' v' I. apply H. now right.
Qed.
Lemma concat_lacks c l : (forall s, In s l -> lacks c s) -> c <> "&"%char -> lacks c (String.concat "&" l).
Proof.
  intros H N. induction l as [|a l IH]; [exact I|]. destruct l as [|b l]; [apply H; now left|].
  change (String.concat "&" (a :: b :: l)) with (a ++ "&" ++ String.concat "&" (b :: l))%string. apply lacks_app. split; [apply H; now left|].
  cbn [String.append]. split; [congruence|]. apply IH. intros s I. apply H. now right.
Qed.
Lemma concat_empty l : (forall s, In s l -> s <> "") -> String.concat "&" l = "" -> l = [].
Proof.
  intros H E. destruct l as [|a l]; [reflexivity|]. exfalso. apply (H a (or_introl eq_refl)). destruct l as [|b l]; [exact E|].
  change (String.concat "&" (a :: b :: l)) with (a ++ "&" ++ String.concat "&" (b :: l))%string in E. now destruct a.
Qed.

Lemma identity_call parse_base lossy valid_method header_name valid_status w : simple parse_base lossy valid_method header_name w ->
  exists w', on_request parse_base lossy valid_method header_name valid_status (Some JRequest) w = Ok (Some (CRequest w')) /\ same_call w w' /\ w_value w' = None.
Proof.
  intros [Sc (h & Ho) Us Ur Me (Ps & Pt) (Hs & Ht) Bo]. destruct (Ur h Ho) as (L1 & L2 & Pa). clear Ur. cbv zeta in *.
  unfold on_request, request_to_js. rewrite header_texts_ok by (intros k v I; now apply (Ht k v)).
  cbn [j_uri]. unfold request_from_js. cbn [j_uri j_method j_headers j_body]. rewrite Me.
  pose proof (omap_of_perm _ Ps) as Pp. pose proof (omap_of_perm _ Hs) as Ph.
  set (qs := omap_of scmp (pairs_of w)) in *. set (hs := omap_of scmp (w_headers w)) in *.
  assert (Qt : forall k v, In (k, v) qs -> safe_key k /\ lacks "#" k /\ safe_text v /\ lacks "#" v) by (intros k v I; apply Pt; now apply (Permutation_in _ Pp)).
  set (base := (o_scheme (w_origin w) ++ "://" ++ h ++ (match o_port (w_origin w) with Some p => ":" ++ p | None => "" end) ++ o_path (w_origin w))%string) in *.
  set (query := String.concat "&" (map (fun kv => (fst kv ++ "=" ++ snd kv)%string) qs)) in *.
  assert (T : uri_text (uri_of (w_origin w) (w_query w)) = (base ++ (if String.eqb query "" then "" else "?" ++ query))%string).
  { unfold uri_text, uri_of. cbn [i_path i_query i_https i_host i_port]. change (match w_query w with Some q => form_pairs q | None => [] end) with (pairs_of w). fold qs. fold query.
    rewrite Ho. unfold base. rewrite !app_assoc_str. f_equal. destruct Sc as [-> | ->]; reflexivity. }
  assert (Lq : lacks "#" query).
  { apply concat_lacks; [|discriminate]. intros s I. apply in_map_iff in I. destruct I as ([k v] & <- & I). destruct (Qt k v I) as (_ & A & _ & B). cbn [fst snd]. apply lacks_app. split; [exact A|]. cbn. split; [discriminate|exact B]. }
  assert (P : parse_uri parse_base (base ++ (if String.eqb query "" then "" else "?" ++ query)) = Some (w_origin w, if String.eqb query "" then None else Some (encode_query query))).
  { unfold parse_uri. rewrite cut_none.
    2:{ apply lacks_app. split; [exact L1|]. destruct (String.eqb query ""); [exact I|]. cbn. split; [discriminate|exact Lq]. }
    destruct (String.eqb query "").
    - rewrite app_nil_r_str. rewrite cut_none by exact L2. now rewrite Pa.
    - cbn [String.append]. rewrite cut_some by exact L2. now rewrite Pa. }
  rewrite T, P. rewrite headers_from_ok.
  2:{ cbn. apply (osorted_nodup scmp scmp_order), (osorted_omap_of scmp scmp_order). }
  2:{ intros k v I. apply Ht. now apply (Permutation_in _ Ph). }
  eexists. split; [reflexivity|]. split; [|reflexivity]. unfold same_call. cbn [w_method w_origin w_body w_headers]. split; [reflexivity|]. split; [reflexivity|].
  split. { destruct (w_body w) as [b|]; [cbn; f_equal; now apply Bo|reflexivity]. }
  split; [|exact Ph]. etransitivity; [|exact Pp]. unfold pairs_of. cbn [w_query].
  destruct (String.eqb_spec query "") as [E|E].
  - apply concat_empty in E. { apply map_eq_nil in E. now rewrite E. }
    intros s I. apply in_map_iff in I. destruct I as ([k v] & <- & _). cbn. destruct k; discriminate.
  - unfold query. rewrite (read_pairs qs); [reflexivity|]. intros k v I. destruct (Qt k v I) as (A & _ & B & _). auto.
Qed.
