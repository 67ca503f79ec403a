(** Proofs about batched HTTP calls (C13). *)
From Coq Require Import String Ascii Bool Arith Lia List.
From Verif Require Import Base BaseFacts StringFacts JsonModel JsonSpec JsonProofs DlModel DlSpec DlProofs HttpBatchModel HttpBatchSpec.
Import ListNotations.
Open Scope string_scope.
Open Scope list_scope.

Lemma path_of_eq g path : path_of g path -> path = group_path g.
Proof. unfold group_path. intros [[E ->]|[N ->]]; [now rewrite E|]. destruct (g_path g); congruence. Qed.
Lemma key_named_eq g name : key_named g name -> name = group_key g.
Proof.
  unfold group_key. intros [->|[-> [front P]]]; [reflexivity|]. destruct P as [[-> P]|[N P]].
  - destruct front as [|a [|b front]]; [injection P as ->; reflexivity|discriminate|discriminate].
  - rewrite <- P. destruct (front ++ [name]) eqn:E; [destruct front; discriminate|]. rewrite <- E. symmetry. apply last_last.
Qed.
Lemma path_of_one g : exists path, path_of g path.
Proof. unfold path_of. destruct (g_path g) eqn:E; [exists ["id"]; now left|]. eexists. right. split; [discriminate|reflexivity]. Qed.
Lemma key_named_one g : exists name, key_named g name.
Proof.
  unfold key_named. destruct (g_key g) as [k|]; [exists k; now left|]. destruct (path_of_one g) as [path P].
  assert (N : path <> []) by (destruct P as [[_ ->]|[N ->]]; [discriminate|exact N]).
  destruct (exists_last N) as (front & name & ->). exists name. right. split; [reflexivity|]. now exists front.
Qed.


Section Facts.
  Context {Meta E : Type}.
  Notation resp := (resp (Meta := Meta)).
  Variable listed : list string.
  Variable upstream : req -> result resp E.
  Notation spread := (spread (Meta := Meta) (E := E) listed).
  Notation load := (load listed upstream).
  Notation key_of := (key_of listed).

  Lemma query_value_acc name q : forall acc,
    fold_left (fun acc p => if String.eqb name (fst p) then Some (snd p) else acc) q acc =
    match rev (values_of name q) with v :: _ => Some v | [] => acc end.
  Proof.
    induction q as [|p q IH]; intros acc; cbn; [reflexivity|]. rewrite IH. unfold values_of. cbn.
    destruct (String.eqb name (fst p)); cbn; [|reflexivity].
    destruct (rev (map snd (filter _ q))); reflexivity.
  Qed.

  Lemma query_value_last name q v : query_value name q = Some v <-> exists vs, values_of name q = vs ++ [v].
  Proof.
    unfold query_value. rewrite query_value_acc. split.
    - destruct (rev (values_of name q)) as [|x l] eqn:R; [discriminate|]. intros H. injection H as ->.
      exists (rev l). rewrite <- (rev_involutive (values_of name q)), R. reflexivity.
    - intros (vs & ->). now rewrite rev_app_distr.
  Qed.
  Lemma query_value_none name q : query_value name q = None <-> values_of name q = [].
  Proof.
    unfold query_value. rewrite query_value_acc. split.
    - destruct (rev (values_of name q)) as [|x l] eqn:R; [|discriminate]. intros _.
      rewrite <- (rev_involutive (values_of name q)), R. reflexivity.
    - now intros ->.
  Qed.

  Lemma spread_ok get name extract res : forall rs m m', spread get name extract res rs m = Ok m' ->
    NoDup (map key_of rs) ->
    (forall k, ~ In k (map key_of rs) -> lookup key_dec k m' = lookup key_dec k m) /\
    (forall r, In r rs -> exists id, own_id (E := E) get name r = Ok id /\
       lookup key_dec (key_of r) m' = Some {| r_meta := r_meta res; r_body := extract id |}).
  Proof.
    induction rs as [|r rs IH]; cbn [HttpBatchModel.spread map]; intros m m' H D.
    - injection H as ->. split; [auto|intros r []].
    - destruct (own_id get name r) as [id|e] eqn:O; [|discriminate].
      apply NoDup_cons_iff in D as [N D]. destruct (IH _ _ H D) as [A B]. split.
      + intros k Nk. cbn in Nk. rewrite A by tauto. rewrite lookup_hput. destruct (key_dec k (key_of r)); [|auto].
        exfalso. apply Nk. left. congruence.
      + intros x [<-|I]; [|auto]. exists id. split; [exact O|]. rewrite A by exact N.
        rewrite lookup_hput. destruct (key_dec (key_of r) (key_of r)); congruence.
  Qed.

  Lemma spread_err get name extract res : forall rs m,
    (exists e, spread get name extract res rs m = Err e) <-> exists r e, In r rs /\ own_id (E := E) get name r = Err e.
  Proof.
    induction rs as [|r rs IH]; intros m; cbn [HttpBatchModel.spread].
    - split; [intros (e & H); discriminate|intros (r & e & [] & _)].
    - destruct (own_id get name r) as [id|e] eqn:O.
      + rewrite IH. split.
        * intros (x & e & I & H). exists x, e. cbn. auto.
        * intros (x & e & [<-|I] & H); [congruence|eauto].
      + split; [intros _; exists r, e; cbn; auto|eauto].
  Qed.

  Lemma extract_shown body path (is_list : bool) id found rs :
    matches path body found -> Forall (fun kv => exact_id (fst kv)) found -> picked id found rs ->
    (if is_list then body_list (group_by body path) else body_single (group_by body path)) id = shown is_list rs.
  Proof.
    intros M X P. assert (G := group_by_spec body path found id).
    destruct (aget id (group_by body path)) as [l|] eqn:A.
    - destruct (proj1 (G l M X) eq_refl) as [P' N]. assert (l = rs) by (eapply picked_fun; eauto). subst.
      destruct is_list; cbn; [unfold body_list|unfold body_single]; rewrite A; [reflexivity|]. destruct rs; [congruence|reflexivity].
    - destruct rs as [|r rs].
      + destruct is_list; cbn; [unfold body_list|unfold body_single]; now rewrite A.
      + exfalso. assert (X0 : None = Some (r :: rs)) by (apply (G (r :: rs) M X); split; [auto|discriminate]). discriminate.
  Qed.

  (** *** The merged request *)
  Lemma batched_query only others : forall base,
    query_batching only others base =
    with_query base (q_query base ++ flat_map (fun r => match only with
      | Some k => filter (fun p => String.eqb k (fst p)) (q_query r) | None => q_query r end) others).
  Proof.
    induction others as [|r others IH]; intros base; cbn.
    - rewrite app_nil_r. now destruct base.
    - unfold query_batching in IH. rewrite IH. cbn. now rewrite app_assoc.
  Qed.

  Lemma values_app name a b : values_of name (a ++ b) = values_of name a ++ values_of name b.
  Proof. unfold values_of. now rewrite filter_app, map_app. Qed.
  Lemma values_filter name q : values_of name (filter (fun p => String.eqb name (fst p)) q) = values_of name q.
  Proof.
    unfold values_of. induction q as [|p q IH]; cbn; [auto|]. destruct (String.eqb name (fst p)) eqn:Q; cbn; [|auto].
    rewrite Q. cbn. now rewrite IH.
  Qed.

  Lemma merged_get g base others : q_get base = true ->
    let m := merged g base others in
    q_get m = true /\ q_base m = q_base base /\ q_headers m = q_headers base /\ q_body m = q_body base /\
    q_query m = q_query base ++ flat_map (fun r => filter (fun p => String.eqb (group_key g) (fst p)) (q_query r)) others /\
    values_of (group_key g) (q_query m) = flat_map (fun r => values_of (group_key g) (q_query r)) (base :: others).
  Proof.
    intros G. unfold merged. rewrite G, batched_query. cbn [q_get q_base q_query q_headers q_body with_query flat_map]. repeat split; auto.
    rewrite values_app. f_equal. induction others as [|r l IH]; cbn [flat_map]; [auto|]. now rewrite values_app, values_filter, IH.
  Qed.

  Lemma concat_glue a b l : String.concat "," (String.append (String.append a ",") b :: l) = String.append a (String.append "," (String.concat "," (b :: l))).
  Proof. destruct l; cbn; rewrite !str_app_assoc; reflexivity. Qed.

  Lemma join_acc bodies : forall acc, acc <> "" ->
    fold_left (fun acc item => String.append (if String.eqb acc "" then acc else String.append acc ",") item) bodies acc
    = String.concat "," (acc :: bodies).
  Proof.
    induction bodies as [|b l IH]; intros acc N; cbn [fold_left].
    - reflexivity.
    - destruct (String.eqb_spec acc ""); [congruence|]. rewrite IH by (destruct acc; [congruence|discriminate]).
      now rewrite concat_glue.
  Qed.

  Lemma join_bodies_spec bodies : Forall (fun b => b <> "") bodies -> join_bodies bodies = String.concat "," bodies.
  Proof.
    intros F. destruct bodies as [|b l]; [reflexivity|]. inversion F; subst. unfold join_bodies. cbn [fold_left].
    change (String.append (if String.eqb "" "" then "" else String.append "" ",") b) with b. now apply join_acc.
  Qed.

  Lemma merged_post g base others : q_get base = false ->
    (forall r, In r (base :: others) -> exists b, q_body r = Some b /\ b <> "") ->
    let m := merged g base others in
    q_base m = q_base base /\ q_headers m = q_headers base /\
    q_query m = flat_map q_query (base :: others) /\
    exists bodies, map q_body (base :: others) = map Some bodies /\
      q_body m = Some (String.append "[" (String.append (String.concat "," bodies) "]")).
  Proof.
    intros G F. unfold merged. rewrite G, batched_query.
    assert (B : exists bodies, map q_body (base :: others) = map Some bodies /\ Forall (fun b => b <> "") bodies /\
       flat_map (fun r => match q_body r with Some b => [b] | None => [] end) (base :: others) = bodies).
    { revert F. generalize (base :: others) as l. induction l as [|r l IH]; intros F.
      - exists []. cbn. auto.
      - destruct IH as (bs & A & B & C); [intros x I; apply F; now right|].
        destruct (F r (or_introl eq_refl)) as (b & Eb & Nb). exists (b :: bs). cbn. rewrite Eb, A, C. cbn. auto. }
    destruct B as (bodies & A & B & C). unfold body_batching. rewrite C.
    destruct bodies as [|b bs]; [discriminate|]. cbn [q_base q_headers q_query q_body with_body with_query].
    split; [auto|]. split; [auto|]. split; [reflexivity|]. exists (b :: bs). split; [exact A|].
    now rewrite join_bodies_spec.
  Qed.

  (** *** The claims *)
  Lemma grouped g is_list base others m :
    NoDup (map key_of (base :: others)) -> load (Some g) is_list (base :: others) = Ok m ->
    exists res, upstream (merged g base others) = Ok res /\
      forall r, In r (base :: others) ->
        exists id, (if q_get base then exists ids, values_of (group_key g) (q_query r) = ids ++ [id] else q_value r = Some id) /\
          forall found rs, matches (group_path g) (r_body res) found ->
            Forall (fun kv => exact_id (fst kv)) found -> picked id found rs ->
            lookup key_dec (key_of r) m = Some {| r_meta := r_meta res; r_body := shown is_list rs |}.
  Proof.
    intros D H. cbn [HttpBatchModel.load] in H. destruct (upstream (merged g base others)) as [res|e]; [|discriminate].
    exists res. split; [reflexivity|]. intros r I. cbv zeta in H.
    destruct (spread_ok _ _ _ _ _ _ _ H D) as [_ B]. destruct (B r I) as (id & O & L). exists id. split.
    - unfold own_id in O. destruct (q_get base).
      + destruct (query_value (group_key g) (q_query r)) eqn:Q; [|discriminate]. injection O as ->. now apply query_value_last.
      + destruct (q_value r); congruence.
    - intros found rs M X P. rewrite L. do 2 f_equal.
      destruct is_list; [exact (extract_shown _ _ true _ _ _ M X P)|exact (extract_shown _ _ false _ _ _ M X P)].
  Qed.

  Lemma grouped_fails g is_list base others : q_get base = true ->
    ((exists e, load (Some g) is_list (base :: others) = Err e) <->
     (exists e, upstream (merged g base others) = Err e) \/
     exists r, In r (base :: others) /\ values_of (group_key g) (q_query r) = []).
  Proof.
    intros G. cbn [HttpBatchModel.load]. destruct (upstream (merged g base others)) as [res|e] eqn:U.
    - rewrite spread_err, G. split.
      + intros (r & e & I & O). right. exists r. split; auto. unfold own_id in O. apply query_value_none.
        destruct (query_value (group_key g) (q_query r)); congruence.
      + intros [(e & X)|(r & I & V)]; [congruence|]. exists r, (NoKey (group_key g)). split; auto.
        unfold own_id. apply query_value_none in V. now rewrite V.
    - split; [intros _; left; eauto|eauto].
  Qed.

  Lemma collect_ok : forall rs m m', collect listed upstream rs m = Ok m' -> NoDup (map key_of rs) ->
    (forall k, ~ In k (map key_of rs) -> lookup key_dec k m' = lookup key_dec k m) /\
    (forall r, In r rs -> exists v, upstream r = Ok v /\ lookup key_dec (key_of r) m' = Some v).
  Proof.
    induction rs as [|r rs IH]; cbn [collect map]; intros m m' H D.
    - injection H as ->. split; [auto|intros r []].
    - destruct (upstream r) as [v|e] eqn:U; [|discriminate].
      apply NoDup_cons_iff in D as [N D]. destruct (IH _ _ H D) as [A B]. split.
      + intros k Nk. cbn in Nk. rewrite A by tauto. rewrite lookup_hput. destruct (key_dec k (key_of r)); [|auto].
        exfalso. apply Nk. left. congruence.
      + intros x [<-|I]; [|auto]. exists v. split; [exact U|]. rewrite A by exact N.
        rewrite lookup_hput. destruct (key_dec (key_of r) (key_of r)); congruence.
  Qed.
  Lemma collect_err : forall rs m e, collect listed upstream rs m = Err e -> exists r e', In r rs /\ upstream r = Err e' /\ e = Upstream e'.
  Proof.
    induction rs as [|r rs IH]; cbn [collect]; intros m e H; [discriminate|].
    destruct (upstream r) as [v|e'] eqn:U.
    - apply IH in H as (x & e' & I & X). exists x, e'. cbn. auto.
    - injection H as <-. exists r, e'. cbn. auto.
  Qed.

  Lemma ungrouped is_list keys m : NoDup (map key_of keys) -> load None is_list keys = Ok m ->
    forall r, In r keys -> exists v, upstream r = Ok v /\ lookup key_dec (key_of r) m = Some v.
  Proof. intros D H r I. destruct (collect_ok keys [] m H D) as [_ B]. auto. Qed.

  (** *** Services that select by id *)
  Lemma found_in name id : forall T,
    (forall i v, In (i, v) T -> exists m k, v = VObj m /\ aget name m = Some k /\ has_id k i /\ exact_id k) ->
    exists ls, Forall2 (matches [name]) (map snd T) ls /\
      Forall (fun kv : value * value => exact_id (fst kv)) (concat ls) /\
      picked id (concat ls) (map snd (filter (fun e => String.eqb (fst e) id) T)).
  Proof.
    induction T as [|[i v] T IH]; intros F.
    - exists []. cbn. repeat constructor.
    - destruct IH as (ls & A & B & C); [intros; apply F; now right|].
      destruct (F i v (or_introl eq_refl)) as (m & k & -> & G & H & X).
      exists ([(k, VObj m)] :: ls). cbn [map snd concat filter fst app]. split; [|split].
      + constructor; [now constructor|exact A].
      + constructor; [exact X|exact B].
      + destruct (String.eqb_spec i id) as [->|N]; cbn.
        * now constructor.
        * constructor; [|exact C]. intros H'. apply N. eapply has_id_fun; eauto.
  Qed.

  Lemma filter_filter {A} (f g : A -> bool) l : (forall x, f x = true -> g x = true) -> filter f (filter g l) = filter f l.
  Proof.
    intros I. induction l as [|x l IH]; cbn; auto. destruct (g x) eqn:G; cbn; [now rewrite IH|].
    destruct (f x) eqn:Fx; [apply I in Fx; congruence|auto].
  Qed.

  Lemma like_its_own_call base_url name meta table g keys :
    Selects upstream base_url name meta table ->
    group_path g = [name] -> group_key g = name ->
    keys <> [] -> NoDup (map key_of keys) ->
    (forall r, In r keys -> q_get r = true /\ q_base r = base_url /\ exists id, values_of name (q_query r) = [id]) ->
    exists m, load (Some g) true keys = Ok m /\
      forall r, In r keys -> exists v, upstream r = Ok v /\ lookup key_dec (key_of r) m = Some v.
  Proof.
    intros S Gp Gk N D F. destruct keys as [|base others]; [congruence|].
    destruct (F base (or_introl eq_refl)) as (Gb & Bb & _).
    destruct (merged_get g base others Gb) as (Mg & Mb & _ & _ & _ & Mv). rewrite Gk in Mv.
    assert (U := sel_answers _ _ _ _ _ S _ Mg (eq_trans Mb Bb)).
    destruct (load (Some g) true (base :: others)) as [m|e] eqn:L.
    2:{ exfalso. destruct (proj1 (grouped_fails g true base others Gb)) as [(e' & X)|(r & I & V)]; [eauto|congruence|].
        rewrite Gk in V. destruct (F r I) as (_ & _ & id & X). congruence. }
    exists m. split; [reflexivity|]. intros r I. destruct (F r I) as (Gr & Br & id & Vr).
    destruct (grouped g true base others m D L) as (res & U' & R). rewrite U in U'. injection U' as <-.
    destruct (R r I) as (id' & Q & K). rewrite Gb, Gk, Vr in Q. destruct Q as (ids & Q).
    assert (id' = id).
    { destruct ids as [|x [|]]; cbn in Q; congruence. }
    subst id'. eexists. split; [apply (sel_answers _ _ _ _ _ S r Gr Br)|].
    set (T := filter (fun e => existsb (String.eqb (fst e)) (values_of name (q_query (merged g base others)))) table) in *.
    destruct (found_in name id T) as (ls & A & B & C).
    { intros i v J. apply filter_In in J as [J _]. eapply sel_records; eauto. }
    specialize (K (concat ls) _ ltac:(rewrite Gp; constructor; exact A) B C). cbn [r_meta] in K. rewrite K. do 2 f_equal.
    cbn [shown]. f_equal. f_equal. unfold T. rewrite filter_filter.
    - rewrite Vr. apply filter_ext. intros e. cbn. now rewrite orb_false_r.
    - intros e He. apply existsb_exists. apply String.eqb_eq in He. exists id. split; [|now apply String.eqb_eq].
      rewrite Mv. apply in_flat_map. exists r. split; [exact I|]. rewrite Vr. now left.
  Qed.
End Facts.
