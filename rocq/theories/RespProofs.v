(** Proofs for C55, C56 and C57. *)
From Coq Require Import String Ascii ZArith NArith Bool Lia List Permutation.
From Verif Require Import Base BaseFacts StringFacts HeadersModel HeadersProofs UrlModel RequestSpec RequestProofs RespModel RespSpec.
Import ListNotations.
Open Scope list_scope.
Open Scope string_scope.

Lemma values_app n a b : values n (a ++ b)%list = (values n a ++ values n b)%list.
Proof. induction a as [|[m v] a IH]; cbn; [reflexivity|]. destruct (String.eqb n m); cbn; now rewrite IH. Qed.
Lemma values_remove n m h : values n (h_remove m h) = if String.eqb n m then [] else values n h.
Proof.
  unfold h_remove. induction h as [|[k v] h IH]; cbn; [now destruct (String.eqb n m)|].
  destruct (String.eqb_spec m k) as [->|N]; cbn; rewrite IH.
  - destruct (String.eqb n k); reflexivity.
  - destruct (String.eqb_spec n k) as [->|]; [|reflexivity]. destruct (String.eqb_spec k m); [congruence|reflexivity].
Qed.
Lemma values_insert n m v h : values n (h_insert m v h) = if String.eqb n m then [v] else values n h.
Proof. unfold h_insert. rewrite values_app, values_remove. cbn. destruct (String.eqb n m); [reflexivity|apply app_nil_r]. Qed.
Lemma values_keys n h : smem n (akeys h) = match values n h with [] => false | _ => true end.
Proof. induction h as [|[m v] h IH]; cbn; [reflexivity|]. destruct (String.eqb n m); [reflexivity|exact IH]. Qed.
Lemma values_extend n o h : values n (h_extend o h) = match values n o with [] => values n h | l => l end.
Proof.
  unfold h_extend. rewrite values_app.
  assert (E : values n (filter (fun p => negb (smem (fst p) (akeys o))) h) = match values n o with [] => values n h | _ => [] end).
  { induction h as [|[m v] h IH]; [cbn; now destruct (values n o)|]. cbn [filter fst].
    destruct (String.eqb_spec n m) as [->|N].
    - cbn [values]. rewrite String.eqb_refl. rewrite values_keys. destruct (values m o) eqn:Eo; cbn [negb].
      + cbn [values]. rewrite String.eqb_refl. now rewrite IH.
      + exact IH.
    - cbn [values]. replace (String.eqb n m) with false by (symmetry; now apply String.eqb_neq).
      destruct (negb _); [cbn [values]; replace (String.eqb n m) with false by (symmetry; now apply String.eqb_neq)|]; exact IH. }
  rewrite E. destruct (values n o); [apply app_nil_r|reflexivity].
Qed.
Lemma values_get n h : h_get n h = match values n h with [] => None | v :: _ => Some v end.
Proof. unfold h_get. induction h as [|[m v] h IH]; cbn; [reflexivity|]. destruct (String.eqb n m); [reflexivity|exact IH]. Qed.

(** Experimental headers. *)
Lemma values_x n names hs : forall m,
  values n (fold_left (fun m k => match h_get k hs with Some v => h_insert k v m | None => m end) names m) =
  if smem n names then match values n hs with [] => values n m | v :: _ => [v] end else values n m.
Proof.
  induction names as [|k names IH]; intros m; [reflexivity|]. cbn [fold_left smem]. rewrite IH, values_get.
  destruct (String.eqb_spec n k) as [->|N].
  - destruct (values k hs) as [|v l] eqn:E; [now destruct (smem k names)|].
    rewrite values_insert, String.eqb_refl. now destruct (smem k names).
  - destruct (values k hs) as [|v l]; [reflexivity|]. rewrite values_insert.
    replace (String.eqb n k) with false by (symmetry; now apply String.eqb_neq). reflexivity.
Qed.
Lemma note_x v k a : k_x (note_headers v k a) =
  fold_left (fun m n => match h_get n (w_headers a) with Some x => h_insert n x m | None => m end) (v_experimental v) (k_x k).
Proof.
  unfold note_headers, add_x_headers. cbn. f_equal. destruct (w_success a); [|reflexivity]. unfold set_cookie_headers.
  destruct (k_cookies k); [|reflexivity]. destruct (h_get _ _); reflexivity.
Qed.
Definition noted (n : string) (answers : list upstream_answer) (now : list string) : list string :=
  fold_left (fun now a => match values n (w_headers a) with [] => now | v :: _ => [v] end) answers now.
Lemma values_noted v n answers : forall k, values n (k_x (fold_left (note_headers v) answers k)) =
  if smem n (v_experimental v) then noted n answers (values n (k_x k)) else values n (k_x k).
Proof.
  induction answers as [|a l IH]; intros k; [now destruct (smem n (v_experimental v))|]. cbn [fold_left]. rewrite IH, note_x, values_x.
  unfold noted. cbn [fold_left]. destruct (smem n (v_experimental v)); reflexivity.
Qed.
Lemma noted_last n answers x : last_sent n answers x -> forall now, noted n answers now = [x].
Proof.
  unfold noted. induction 1 as [a rest x more E N|a rest x H IH]; intros now; cbn [fold_left]; [|apply IH].
  rewrite E. clear E. assert (R : forall now', fold_left (fun now a => match values n (w_headers a) with [] => now | v :: _ => [v] end) rest now' = now').
  { induction rest as [|b rest IH]; intros now'; [reflexivity|]. cbn [fold_left]. rewrite (N b) by now left. apply IH. intros c I. apply N. now right. }
  apply R.
Qed.
Lemma noted_never n answers : never_sent n answers -> forall now, noted n answers now = now.
Proof.
  unfold noted, never_sent. induction answers as [|a l IH]; intros H now; [reflexivity|]. cbn [fold_left]. rewrite (H a) by now left.
  apply IH. intros b I. apply H. now right.
Qed.
Lemma values_insert_all n x : forall h, values n (fold_left (fun m nv => h_insert (fst nv) (snd nv) m) x h) =
  match rev (values n x) with [] => values n h | v :: _ => [v] end.
Proof.
  induction x as [|[m v] x IH]; intros h; [reflexivity|]. cbn [fold_left fst snd values]. rewrite IH, values_insert.
  destruct (String.eqb n m); [|reflexivity]. cbn [rev]. destruct (rev (values n x)); reflexivity.
Qed.
Lemma values_extend_x n v k h : (values n (k_x k) <> [] -> v_experimental v <> []) ->
  values n (extend_x_headers v k h) = match rev (values n (k_x k)) with [] => values n h | x :: _ => [x] end.
Proof.
  intros N. unfold extend_x_headers. destruct (v_experimental v) eqn:E; [|apply values_insert_all].
  destruct (values n (k_x k)); [reflexivity|]. exfalso. now apply N.
Qed.

(** Cookies. *)
Lemma values_single n m : (exists v, m = [(n, v)]) \/ m = [] -> values n m = match m with [] => [] | (_, v) :: _ => [v] end.
Proof. intros [[v ->] | ->]; cbn; [now rewrite String.eqb_refl|reflexivity]. Qed.

Definition grown (c : option headers) : Prop := match c with Some m => (exists v, m = [("set-cookie", v)]) \/ m = [] | None => True end.
Lemma note_cookies v k a : grown (k_cookies k) -> grown (k_cookies (note_headers v k a)) /\
  (k_cookies k = None <-> k_cookies (note_headers v k a) = None).
Proof.
  intros G. unfold note_headers, add_x_headers. cbn. destruct (w_success a); [|split; [exact G|tauto]]. unfold set_cookie_headers.
  destruct (k_cookies k) as [m|] eqn:E; [|rewrite E; split; [exact I|tauto]].
  destruct (h_get "set-cookie" (w_headers a)) as [new|]; [|rewrite E; split; [exact G|tauto]]. cbn. split; [|split; discriminate].
  destruct G as [[x ->] | ->]; cbn.
  - destruct (readable x && readable new)%bool; left; eexists; reflexivity.
  - left. eexists. reflexivity.
Qed.
Definition joined (now : list string) (c : string) : list string := match now with [] => [c] | old :: _ => [old ++ "; " ++ c] end.
Lemma note_cookie v k a m : k_cookies k = Some m -> grown (k_cookies k) ->
  (forall c, In c (values "set-cookie" m) -> printable c) -> (forall c, In c (cookies [a]) -> printable c) ->
  exists m', k_cookies (note_headers v k a) = Some m' /\ grown (Some m') /\
    values "set-cookie" m' = fold_left joined (cookies [a]) (values "set-cookie" m).
Proof.
  intros E G P Q. unfold note_headers, add_x_headers. cbn. cbn in Q. rewrite app_nil_r in *. destruct (w_success a); [|exists m; rewrite E in *; auto].
  unfold set_cookie_headers. rewrite E in *. rewrite values_get. destruct (values "set-cookie" (w_headers a)) as [|c l]; [exists m; auto|].
  cbn. eexists. split; [reflexivity|]. specialize (Q c (or_introl eq_refl)).
  destruct G as [[x ->] | ->]; cbn.
  - assert (R : (readable x && readable c)%bool = true).
    { apply andb_true_iff. split; [exact (P x (or_introl eq_refl))|exact Q]. }
    rewrite R. cbn. split; [left; eexists; reflexivity|reflexivity].
  - split; [left; eexists; reflexivity|reflexivity].
Qed.
Lemma printable_app a b : printable a -> printable b -> printable (a ++ b).
Proof. unfold printable, every. induction a as [|c a IH]; cbn; intros A B; [exact B|]. apply andb_true_iff in A as [A1 A2]. now rewrite A1, IH. Qed.
Lemma joined_printable l : forall now, (forall c, In c now -> printable c) -> (forall c, In c l -> printable c) ->
  forall c, In c (fold_left joined l now) -> printable c.
Proof.
  induction l as [|x l IH]; intros now N L c I; [exact (N c I)|]. refine (IH (joined now x) _ (fun c I => L c (or_intror I)) c I).
  intros d J. unfold joined in J. destruct now as [|old now]; destruct J as [<-|[]]; [apply L; now left|].
  apply printable_app; [apply N; now left|]. apply printable_app; [reflexivity|apply L; now left].
Qed.
Lemma cookies_app a b : cookies (a ++ b)%list = (cookies a ++ cookies b)%list.
Proof. induction a as [|x a IH]; cbn; [reflexivity|]. now rewrite IH, app_assoc. Qed.
Lemma note_all v answers : (forall c, In c (cookies answers) -> printable c) -> forall k m, k_cookies k = Some m -> grown (Some m) ->
  (forall c, In c (values "set-cookie" m) -> printable c) ->
  exists m', k_cookies (fold_left (note_headers v) answers k) = Some m' /\ grown (Some m') /\
    values "set-cookie" m' = fold_left joined (cookies answers) (values "set-cookie" m).
Proof.
  induction answers as [|a l IH]; intros Q k m E G P; [exists m; auto|]. change (a :: l) with ([a] ++ l)%list in Q. rewrite cookies_app in Q.
  destruct (note_cookie v k a m E) as (m1 & E1 & G1 & V1); [now rewrite E|exact P|intros c I; apply Q; apply in_app_iff; now left|].
  cbn [fold_left]. destruct (IH (fun c I => Q c (proj2 (in_app_iff _ _ _) (or_intror I))) _ m1 E1 G1) as (m' & E' & G' & V').
  { rewrite V1. apply joined_printable; [exact P|intros c I; apply Q; apply in_app_iff; now left]. }
  exists m'. split; [exact E'|]. split; [exact G'|]. rewrite V', V1, <- fold_left_app, <- cookies_app. reflexivity.
Qed.
Lemma joined_semicolons l : forall old, fold_left joined l [old] = [semicolons (old :: l)].
Proof.
  induction l as [|c l IH]; intros old; [reflexivity|]. cbn [fold_left joined]. rewrite IH. cbn [semicolons].
  destruct l; [reflexivity|]. f_equal. now rewrite !str_app_assoc.
Qed.
Lemma joined_all l : fold_left joined l [] = match l with [] => [] | _ => [semicolons l] end.
Proof. destruct l; [reflexivity|]. apply joined_semicolons. Qed.

Lemma grown_keys m n : grown (Some m) -> n <> "set-cookie" -> values n m = [].
Proof.
  intros [[v ->] | ->] N; cbn; [|reflexivity]. destruct (String.eqb_spec n "set-cookie"); [contradiction|reflexivity].
Qed.
Lemma grown_all v answers : forall k, grown (k_cookies k) -> grown (k_cookies (fold_left (note_headers v) answers k)) /\
  (k_cookies k = None <-> k_cookies (fold_left (note_headers v) answers k) = None).
Proof.
  induction answers as [|a l IH]; intros k G; [split; [exact G|tauto]|]. cbn [fold_left]. destruct (note_cookies v k a G) as [G1 N1].
  destruct (IH _ G1) as [G2 N2]. split; [exact G2|]. now rewrite N1.
Qed.
Lemma grown_new v : grown (k_cookies (kept_new v)).
Proof. unfold kept_new. cbn. destruct (v_cookies v); cbn; auto. Qed.

(** The values of the answer. *)
Definition fixed (n : string) (v : server) (own : headers) : list string :=
  match values n (v_static v) with [] => values n own | l => l end.
Lemma values_client n v answers own : values n (client_headers v answers own) =
  let k := fold_left (note_headers v) answers (kept_new v) in
  match (if smem n (v_experimental v) then rev (noted n answers []) else []) with
  | x :: _ => [x]
  | [] => match (match k_cookies k with Some c => values n c | None => [] end) with [] => fixed n v own | l => l end
  end.
Proof.
  cbv zeta. unfold client_headers, update_response_headers. set (k := fold_left _ _ _).
  assert (K : values n (k_x k) = if smem n (v_experimental v) then noted n answers [] else []) by (apply values_noted).
  rewrite values_extend_x.
  2:{ rewrite K. destruct (v_experimental v); cbn; congruence. }
  rewrite K. replace (rev (if smem n (v_experimental v) then noted n answers [] else []))
    with (if smem n (v_experimental v) then rev (noted n answers []) else []) by now destruct (smem _ _).
  destruct (if smem n (v_experimental v) then rev (noted n answers []) else []); [|reflexivity].
  assert (F : values n (match v_static v with [] => own | _ => h_extend (v_static v) own end) = fixed n v own).
  { unfold fixed. destruct (v_static v) eqn:E; [reflexivity|]. rewrite <- E. apply values_extend. }
  destruct (k_cookies k) as [c|]; [|exact F]. rewrite values_extend. destruct (values n c); [exact F|reflexivity].
Qed.

Theorem experimental_sent v answers own n x : In n (v_experimental v) -> last_sent n answers x ->
  values n (client_headers v answers own) = [x].
Proof.
  intros I L. rewrite values_client. cbv zeta. apply smem_In in I. rewrite I, (noted_last n answers x L). reflexivity.
Qed.
Theorem others_fixed v answers own n : n <> "set-cookie" -> (~ In n (v_experimental v) \/ never_sent n answers) ->
  values n (client_headers v answers own) = match values n (v_static v) with [] => values n own | l => l end.
Proof.
  intros N H. rewrite values_client. cbv zeta. fold (fixed n v own).
  replace (if smem n (v_experimental v) then rev (noted n answers []) else []) with (@nil string).
  2:{ destruct (smem n (v_experimental v)) eqn:E; [|reflexivity]. destruct H as [H|H]; [now apply smem_In in E|]. now rewrite noted_never. }
  destruct (grown_all v answers (kept_new v) (grown_new v)) as [G _]. destruct (k_cookies _) as [c|]; [|reflexivity].
  now rewrite (grown_keys c n G N).
Qed.
Theorem cookies_sent v answers own : ~ In "set-cookie" (v_experimental v) -> (forall c, In c (cookies answers) -> printable c) ->
  values "set-cookie" (client_headers v answers own) =
  match (if v_cookies v then cookies answers else []) with
  | [] => match values "set-cookie" (v_static v) with [] => values "set-cookie" own | l => l end
  | cs => [semicolons cs]
  end.
Proof.
  intros N P. rewrite values_client. cbv zeta. fold (fixed "set-cookie" v own).
  replace (smem "set-cookie" (v_experimental v)) with false.
  2:{ symmetry. destruct (smem _ _) eqn:E; [|reflexivity]. now apply smem_In in E. }
  destruct (v_cookies v) eqn:C.
  - destruct (note_all v answers P (kept_new v) []) as (m & E & G & V); [unfold kept_new; now rewrite C|now right|intros c []|].
    rewrite E, V. cbn [values]. rewrite joined_all. destruct (cookies answers); reflexivity.
  - destruct (grown_all v answers (kept_new v) (grown_new v)) as [_ K].
    rewrite (proj1 K); [reflexivity|]. unfold kept_new. now rewrite C.
Qed.

(** Configured headers. *)
Lemma small_lower s : lower s = small_letters s.
Proof. unfold small_letters. induction s as [|c s IH]; [reflexivity|]. cbn. now rewrite IH. Qed.
Lemma name_char_listed c : name_char c = true <->
  In c (list_ascii_of_string "!#$%&'*+-.^_`|~0123456789abcdefghijklmnopqrstuvwxyzABCDEFGHIJKLMNOPQRSTUVWXYZ").
Proof.
  assert (E : name_char c = existsb (Ascii.eqb c) (list_ascii_of_string "!#$%&'*+-.^_`|~0123456789abcdefghijklmnopqrstuvwxyzABCDEFGHIJKLMNOPQRSTUVWXYZ")).
  { destruct c as [[] [] [] [] [] [] [] []]; vm_compute; reflexivity. }
  rewrite E, existsb_exists. split.
  - intros (d & I & H). apply Ascii.eqb_eq in H. now subst d.
  - intros I. exists c. split; [exact I|apply Ascii.eqb_refl].
Qed.
Lemma all_chars_in p s : all_chars p s = true <-> forall c, In c (list_ascii_of_string s) -> p c = true.
Proof.
  induction s as [|c s IH]; cbn; [split; [intros _ c []|reflexivity]|]. rewrite andb_true_iff, IH. split.
  - intros [A B] d [<-|I]; auto.
  - intros H. split; [apply H; now left|intros d I; apply H; now right].
Qed.
Lemma header_name_iff s n : header_name s = Some n <-> token s /\ n = small_letters s.
Proof.
  unfold header_name, token. rewrite <- small_lower.
  destruct (String.eqb_spec s "") as [->|N]; cbn [negb andb]; [split; [discriminate|intros [[N _] _]; now destruct N]|].
  destruct (all_chars name_char s) eqn:E.
  - split; [intros [= <-]; split; [split; [exact N|]|reflexivity]|intros [_ ->]; reflexivity].
    intros c I. apply name_char_listed. exact (proj1 (all_chars_in _ _) E c I).
  - split; [discriminate|]. intros [[_ H] _]. rewrite (proj2 (all_chars_in name_char s)) in E; [discriminate|].
    intros c I. apply name_char_listed. auto.
Qed.
Lemma header_value_iff s v : header_value s = Some v <-> printable s /\ v = s.
Proof.
  unfold header_value, printable, every. change (fun c : ascii => _) with value_char.
  destruct (all_chars value_char s); split; [intros [= <-]; auto|intros [_ ->]; reflexivity|discriminate|intros [H _]; discriminate].
Qed.
Lemma all_valid_iff {A B E} (f : A -> list E + B) l bs : all_valid f l = inr bs <-> Forall2 (fun a b => f a = inr b) l bs.
Proof.
  revert bs. induction l as [|a l IH]; intros bs; cbn.
  - split; [intros [= <-]; constructor|intros H; inversion H; reflexivity].
  - destruct (f a) as [e|b] eqn:Ef; destruct (all_valid f l) as [es|bs'] eqn:Ea.
    1-3: split; [discriminate|intros H; inversion H as [|? ? ? ? H1 H2]; subst; try congruence; apply IH in H2; discriminate].
    split.
    + intros [= <-]. constructor; [exact Ef|]. now apply IH.
    + intros H. inversion H as [|? ? ? ? H1 H2]; subst. apply IH in H2. congruence.
Qed.
Lemma static_iff l h : static_headers l = inr h <->
  (forall k v, In (k, v) l -> token k /\ printable v) /\ h = map (fun kv => (small_letters (fst kv), snd kv)) l.
Proof.
  unfold static_headers. transitivity (Forall2 (fun kv nv => static_header kv = inr nv) l h); [apply all_valid_iff|].
  assert (S1 : forall kv nv, static_header kv = inr nv <-> (token (fst kv) /\ printable (snd kv)) /\ nv = (small_letters (fst kv), snd kv)).
  { intros [k v] nv. unfold static_header. cbn [fst snd].
    destruct (header_name k) as [n|] eqn:En; destruct (header_value v) as [w|] eqn:Ew.
    - apply header_name_iff in En as [T ->]. apply header_value_iff in Ew as [P ->]. split; [intros [= <-]; auto|intros [_ ->]; reflexivity].
    - split; [discriminate|]. intros [[_ P] _]. rewrite (proj2 (header_value_iff v v)) in Ew; [discriminate|auto].
    - split; [discriminate|]. intros [[T _] _]. rewrite (proj2 (header_name_iff k _) (conj T eq_refl)) in En. discriminate.
    - split; [discriminate|]. intros [[T _] _]. rewrite (proj2 (header_name_iff k _) (conj T eq_refl)) in En. discriminate. }
  split.
  - induction 1 as [|kv nv l h H F IH]; [split; [intros k v []|reflexivity]|]. apply S1 in H as [H ->]. destruct IH as [IH ->].
    split; [|reflexivity]. intros k v [->|I]; [exact H|auto].
  - intros [H ->]. induction l as [|kv l IH]; cbn; constructor.
    + apply S1. split; [|reflexivity]. apply H. left. now destruct kv.
    + apply IH. intros k v I. apply H. now right.
Qed.
Lemma prefix_app p s : prefix p s = true <-> exists t, s = p ++ t.
Proof.
  revert s. induction p as [|c p IH]; intros s.
  - split; [intros _; now exists s|intros _; now destruct s].
  - destruct s as [|d s]; [split; [discriminate|intros (t & E); discriminate]|].
    change (prefix (String c p) (String d s)) with (if ascii_dec c d then prefix p s else false). destruct (ascii_dec c d) as [->|N].
    + rewrite IH. split; intros (t & E); exists t; cbn in *; congruence.
    + split; [discriminate|]. intros (t & E). cbn in E. congruence.
Qed.
Lemma experimental_iff l names : experimental_headers l = inr names <->
  (forall s, In s l -> token s /\ exists t, small_letters s = "x-" ++ t) /\ names = map small_letters l.
Proof.
  unfold experimental_headers. rewrite all_valid_iff.
  assert (S1 : forall s n, experimental_header s = inr n <-> (token s /\ exists t, small_letters s = "x-" ++ t) /\ n = small_letters s).
  { intros s n. unfold experimental_header. rewrite small_lower. destruct (prefix "x-" (small_letters s)) eqn:E; cbn [negb].
    - apply prefix_app in E. destruct (header_name s) as [m|] eqn:En.
      + apply header_name_iff in En as [T ->]. split; [intros [= <-]; auto|intros [_ ->]; reflexivity].
      + split; [discriminate|]. intros [[T _] _]. rewrite (proj2 (header_name_iff s _) (conj T eq_refl)) in En. discriminate.
    - split; [discriminate|]. intros [[_ X] _]. apply prefix_app in X. congruence. }
  split.
  - induction 1 as [|s n l h H F IH]; [split; [intros s []|reflexivity]|]. apply S1 in H as [H ->]. destruct IH as [IH ->].
    split; [|reflexivity]. intros u [->|I]; [exact H|auto].
  - intros [H ->]. induction l as [|s l IH]; cbn; constructor.
    + apply S1. split; [|reflexivity]. apply H. now left.
    + apply IH. intros u I. apply H. now right.
Qed.

(** Bodies. *)
Lemma debug_graphql c : graphql_char c = true -> forall s t, json_chars s t -> json_chars (debug_char c ++ s) (String c t).
Proof.
  intros G s t J. assert (X : debug_char c = String c "" /\ json_plain c = true \/
    exists e, debug_char c = String "\" (String e "") /\ In (e, c) json_escapes).
  { destruct c as [[] [] [] [] [] [] [] []]; vm_compute in G; try discriminate G;
      (left; split; reflexivity) || (right; eexists; split; [reflexivity|vm_compute; tauto]). }
  destruct X as [[-> P]|(e & -> & I)]; cbn [String.append]; [now constructor|now constructor].
Qed.
Lemma debug_chars q : every graphql_char q -> json_chars (debug_text q) q.
Proof.
  unfold every. induction q as [|c q IH]; cbn; intros H; [constructor|]. apply andb_true_iff in H as [H1 H2].
  apply debug_graphql; auto.
Qed.
Lemma graphql_no_backslash q : every graphql_char q -> has_backslash q = false.
Proof.
  unfold has_backslash. intros H. apply negb_false_iff. apply all_chars_in. intros c I.
  pose proof (proj1 (all_chars_in _ _) H c I) as G. destruct (Ascii.eqb_spec c "\") as [->|]; [discriminate G|reflexivity].
Qed.
Lemma body_requests hs q : values "content-type" hs = ["application/graphql"] -> every graphql_char q -> requests (request_text hs q) q.
Proof.
  intros E G. unfold request_text. rewrite values_get, E. cbn [String.eqb Ascii.eqb Bool.eqb]. rewrite graphql_no_backslash by exact G.
  exists (debug_text q). split; [reflexivity|now apply debug_chars].
Qed.

(** Routes. *)
Lemma api_dec p : {prefix "/api" p = true /\ exists t, p = "/api" ++ t} + {prefix "/api" p = false /\ ~ exists t, p = "/api" ++ t}.
Proof.
  destruct (prefix "/api" p) eqn:E; [left|right]; (split; [reflexivity|]).
  - now apply prefix_app.
  - intros X. apply prefix_app in X. congruence.
Qed.
Ltac routed o m p :=
  unfold route; destruct (api_dec p) as [[-> A]|[-> A]];
  destruct (String.eqb_spec m "POST"); destruct (String.eqb_spec p (o_graphql o)); destruct (o_showcase o) eqn:Sh;
  destruct (String.eqb_spec p "/showcase/graphql"); destruct (String.eqb_spec m "GET"); destruct (String.eqb_spec p (o_status o));
  cbn [andb]; try (destruct (o_metrics o) as [pm|] eqn:Mt; [destruct (String.eqb_spec p pm)|]);
  split; intros X; try discriminate X; try tauto; try reflexivity;
  repeat match goal with H : _ /\ _ |- _ => destruct H end; try congruence; try contradiction; subst; try tauto; try (repeat split; congruence).
Lemma route_graphql o m p : route o m p = Graphql <-> m = "POST" /\ p = o_graphql o /\ ~ exists t, p = "/api" ++ t.
Proof. routed o m p. Qed.
Lemma route_rest o m p : route o m p = RestApi <-> exists t, p = "/api" ++ t.
Proof. routed o m p. Qed.
Lemma route_status o m p : route o m p = Status <-> m = "GET" /\ p = o_status o /\ ~ exists t, p = "/api" ++ t.
Proof. routed o m p. Qed.
Lemma route_metrics o m p : route o m p = Metrics <-> m = "GET" /\ o_metrics o = Some p /\ p <> o_status o /\ ~ exists t, p = "/api" ++ t.
Proof. routed o m p. Qed.
Lemma route_showcase o m p : route o m p = Showcase <->
  m = "POST" /\ o_showcase o = true /\ p = "/showcase/graphql" /\ p <> o_graphql o.
Proof. routed o m p. all: destruct A as (t & E); cbn in E; discriminate E. Qed.
