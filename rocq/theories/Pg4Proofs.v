(** Configurations generated from proto files: names that are told apart, values, and a check of concrete files. *)
From Coq Require Import String Ascii ZArith NArith Bool Arith List Lia DecimalString.
From Verif Require Import Base BaseFacts StringFacts Ordered OrderedFacts JsonModel ScalarModel ScalarSpec ScalarProofs TypeModel ConfigModel BuilderModel UrlModel PgModel PgSpec PgProofs Pg2Proofs.
From Verif Require Pg3Proofs.
From Verif Require UInProofs.
Import ListNotations.
Open Scope string_scope.
Open Scope list_scope.

(** ** Names *)
Definition solid (s : string) : Prop := (forall a b, s <> (a ++ "__" ++ b)%string) /\ forall a, s <> (a ++ "_")%string.
Lemma solid_tail c s : solid (String c s) -> solid s.
Proof. intros [A B]. split; [intros a b ->; now apply (A (String c a) b)|intros a ->; now apply (B (String c a))]. Qed.
Lemma cut_solid a : forall b x y, solid a -> solid b -> (a ++ "__" ++ x)%string = (b ++ "__" ++ y)%string -> a = b /\ x = y.
Proof.
  induction a as [|c a IH]; intros b x y Sa Sb E.
  - destruct b as [|d b]; [cbn in E; injection E as ->; auto|]. exfalso. cbn [append] in E. injection E as <- E. destruct b as [|e b]; [now apply (proj2 Sb "")|]. cbn in E. injection E as <- _. now apply (proj1 Sb "" b).
  - destruct b as [|d b].
    + exfalso. cbn [append] in E. injection E as -> E. destruct a as [|e a]; [now apply (proj2 Sa "")|]. cbn in E. injection E as -> _. now apply (proj1 Sa "" a).
    + cbn [append] in E. injection E as <- E. destruct (IH b x y) as [-> ->]; eauto using solid_tail.
Qed.
Lemma joined_inj p : forall q, Forall tidy p -> Forall tidy q -> String.concat "__" p = String.concat "__" q -> p = q.
Proof.
  induction p as [|a p IH]; intros q P Q E.
  - destruct q as [|b q]; [reflexivity|]. exfalso. inversion Q as [|? ? [B _] _]; subst. destruct q; cbn in E; [congruence|]. destruct b; discriminate.
  - inversion P as [|? ? A P']; subst. destruct q as [|b q].
    + exfalso. destruct A as [A _]. destruct p; cbn in E; [congruence|]. destruct a; discriminate.
    + inversion Q as [|? ? B Q']; subst. destruct p as [|a2 p], q as [|b2 q].
      * cbn in E. now subst.
      * exfalso. rewrite concat_cons2 in E. cbn [String.concat] in E. now apply (proj1 (proj2 A) b (String.concat "__" (b2 :: q))).
      * exfalso. rewrite concat_cons2 in E. cbn [String.concat] in E. symmetry in E. now apply (proj1 (proj2 B) a (String.concat "__" (a2 :: p))).
      * rewrite !concat_cons2 in E. apply cut_solid in E; [|exact (proj2 A)|exact (proj2 B)]. destruct E as [-> E]. f_equal. now apply IH.
Qed.

Definition prefix (p : list string) : list string := if is_predefined (last p "") then [] else ["GEN"].
Lemma title_joined p ws : p <> [] -> (title p ++ String.concat "" (map (fun w => "__" ++ w)%string ws))%string = String.concat "__" (prefix p ++ p ++ ws).
Proof.
  intros N. assert (X : forall l, l <> [] -> (String.concat "__" l ++ String.concat "" (map (fun w => "__" ++ w)%string ws))%string = String.concat "__" (l ++ ws)).
  { clear p N. intros l. revert l. induction ws as [|w ws IH]; intros l N; [cbn; now rewrite str_app_nil_r, app_nil_r|].
    assert (Y : String.concat "" (map (fun w => ("__" ++ w)%string) (w :: ws)) = ("__" ++ w ++ String.concat "" (map (fun w => ("__" ++ w)%string) ws))%string) by (cbn [map]; destruct ws; cbn; [now rewrite str_app_nil_r|reflexivity]).
    rewrite Y. replace (l ++ w :: ws) with ((l ++ [w]) ++ ws) by now rewrite <- app_assoc. rewrite <- IH by now destruct l. rewrite concat_last. destruct l; [contradiction|]. now rewrite !str_app_assoc. }
  unfold title, prefix. destruct (is_predefined (last p "")); cbn [append app]; [now apply X|]. rewrite X by exact N. destruct p as [|a p]; [contradiction|]. reflexivity.
Qed.
Lemma tidy_text s : tidy s <-> s <> "" /\ solid s.
Proof. unfold tidy, solid. tauto. Qed.

(** Texts without underscores. *)
Fixpoint no_under (s : string) : bool := match s with "" => true | String c t => negb (Ascii.eqb c "_") && no_under t end.
Lemma no_under_app a b : no_under (a ++ b) = no_under a && no_under b.
Proof. induction a; cbn; [reflexivity|]. now rewrite IHa, andb_assoc. Qed.
Lemma no_under_tidy s : s <> "" -> no_under s = true -> tidy s.
Proof.
  intros N H. split; [exact N|]. split; [intros a b ->|intros a ->]; rewrite !no_under_app in H; cbn in H; rewrite ?andb_false_r in H; cbn in H; rewrite ?andb_false_r in H; discriminate.
Qed.
Lemma no_under_uint u : no_under (NilEmpty.string_of_uint u) = true.
Proof. induction u; cbn; auto. Qed.
Lemma nat_no_under i : no_under (nat_to_string i) = true.
Proof.
  unfold nat_to_string, Z_to_string, NilZero.string_of_int, NilZero.string_of_uint.
  destruct (Z.to_int (Z.of_nat i)) as [[]|[]]; cbn -[NilEmpty.string_of_uint]; try reflexivity; cbn; apply no_under_uint.
Qed.

Lemma added_cons w ws : String.concat "" (map (fun w => ("__" ++ w)%string) (w :: ws)) = ("__" ++ w ++ String.concat "" (map (fun w => ("__" ++ w)%string) ws))%string.
Proof. cbn [map]. destruct ws; cbn; [now rewrite str_app_nil_r|reflexivity]. Qed.
(** The words that are added for a choice. *)
Lemma variant_words n s : variant_names n s -> exists ws, s = String.concat "" (map (fun w => "__" ++ w)%string ws) /\ Forall (fun w => tidy w /\ made_up w) ws.
Proof.
  induction 1 as [|n s V (ws & -> & F)|n i s V (ws & -> & F)].
  - exists []. split; [reflexivity|constructor].
  - exists ("Var" :: ws). split; [now rewrite added_cons|]. constructor; [|exact F]. split; [now apply no_under_tidy|right; now exists ""].
  - exists (("Var" ++ nat_to_string i)%string :: ws). split.
    + rewrite added_cons. now rewrite !str_app_assoc.
    + constructor; [|exact F]. split; [apply no_under_tidy; [discriminate|]; rewrite no_under_app; now rewrite nat_no_under|right; eauto].
Qed.
Lemma uses_words p m n : p <> [] -> uses_name p m n -> exists ws, n = String.concat "__" (prefix p ++ p ++ ws) /\ Forall (fun w => tidy w /\ made_up w) ws.
Proof.
  intros N [->|[_ [->|(s & V & ->)]]].
  - exists []. split; [|constructor]. rewrite <- title_joined by exact N. cbn. now rewrite str_app_nil_r.
  - exists ["Interface"]. split; [now rewrite <- title_joined by exact N|]. constructor; [|constructor]. split; [now apply no_under_tidy|now left].
  - apply variant_words in V. destruct V as (ws & -> & F). exists ws. split; [now apply title_joined|exact F].
Qed.
Lemma snoc_cut {A} (P : A -> Prop) (l l' w w' : list A) d : l <> [] -> l' <> [] -> ~ P (last l d) -> ~ P (last l' d) -> Forall P w -> Forall P w' -> l ++ w = l' ++ w' -> l = l' /\ w = w'.
Proof.
  intros N N' L L' F. revert w'. induction w as [|a w IH] using rev_ind; intros w' F' E.
  - rewrite app_nil_r in E. destruct w' as [|b w'] using rev_ind; [rewrite app_nil_r in E; auto|]. exfalso. apply L. rewrite E, app_assoc, last_last. apply Forall_app in F'. destruct F' as [_ F']. now inversion F'.
  - apply Forall_app in F. destruct F as [F Fa]. inversion Fa as [|? ? Pa _]; subst. destruct w' as [|b w' _] using rev_ind.
    + exfalso. apply L'. rewrite app_nil_r in E. rewrite <- E, app_assoc, last_last. exact Pa.
    + rewrite !app_assoc in E. apply app_inj_tail in E. destruct E as [E ->]. apply Forall_app in F'. destruct F' as [F' _]. destruct (IH F w' F' E) as [-> ->]. auto.
Qed.
Lemma prefix_tidy p : Forall tidy (prefix p).
Proof. unfold prefix. destruct is_predefined; constructor; [now apply no_under_tidy|constructor]. Qed.
Lemma last_prefix p : p <> [] -> last (prefix p ++ p) "" = last p "".
Proof. intros N. unfold prefix. destruct is_predefined; [reflexivity|]. destruct p; [contradiction|reflexivity]. Qed.
Lemma prefix_inj p q : p <> [] -> q <> [] -> prefix p ++ p = prefix q ++ q -> p = q.
Proof.
  intros P Q E. assert (L : last p "" = last q "") by (rewrite <- (last_prefix p P), <- (last_prefix q Q); now rewrite E). unfold prefix in E. rewrite L in E. now apply app_inv_head in E.
Qed.

Lemma apart query files : well_formed files -> tidy query -> is_predefined query = false ->
  (forall p m, message_at files p m -> is_map_entry m = false -> Forall tidy p /\ ~ made_up (last p "")) ->
  (forall p e, enum_at files p e -> Forall tidy p /\ ~ made_up (last p "")) -> (forall p d, method_at files p d -> Forall tidy p) -> names_apart query files.
Proof.
  intros WF Tq Pq Tm Te Td. split.
  - intros p m p' m' n M M' N N' U U'. pose proof (message_nonempty files p m M) as E. pose proof (message_nonempty files p' m' M') as E'.
    destruct (uses_words p m n E U) as (ws & -> & F), (uses_words p' m' _ E' U') as (ws' & J & F'). destruct (Tm p m M N) as [T1 L1], (Tm p' m' M' N') as [T2 L2].
    assert (G : forall ws, Forall (fun w => tidy w /\ made_up w) ws -> Forall tidy ws) by (intros l Hl; eapply Forall_impl; [|exact Hl]; intros ? [? _]; assumption).
    assert (Gm : forall ws, Forall (fun w => tidy w /\ made_up w) ws -> Forall made_up ws) by (intros l Hl; eapply Forall_impl; [|exact Hl]; intros ? [_ ?]; assumption).
    apply joined_inj in J; [|apply Forall_app; split; [apply prefix_tidy|apply Forall_app; auto]..]. rewrite !app_assoc in J.
    apply (snoc_cut made_up _ _ _ _ "") in J; auto; [now apply prefix_inj|destruct (prefix p); now destruct p|destruct (prefix p'); now destruct p'|now rewrite last_prefix|now rewrite last_prefix].
  - intros p m M N U. pose proof (message_nonempty files p m M) as E. destruct (uses_words p m query E U) as (ws & J & F). destruct (Tm p m M N) as [T1 _].
    change query with (String.concat "__" [query]) in J at 1. apply joined_inj in J; [|now constructor|apply Forall_app; split; [apply prefix_tidy|apply Forall_app; split; [exact T1|]; eapply Forall_impl; [|exact F]; intros ? [? _]; assumption]].
    unfold prefix in J. destruct (is_predefined (last p "")) eqn:P; destruct p as [|a p]; try contradiction; [|destruct p; discriminate]. cbn [app] in J. injection J as -> J. destruct p; [cbn in P; congruence|discriminate].
  - intros p m q e M N A U. pose proof (message_nonempty files p m M) as E. pose proof (enum_nonempty files q e A) as E'. destruct (uses_words p m _ E U) as (ws & J & F). destruct (Tm p m M N) as [T1 L1], (Te q e A) as [T2 L2].
    assert (Jq : title q = String.concat "__" (prefix q ++ q ++ [])) by (rewrite <- title_joined by exact E'; cbn; now rewrite str_app_nil_r). rewrite Jq in J.
    assert (G1 : Forall tidy ws) by (eapply Forall_impl; [|exact F]; intros ? [? _]; assumption). assert (G2 : Forall made_up ws) by (eapply Forall_impl; [|exact F]; intros ? [_ ?]; assumption).
    apply joined_inj in J; [|apply Forall_app; split; [apply prefix_tidy|apply Forall_app; auto]..]. rewrite !app_assoc in J.
    apply (snoc_cut made_up _ _ _ _ "") in J; auto; [|destruct (prefix q); now destruct q|destruct (prefix p); now destruct p|now rewrite last_prefix|now rewrite last_prefix].
    destruct J as [J _]. apply prefix_inj in J; auto. subst q. exact (wf_kinds _ WF p m e M A).
  - intros q e A Eq. pose proof (enum_nonempty files q e A) as E'. destruct (Te q e A) as [T2 _]. assert (Jq : title q = String.concat "__" (prefix q ++ q ++ [])) by (rewrite <- title_joined by exact E'; cbn; now rewrite str_app_nil_r). rewrite Jq in Eq.
    change query with (String.concat "__" [query]) in Eq. apply joined_inj in Eq; [|now constructor|apply Forall_app; split; [apply prefix_tidy|rewrite app_nil_r; exact T2]]. rewrite app_nil_r in Eq.
    unfold prefix in Eq. destruct (is_predefined (last q "")) eqn:P; destruct q as [|a q]; try contradiction; [|destruct q; discriminate]. cbn [app] in Eq. injection Eq as <- <-. cbn in P. congruence.
  - intros p e p' e' A B E. pose proof (enum_nonempty files p e A) as N. pose proof (enum_nonempty files p' e' B) as N'.
    assert (J : String.concat "__" (prefix p ++ p ++ []) = String.concat "__" (prefix p' ++ p' ++ [])) by (rewrite <- !title_joined by assumption; cbn; now rewrite !str_app_nil_r).
    rewrite !app_nil_r in J. apply joined_inj in J; [now apply prefix_inj|apply Forall_app; split; [apply prefix_tidy|now apply (Te p e A)]|apply Forall_app; split; [apply prefix_tidy|now apply (Te p' e' B)]].
  - intros p d p' d' A B E. unfold method_title in E. injection E as E. apply joined_inj in E; [exact E|now apply (Td p d)|now apply (Td p' d')].
Qed.

(** ** Methods *)
Lemma method_parts q s n : q <> [] -> Forall word (q ++ [s; n]) -> grpc_method (String.concat "." (q ++ [s; n])) = Some (String.concat "." q, s, n).
Proof.
  intros N W. unfold grpc_method. rewrite split_words; [|now destruct q|exact W]. rewrite rev_app_distr. cbn [rev app]. destruct (rev q) as [|a l] eqn:E.
  - exfalso. apply N. rewrite <- (rev_involutive q), E. reflexivity.
  - rewrite <- E, rev_involutive. reflexivity.
Qed.
Lemma method_alone s n : word s -> word n -> grpc_method (String.concat "." [s; n]) = None.
Proof. intros S N. unfold grpc_method. rewrite split_words; [reflexivity|discriminate|]. constructor; [exact S|]. constructor; [exact N|constructor]. Qed.

(** ** Values *)
Lemma natural_plain s z : natural s z -> forall t, s <> String "-" t.
Proof.
  induction 1 as [c d I|s z c d N IH I]; intros t E.
  - injection E as -> _. cbn in I. intuition congruence.
  - destruct s as [|a s]; [exfalso; inversion N as [|s0]; destruct s0; discriminate|]. cbn in E. injection E as -> _. now apply (IH s).
Qed.
Lemma scalars email phone rfc3339 url p v : p <> PFixed64 -> written p v -> validate_named email phone rfc3339 url (convert_primitive_type p) v = true.
Proof.
  intros N W. pose proof (small_integers email phone rfc3339 url v) as (_ & _ & _ & _ & _ & U32). pose proof (big_integers email phone rfc3339 url v) as (I64 & _ & U64 & _). pose proof (texts email phone rfc3339 url v) as (_ & _ & _ & _ & _ & By).
  destruct p; try congruence; cbn [convert_primitive_type]; try reflexivity.
  - apply I64. destruct W as (s & z & -> & D & R). exists s, z. split; [reflexivity|]. split; [|exact R]. destruct D as [D|(t & -> & D)]; [now constructor|]. replace z with (- - z)%Z by lia. now constructor.
  - apply U64. destruct W as (s & z & -> & D & R). exists s, z. repeat split; try apply R; [now constructor|now apply (natural_plain s z)].
  - apply By. exact W.
  - apply U32. exact W.
  - apply I64. destruct W as (s & z & -> & D & R). exists s, z. split; [reflexivity|]. split; [|exact R]. destruct D as [D|(t & -> & D)]; [now constructor|]. replace z with (- - z)%Z by lia. now constructor.
  - apply I64. destruct W as (s & z & -> & D & R). exists s, z. split; [reflexivity|]. split; [|exact R]. destruct D as [D|(t & -> & D)]; [now constructor|]. replace z with (- - z)%Z by lia. now constructor.
Qed.

(** ** A check of concrete files *)
Definition word_charb (c : ascii) : bool :=
  let n := N_of_ascii c in ((48 <=? n) && (n <=? 57) || (65 <=? n) && (n <=? 90) || (n =? 95) || (97 <=? n) && (n <=? 122))%N.
Definition wordb (s : string) : bool := negb (String.eqb s "") && forallb word_charb (list_ascii_of_string s).
Lemma wordb_word s : wordb s = true -> word s.
Proof.
  intros H. apply andb_true_iff in H. destruct H as [A B]. split; [intros ->; discriminate|]. intros c I. rewrite forallb_forall in B. specialize (B c I). unfold word_charb, word_char in *. cbv zeta in *.
  rewrite !orb_true_iff, !andb_true_iff, !N.leb_le, N.eqb_eq in B. tauto.
Qed.
Lemma wordsb_words l : forallb wordb l = true -> Forall word l.
Proof. intros H. apply Forall_forall. intros w I. rewrite forallb_forall in H. now apply wordb_word, H. Qed.
Definition package (f : pfile) : list string := if String.eqb (pl_package f) "" then [] else split_on "." (pl_package f).
Lemma in_package_is f q : in_package f q -> q = package f.
Proof.
  intros [E W]. unfold package. rewrite E. destruct q as [|a q]; [reflexivity|]. rewrite split_words by (auto; discriminate). destruct (String.eqb_spec (String.concat "." (a :: q)) "") as [Z|]; [|reflexivity].
  exfalso. inversion W as [|? ? [Wa _] _]; subst. destruct q; cbn in Z; [congruence|]. destruct a; discriminate.
Qed.
Fixpoint all_in (m : message) : list (list string * message) :=
  ([message_name m], m) :: match m with Message n b _ nested _ _ => if b then [] else flat_map (fun m' => map (fun pm => (n :: fst pm, snd pm)) (all_in m')) nested end.
Lemma all_in_sound m : forall ms, In m ms -> forall p m', In (p, m') (all_in m) -> declares ms p m'.
Proof.
  induction m as [n b e nested o fs IH] using (Pg3Proofs.message_nested_ind). intros ms I p m' J. cbn [all_in] in J. destruct J as [J|J]; [injection J as <- <-; now apply (Declared ms (Message n b e nested o fs))|].
  destruct b; [destruct J|]. apply in_flat_map in J. destruct J as (m1 & K & J). apply in_map_iff in J. destruct J as ([p1 m2] & E & J). cbn in E. injection E as <- <-.
  apply (Inside ms (Message n false e nested o fs)); [exact I|reflexivity|]. cbn. rewrite Forall_forall in IH. now apply (IH m1 K nested K).
Qed.
Lemma all_in_complete ms p m' : declares ms p m' -> In (p, m') (flat_map all_in ms).
Proof.
  induction 1 as [ms m I|ms m p m' I N D IH]; apply in_flat_map; exists m; (split; [exact I|]); destruct m as [n b e nested o fs]; cbn [all_in]; [now left|]. right. cbn in N. subst b.
  cbn in IH. apply in_flat_map in IH. destruct IH as (m1 & J & K). apply in_flat_map. exists m1. split; [exact J|]. apply in_map_iff. now exists (p, m').
Qed.
Definition messages_of (files : list pfile) : list (list string * message) :=
  flat_map (fun f => map (fun pm => (package f ++ fst pm, snd pm)) (flat_map all_in (pl_messages f))) files.
Definition enums_of (files : list pfile) : list (list string * penum) :=
  flat_map (fun f => map (fun e => (package f ++ [pe_name e], e)) (pl_enums f)) files ++
  flat_map (fun pm => if is_map_entry (snd pm) then [] else map (fun e => (fst pm ++ [pe_name e], e)) (message_enums (snd pm))) (messages_of files).
Definition methods_of (files : list pfile) : list (list string * pmethod) :=
  flat_map (fun f => flat_map (fun s => map (fun d => (package f ++ [ps_name s; pd_name d], d)) (ps_methods s)) (pl_services f)) files.
Definition packaged (files : list pfile) : bool := forallb (fun f => forallb wordb (package f) && String.eqb (pl_package f) (String.concat "." (package f))) files.
Lemma packaged_in files f : packaged files = true -> In f files -> in_package f (package f).
Proof. intros H I. unfold packaged in H. rewrite forallb_forall in H. specialize (H f I). apply andb_true_iff in H. destruct H as [A B]. split; [now apply String.eqb_eq|now apply wordsb_words]. Qed.
Lemma messages_at files p m : packaged files = true -> (message_at files p m <-> In (p, m) (messages_of files)).
Proof.
  intros H. unfold messages_of. rewrite in_flat_map. split.
  - intros (f & q & r & I & P & D & ->). exists f. split; [exact I|]. apply in_map_iff. exists (r, m). rewrite (in_package_is f q P). split; [reflexivity|]. now apply all_in_complete.
  - intros (f & I & J). apply in_map_iff in J. destruct J as ([r m'] & E & J). cbn in E. injection E as <- <-. exists f, (package f), r. split; [exact I|]. split; [now apply packaged_in with files|]. split; [|reflexivity].
    apply in_flat_map in J. destruct J as (m1 & K & J). now apply (all_in_sound m1).
Qed.
Lemma enums_at files p e : packaged files = true -> (enum_at files p e <-> In (p, e) (enums_of files)).
Proof.
  intros H. unfold enums_of. rewrite in_app_iff, !in_flat_map. split.
  - intros [(f & q & I & P & J & ->)|(q & m & M & N & J & ->)].
    + left. exists f. split; [exact I|]. apply in_map_iff. exists e. now rewrite (in_package_is f q P).
    + right. exists (q, m). split; [now apply messages_at|]. cbn. rewrite N. apply in_map_iff. now exists e.
  - intros [(f & I & J)|([q m] & M & J)].
    + apply in_map_iff in J. destruct J as (e' & E & J). injection E as <- <-. left. exists f, (package f). split; [exact I|]. split; [now apply packaged_in with files|auto].
    + cbn in J. destruct (is_map_entry m) eqn:N; [destruct J|]. apply in_map_iff in J. destruct J as (e' & E & J). injection E as <- <-. right. exists q, m. split; [now apply messages_at|auto].
Qed.
Lemma methods_at files p d : packaged files = true -> (method_at files p d <-> In (p, d) (methods_of files)).
Proof.
  intros H. unfold methods_of. rewrite in_flat_map. split.
  - intros (f & q & s & I & P & J & K & ->). exists f. split; [exact I|]. apply in_flat_map. exists s. split; [exact J|]. apply in_map_iff. exists d. now rewrite (in_package_is f q P).
  - intros (f & I & J). apply in_flat_map in J. destruct J as (s & J & K). apply in_map_iff in K. destruct K as (d' & E & K). injection E as <- <-. exists f, (package f), s. split; [exact I|]. split; [now apply packaged_in with files|auto].
Qed.
Definition path_eqb (p q : list string) : bool := if list_eq_dec string_dec p q then true else false.
Fixpoint distinct (l : list (list string)) : bool := match l with [] => true | p :: l => negb (existsb (path_eqb p) l) && distinct l end.
Lemma path_eqb_eq p q : path_eqb p q = true <-> p = q.
Proof. unfold path_eqb. destruct (list_eq_dec string_dec p q); split; congruence. Qed.
Lemma distinct_nodup l : distinct l = true -> NoDup l.
Proof.
  induction l as [|p l IH]; intros H; [constructor|]. cbn in H. apply andb_true_iff in H. destruct H as [A B]. constructor; [|now apply IH]. intros I. apply negb_true_iff in A.
  assert (X : existsb (path_eqb p) l = true) by (apply existsb_exists; exists p; split; [exact I|now apply path_eqb_eq]). congruence.
Qed.
Lemma distinct_fun {A} (l : list (list string * A)) p a b : NoDup (map fst l) -> In (p, a) l -> In (p, b) l -> a = b.
Proof.
  induction l as [|[q c] l IH]; intros N I J; [destruct I|]. cbn in N. inversion N as [|? ? N1 N2]; subst. destruct I as [I|I], J as [J|J]; try congruence.
  - injection I as -> ->. exfalso. apply N1. change p with (fst (p, b)). now apply in_map.
  - injection J as -> ->. exfalso. apply N1. change p with (fst (p, a)). now apply in_map.
  - now apply IH.
Qed.
Definition referred (r : string) : list string := match r with String _ t => split_on "." t | "" => [] end.
Definition refersb (r : string) (p : list string) : bool := String.eqb r ("." ++ String.concat "." p).
Definition callb (files : list pfile) (r : string) : bool := existsb (fun pm => refersb r (fst pm) && negb (is_map_entry (snd pm))) (messages_of files).
Definition checked (files : list pfile) : bool :=
  packaged files &&
  distinct (map fst (messages_of files) ++ map fst (enums_of files)) && distinct (map fst (methods_of files)) &&
  forallb (fun pm => forallb wordb (fst pm) && forallb (fun f => wordb (pf_name f)) (message_fields (snd pm)) &&
    (is_map_entry (snd pm) || forallb (fun f =>
       match pf_type_name f with
       | None => true
       | Some r => existsb (fun pe => refersb r (fst pe)) (enums_of files) || callb files r ||
                   existsb (fun m' => is_map_entry m' && refersb r (fst pm ++ [message_name m'])) (message_nested (snd pm))
       end && match pf_oneof f with Some i => Nat.ltb i (message_oneofs (snd pm)) | None => true end) (message_fields (snd pm)))) (messages_of files) &&
  forallb (fun pe => forallb wordb (fst pe) && forallb wordb (pe_values (snd pe))) (enums_of files) &&
  forallb (fun pd => forallb wordb (fst pd) && (String.eqb (pd_input (snd pd)) "" || String.eqb (pd_input (snd pd)) empty_message || callb files (pd_input (snd pd))) &&
    (String.eqb (pd_output (snd pd)) empty_message || callb files (pd_output (snd pd)))) (methods_of files).
Lemma nodup_left {A} (l l' : list A) : NoDup (l ++ l') -> NoDup l.
Proof. induction l as [|a l IH]; intros N; [constructor|]. cbn in N. inversion N as [|? ? N1 N2]; subst. constructor; [intros I; apply N1; apply in_app_iff; now left|now apply IH]. Qed.
Lemma nodup_right {A} (l l' : list A) : NoDup (l ++ l') -> NoDup l'.
Proof. induction l as [|a l IH]; intros N; [exact N|]. cbn in N. inversion N; subst. now apply IH. Qed.
Lemma nodup_both {A} (l l' : list A) a : NoDup (l ++ l') -> In a l -> In a l' -> False.
Proof. induction l as [|b l IH]; intros N I J; [destruct I|]. cbn in N. inversion N as [|? ? N1 N2]; subst. destruct I as [->|I]; [apply N1, in_app_iff; now right|now apply IH]. Qed.
Lemma checked_well files : checked files = true -> well_formed files.
Proof.
  unfold checked. rewrite !andb_true_iff, !forallb_forall. intros (((((P & U1) & U2) & Cm) & Ce) & Cd). apply distinct_nodup in U1, U2.
  assert (Cl : forall r, callb files r = true -> exists q m, refers r q /\ message_at files q m /\ is_map_entry m = false).
  { intros r H. apply existsb_exists in H. destruct H as ([q m] & I & H). apply andb_true_iff in H. destruct H as [A B]. exists q, m. split; [now apply String.eqb_eq|]. split; [now apply messages_at|]. now apply negb_true_iff in B. }
  split.
  - intros f I. exists (package f). now apply packaged_in with files.
  - intros p m M. apply messages_at in M; [|exact P]. specialize (Cm _ M). rewrite !andb_true_iff in Cm. now apply wordsb_words.
  - intros p m M. apply enums_at in M; [|exact P]. specialize (Ce _ M). rewrite !andb_true_iff in Ce. now apply wordsb_words.
  - intros p m M. apply methods_at in M; [|exact P]. specialize (Cd _ M). rewrite !andb_true_iff in Cd. now apply wordsb_words.
  - intros p m m' M M'. apply messages_at in M, M'; try exact P. eapply distinct_fun; [eapply nodup_left, U1|exact M|exact M'].
  - intros p m e M E. apply messages_at in M; [|exact P]. apply enums_at in E; [|exact P]. apply (nodup_both _ _ p U1); [change p with (fst (p, m))|change p with (fst (p, e))]; now apply in_map.
  - intros p m m' M M'. apply enums_at in M, M'; try exact P. eapply distinct_fun; [eapply nodup_right, U1|exact M|exact M'].
  - intros p m m' M M'. apply methods_at in M, M'; try exact P. eapply distinct_fun; [exact U2|exact M|exact M'].
  - intros p m f M I. apply messages_at in M; [|exact P]. specialize (Cm _ M). rewrite !andb_true_iff, (forallb_forall (fun f => wordb (pf_name f))) in Cm. apply wordb_word. now apply Cm.
  - intros p e v M I. apply enums_at in M; [|exact P]. specialize (Ce _ M). rewrite !andb_true_iff, (forallb_forall wordb (pe_values _)) in Ce. apply wordb_word. now apply Ce.
  - intros p m f M N I. pose proof M as M0. apply messages_at in M; [|exact P]. specialize (Cm _ M). cbn [fst snd] in Cm. rewrite N, orb_false_l, !andb_true_iff in Cm. destruct Cm as [_ Cm]. rewrite forallb_forall in Cm. specialize (Cm f I). apply andb_true_iff in Cm. destruct Cm as [A B]. split.
    + intros r E. rewrite E in A. rewrite !orb_true_iff in A. destruct A as [[A|A]|A].
      * apply existsb_exists in A. destruct A as ([q e] & J & A). exists q. split; [now apply String.eqb_eq|]. left. exists e. now apply enums_at.
      * destruct (Cl r A) as (q & m' & R & Mq & Nq). exists q. split; [exact R|]. right. left. eauto.
      * apply existsb_exists in A. destruct A as (m' & J & A). apply andb_true_iff in A. destruct A as [A1 A2]. exists (p ++ [message_name m']). split; [now apply String.eqb_eq|]. right. right. exists m'. auto.
    + intros i E. rewrite E in B. now apply Nat.ltb_lt.
  - intros p d M. apply methods_at in M; [|exact P]. specialize (Cd _ M). cbn [fst snd] in Cd. rewrite !andb_true_iff, !orb_true_iff, !String.eqb_eq in Cd. destruct Cd as [[_ A] B]. split.
    + destruct A as [[A|A]|A]; [now left|right; now left|right; right; now apply Cl].
    + destruct B as [B|B]; [now left|right; now apply Cl].
Qed.
