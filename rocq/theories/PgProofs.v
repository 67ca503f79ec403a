(** Configurations generated from proto files: proofs. *)
From Coq Require Import String Ascii ZArith NArith Bool Arith List Lia.
From Verif Require UInProofs.
From Verif Require Import Base BaseFacts StringFacts Ordered OrderedFacts TypeModel ConfigModel BuilderModel UrlModel UrlProofs OpGenModel OpGenSpec OpGenProofs RequestSpec RequestProofs PgModel PgSpec.
Import ListNotations.
Open Scope string_scope.
Open Scope list_scope.

(** ** Words and names *)
Lemma word_chars s : word s -> forall c, In c (list_ascii_of_string s) -> c <> "."%char /\ ~ white c.
Proof.
  intros [_ W] c I. specialize (W c I). unfold word_char, white in *. split; [intros ->; vm_compute in W; intuition congruence|]. intros B. cbv zeta in W. lia.
Qed.
Lemma word_lacks s : word s -> lacks "." s.
Proof.
  intros W. pose proof (word_chars s W) as H. clear W. induction s as [|c s IH]; [exact I|]. cbn. split; [apply H; now left|]. apply IH. intros d I. apply H. now right.
Qed.
Lemma word_normal s : word s -> normalize_name s = s.
Proof.
  intros W. pose proof (word_lacks s W) as H. clear W. induction s as [|c s IH]; [reflexivity|]. destruct H as [H1 H2]. cbn. destruct (Ascii.eqb_spec c "."); [contradiction|]. now rewrite IH.
Qed.
Lemma in_last_char t c : In c (list_ascii_of_string (t ++ String c "")%string).
Proof. induction t; cbn; auto. Qed.
Lemma word_trim s : word s -> trim s = s.
Proof.
  intros W. symmetry. apply trimmed_trim. exists "", "". split; [now rewrite str_app_nil_r|]. split; [constructor|]. split; [constructor|]. split; intros c t ->.
  - apply (word_chars _ W). now left.
  - apply (word_chars _ W). apply in_last_char.
Qed.
Lemma concat_cons2 sep a b l : String.concat sep (a :: b :: l) = (a ++ sep ++ String.concat sep (b :: l))%string.
Proof. reflexivity. Qed.
Lemma split_words q : q <> [] -> Forall word q -> split_on "." (String.concat "." q) = q.
Proof.
  intros N H. induction H as [|w q W H IH]; [congruence|]. destruct q as [|v q]; [cbn; apply split_none; now apply word_lacks|].
  rewrite concat_cons2. change ("." ++ String.concat "." (v :: q))%string with (String "." (String.concat "." (v :: q))). rewrite split_app, IH by discriminate. rewrite split_none by now apply word_lacks. reflexivity.
Qed.
Lemma map_trim q : Forall word q -> filter (fun a => negb (String.eqb a "")) (map trim q) = q.
Proof.
  induction 1 as [|w q W H IH]; [reflexivity|]. cbn [map filter]. rewrite word_trim by exact W. destruct (String.eqb_spec w ""); [destruct W; contradiction|]. cbn. now rewrite IH.
Qed.
Lemma tail_words r : Forall word r -> flat_map (split_on ".") r = r.
Proof. induction 1 as [|w r W H IH]; [reflexivity|]. cbn [flat_map]. rewrite split_none by now apply word_lacks. cbn. now rewrite IH. Qed.
Lemma space_words q r : Forall word q -> Forall word r -> filter (fun a => negb (String.eqb a "")) (map trim (flat_map (split_on ".") (String.concat "." q :: r))) = q ++ r.
Proof.
  intros Q R. cbn [flat_map]. rewrite tail_words by exact R. rewrite map_app, filter_app, (map_trim r) by exact R. f_equal. destruct q as [|w q]; [reflexivity|]. rewrite split_words by (auto; discriminate). now apply map_trim.
Qed.
Lemma gparse_words h q r : word h -> Forall word q -> Forall word r -> gparse h (String.concat "." q :: r) = {| gn_space := q ++ r; gn_name := h |}.
Proof. intros H Q R. unfold gparse. now rewrite space_words, word_normal. Qed.
Lemma gparse_alone h : word h -> gparse h [] = {| gn_space := []; gn_name := h |}.
Proof. intros H. unfold gparse. cbn. now rewrite word_normal. Qed.

Lemma concat_last sep sp n : String.concat sep (sp ++ [n]) = match sp with [] => n | _ => (String.concat sep sp ++ sep ++ n)%string end.
Proof.
  induction sp as [|a sp IH]; [reflexivity|]. destruct sp as [|b sp]; [reflexivity|]. change ((a :: b :: sp) ++ [n]) with (a :: (b :: sp) ++ [n]). cbn [app] in *. rewrite !concat_cons2.
  rewrite IH. now rewrite !str_app_assoc.
Qed.
Lemma gid_words sp n : gid {| gn_space := sp; gn_name := n |} = String.concat "." (sp ++ [n]).
Proof. rewrite concat_last. unfold gid. cbn. now destruct sp. Qed.
Lemma gspaced_words sp n : gspaced {| gn_space := sp; gn_name := n |} = String.concat "__" (sp ++ [n]).
Proof. rewrite concat_last. unfold gspaced. cbn. now destruct sp. Qed.
Lemma object_words sp n : object_text {| gn_space := sp; gn_name := n |} = title (sp ++ [n]).
Proof. unfold object_text, title. rewrite gspaced_words, last_last. reflexivity. Qed.
Lemma method_words sp n : method_text {| gn_space := sp; gn_name := n |} = method_title (sp ++ [n]).
Proof. unfold method_text, method_title. now rewrite gspaced_words. Qed.

Lemma ref_words p : p <> [] -> Forall word p -> graphql_type_from_ref ("." ++ String.concat "." p)%string = Ok {| gn_space := removelast p; gn_name := last p "" |}.
Proof.
  intros N H. cbn [graphql_type_from_ref append]. destruct (exists_last N) as (sp & n & ->). apply Forall_app in H. destruct H as [H Hn]. inversion Hn as [|? ? W _]; subst.
  rewrite split_words; [|now destruct sp|apply Forall_app; auto]. rewrite rev_app_distr, removelast_last, last_last. change (rev [n] ++ rev sp) with (n :: rev sp). destruct sp as [|a sp]; [cbn; now rewrite gparse_alone|].
  destruct (rev (a :: sp)) as [|z l] eqn:E; [pose proof (rev_length (a :: sp)) as L; rewrite E in L; discriminate|].
  rewrite <- E, rev_involutive. rewrite (gparse_words n (a :: sp) []) by auto. now rewrite app_nil_r.
Qed.
Lemma ref_title p : p <> [] -> Forall word p -> exists g, graphql_type_from_ref ("." ++ String.concat "." p)%string = Ok g /\ object_text g = title p /\ gn_name g = last p "".
Proof.
  intros N H. exists {| gn_space := removelast p; gn_name := last p "" |}. split; [now apply ref_words|]. split; [|reflexivity]. rewrite object_words. now rewrite <- app_removelast_last.
Qed.

Lemma dotted_inj p q : Forall word p -> Forall word q -> p <> [] -> q <> [] -> String.concat "." p = String.concat "." q -> p = q.
Proof. intros P Q Np Nq E. apply (f_equal (split_on ".")) in E. rewrite !split_words in E; auto. Qed.

(** ** Oneofs *)
Definition add_all (l : list (string * field)) (t : gtype) : gtype := fold_left (fun t x => insert_field (fst x) (snd x) t) l t.
Lemma add_all_implements l : forall t, t_implements (add_all l t) = t_implements t.
Proof. unfold add_all. induction l as [|x l IH]; intros t; [reflexivity|]. cbn. now rewrite IH. Qed.
Lemma oins_keys {V} n (v : V) m k : In k (map fst m) \/ k = n -> In k (map fst (oins scmp n v m)).
Proof.
  induction m as [|[a b] m IH]; cbn [oins map fst]; [cbn; intuition congruence|]. destruct (scmp n a) eqn:E; cbn [map fst In].
  - apply (to_eq _ scmp_order) in E. subst a. intuition congruence.
  - intuition congruence.
  - intros [[->|H]| ->]; auto.
Qed.
Lemma add_all_fields l : forall t, (forall x, In x (t_fields (add_all l t)) -> In x l \/ In x (t_fields t)) /\
  (forall k, In k (map fst (t_fields t)) \/ In k (map fst l) -> In k (map fst (t_fields (add_all l t)))).
Proof.
  unfold add_all. induction l as [|[n f] l IH]; intros t; [cbn; tauto|]. cbn [fold_left fst snd]. destruct (IH (insert_field n f t)) as [A B]. split.
  - intros x I. apply A in I. destruct I as [I|I]; [left; now right|]. destruct x as [k v]. apply (oins_in scmp scmp_order) in I. destruct I as [[-> ->]|I]; [left; now left|now right].
  - intros k I. apply B. cbn [insert_field t_fields map In fst] in *. destruct I as [I|[I|I]]; [left; apply oins_keys; now left|left; apply oins_keys; now right|now right].
Qed.
Lemma add_all_made base l t : t_fields t = [] -> made_of (base ++ l) (add_all l (add_all base t)).
Proof.
  intros E. destruct (add_all_fields l (add_all base t)) as [A B]. destruct (add_all_fields base t) as [A' B']. rewrite E in A', B'. split.
  - intros x I. apply A in I. apply in_app_iff. destruct I as [I|I]; [now right|]. apply A' in I. destruct I as [I|[]]. now left.
  - intros k I. apply B. rewrite map_app in I. apply in_app_iff in I. destruct I as [I|I]; [left; apply B'; now right|now right].
Qed.
Lemma interface_fields i t : t_fields (insert_interface i t) = t_fields t.
Proof. reflexivity. Qed.

Lemma indexed_nth {A} (l : list A) : forall k i, nth_error (indexed k l) i = option_map (fun a => (k + i, a)) (nth_error l i).
Proof. induction l as [|a l IH]; intros k [|i]; [reflexivity|reflexivity|cbn; now rewrite Nat.add_0_r|]. cbn. rewrite IH. destruct (nth_error l i); [|reflexivity]. cbn. do 2 f_equal. lia. Qed.
Lemma indexed_in {A} (l : list A) i a : In (i, a) (indexed 0 l) <-> nth_error l i = Some a.
Proof.
  split; intros H.
  - apply In_nth_error in H. destruct H as (j & H). rewrite indexed_nth in H. destruct (nth_error l j) as [b|] eqn:E; [|discriminate]. cbn in H. injection H as <- <-. exact E.
  - apply nth_error_In with (n := i). rewrite indexed_nth, H. reflexivity.
Qed.
Lemma indexed_length {A} (l : list A) k : length (indexed k l) = length l.
Proof. revert k. induction l; intros k; cbn; auto. Qed.

Lemma collect_is gs : forall name base n t, In (n, t) (collect_types name base gs) <-> exists s l, chosen gs s l /\ n = (name ++ s)%string /\ t = add_all l base.
Proof.
  induction gs as [|g gs IH]; intros name base n t.
  - cbn. split.
    + intros [E|[]]. injection E as <- <-. exists "", []. split; [constructor|]. split; [now rewrite str_app_nil_r|reflexivity].
    + intros (s & l & C & -> & ->). inversion C; subst. rewrite str_app_nil_r. now left.
  - assert (G : length g <> 1 -> (In (n, t) (collect_types (name ++ "__Var")%string base gs ++
          flat_map (fun inf => collect_types (name ++ "__Var" ++ nat_to_string (fst inf))%string (insert_field (fst (snd inf)) (require_field (snd (snd inf))) base) gs) (indexed 0 g)) <->
        exists s l, chosen (g :: gs) s l /\ n = (name ++ s)%string /\ t = add_all l base)).
    { intros Ng. rewrite in_app_iff, in_flat_map. split.
      - intros [I|([i [k f]] & I & J)].
        + apply IH in I. destruct I as (s & l & C & -> & ->). exists ("__Var" ++ s)%string, l. split; [now constructor|]. split; [now rewrite str_app_assoc|reflexivity].
        + apply IH in J. destruct J as (s & l & C & -> & ->). apply indexed_in in I. cbn [fst snd]. exists ("__Var" ++ nat_to_string i ++ s)%string, ((k, required f) :: l).
          split; [now apply Ch_some with (n := k) (f := f)|]. split; [now rewrite !str_app_assoc|reflexivity].
      - intros (s & l & C & -> & ->). inversion C as [|x gs' s' l' C' |g' gs' s' l' L C'|g' gs' i k f s' l' L N C']; subst.
        + now destruct Ng.
        + left. apply IH. exists s', l. split; [exact C'|]. split; [now rewrite str_app_assoc|reflexivity].
        + right. exists (i, (k, f)). split; [now apply indexed_in|]. apply IH. exists s', l'. split; [exact C'|]. cbn [fst snd]. split; [now rewrite !str_app_assoc|reflexivity]. }
    destruct g as [|[k f] [|y g]]; [apply G; discriminate| |apply G; cbn; lia].
    cbn [collect_types]. rewrite IH. split.
    + intros (s & l & C & -> & ->). exists ("__Var" ++ s)%string, ((k, f) :: l). split; [now constructor|]. split; [now rewrite str_app_assoc|reflexivity].
    + intros (s & l & C & -> & ->). inversion C as [|x gs' s' l' C' |g' gs' s' l' L C'|g' gs' i k' f' s' l' L N C']; subst; [|now destruct L|now destruct L].
      exists s', l'. split; [exact C'|]. split; [now rewrite str_app_assoc|reflexivity].
Qed.
Lemma collect_one gs : forall name base, Forall (fun g => length g <= 1) gs -> exists n, collect_types name base gs = [(n, add_all (concat gs) base)].
Proof.
  induction gs as [|g gs IH]; intros name base H; [exists name; reflexivity|]. inversion H as [|? ? G H']; subst. destruct g as [|[k f] [|y g]]; [| |cbn in G; lia].
  - cbn [collect_types indexed flat_map concat app]. destruct (IH (name ++ "__Var")%string base H') as (n & ->). now exists n.
  - cbn [collect_types concat app]. destruct (IH (name ++ "__Var")%string (insert_field k f base) H') as (n & ->). exists n. reflexivity.
Qed.
Lemma collect_some gs name base : collect_types name base gs <> [].
Proof.
  revert name base. induction gs as [|g gs IH]; intros name base; [discriminate|]. destruct g as [|[k f] [|y g]]; cbn [collect_types]; [|apply IH|];
    intros E; apply app_eq_nil in E; destruct E as [E _]; now apply IH in E.
Qed.
Lemma collect_many gs : forall name base, ~ Forall (fun g => length g <= 1) gs -> 2 <= length (collect_types name base gs).
Proof.
  induction gs as [|g gs IH]; intros name base H; [now destruct H|].
  assert (P : forall name base, 1 <= length (collect_types name base gs)). { intros n b. pose proof (collect_some gs n b). destruct (collect_types n b gs); [congruence|cbn; lia]. }
  destruct g as [|[k f] [|y g]].
  - cbn [collect_types indexed flat_map]. rewrite app_nil_r. apply IH. intros X. apply H. constructor; [cbn; lia|exact X].
  - cbn [collect_types]. apply IH. intros X. apply H. constructor; [cbn; lia|exact X].
  - cbn [collect_types indexed flat_map]. rewrite !app_length. pose proof (P (name ++ "__Var")%string base).
    pose proof (P (name ++ "__Var" ++ nat_to_string (fst (0, (k, f))))%string (insert_field (fst (snd (0, (k, f)))) (require_field (snd (snd (0, (k, f))))) base)). lia.
Qed.
Lemma chosen_stop gs s l : chosen gs s l -> UInProofs.stop s.
Proof. now destruct 1. Qed.
Lemma digits_start i : exists c t, nat_to_string i = String c t /\ UInProofs.num c = true.
Proof.
  assert (N : nat_to_string i <> "").
  { unfold nat_to_string, Z_to_string. destruct (Z.of_nat i) as [|p|p]; cbn; try discriminate. unfold DecimalString.NilZero.string_of_uint. destruct (Pos.to_uint p); discriminate. }
  assert (D : UInProofs.nums (nat_to_string i) = true) by (apply UInProofs.index_nums; lia). destruct (nat_to_string i) as [|c t]; [congruence|]. exists c, t. split; [reflexivity|].
  cbn in D. apply andb_true_iff in D. tauto.
Qed.
Lemma var_split a b i : UInProofs.stop a -> ("__Var" ++ a)%string <> ("__Var" ++ nat_to_string i ++ b)%string.
Proof.
  intros S E. apply str_app_inv_head in E. destruct (digits_start i) as (c & t & D & Nc). rewrite D in E. subst a. cbn in S. congruence.
Qed.
Lemma var_some_inj a b i j : UInProofs.stop a -> UInProofs.stop b -> ("__Var" ++ nat_to_string i ++ a)%string = ("__Var" ++ nat_to_string j ++ b)%string -> i = j /\ a = b.
Proof.
  intros Sa Sb E. apply str_app_inv_head in E. assert (i = j). { apply Nat2Z.inj. eapply UInProofs.index_inj; [lia|lia|exact Sa|exact Sb|exact E]. } subst j. split; [reflexivity|]. now apply str_app_inv_head in E.
Qed.
Lemma chosen_inv g gs s l : chosen (g :: gs) s l -> exists s' l', chosen gs s' l' /\
  ((exists x, g = [x] /\ s = ("__Var" ++ s')%string /\ l = x :: l') \/ (length g <> 1 /\ s = ("__Var" ++ s')%string /\ l = l') \/
   (exists i n f, length g <> 1 /\ nth_error g i = Some (n, f) /\ s = ("__Var" ++ nat_to_string i ++ s')%string /\ l = (n, required f) :: l')).
Proof. intros C. inversion C; subst; eexists _, _; (split; [eassumption|]); [left; eauto|right; left; auto|right; right; eexists _, _, _; eauto]. Qed.
Lemma chosen_fun gs s l : chosen gs s l -> forall s' l', chosen gs s' l' -> s = s' -> l = l'.
Proof.
  induction 1 as [|x gs s l C IH|g gs s l N C IH|g gs i n f s l N K C IH]; intros s' l' C' E.
  - inversion C'; reflexivity.
  - apply chosen_inv in C'. destruct C' as (s2 & l2 & D & [(y & Y & E' & ->)|[(L & _)|(? & ? & ? & L & _)]]); [|now destruct L|now destruct L].
    rewrite E' in E. apply str_app_inv_head in E. injection Y as <-. f_equal. now apply (IH s2).
  - apply chosen_inv in C'. destruct C' as (s2 & l2 & D & [(y & Y & E' & ->)|[(L & E' & ->)|(j & k & f & L & M & E' & ->)]]).
    + subst g. now destruct N.
    + rewrite E' in E. apply str_app_inv_head in E. now apply (IH s2).
    + exfalso. rewrite E' in E. eapply var_split; [|exact E]. eapply chosen_stop; exact C.
  - apply chosen_inv in C'. destruct C' as (s2 & l2 & D & [(y & Y & E' & ->)|[(L & E' & ->)|(j & k & f' & L & M & E' & ->)]]).
    + subst g. now destruct N.
    + exfalso. rewrite E' in E. symmetry in E. eapply var_split; [|exact E]. eapply chosen_stop; exact D.
    + rewrite E' in E. apply var_some_inj in E; [|eapply chosen_stop; eassumption|eapply chosen_stop; eassumption]. destruct E as [-> E]. assert (X : (n, f) = (k, f')) by congruence. injection X as -> ->. f_equal. now apply (IH s2).
Qed.
Lemma chosen_names gs s l : chosen gs s l -> variant_names (length gs) s.
Proof. induction 1; cbn [length]; constructor; assumption. Qed.
Lemma variant_start n s : variant_names n s -> n <> 0 -> exists t, s = ("__Var" ++ t)%string.
Proof. destruct 1; intros N; [congruence|eauto|eauto]. Qed.

(** ** Insertions *)
Lemma fold_insert (g : gtype -> gtype) ts : (forall n t t', In (n, t) ts -> In (n, t') ts -> t = t') -> forall m n,
  (forall t, In (n, t) ts -> oget scmp n (fold_left (fun m nt => oins scmp (fst nt) (g (snd nt)) m) ts m) = Some (g t)) /\
  (~ In n (map fst ts) -> oget scmp n (fold_left (fun m nt => oins scmp (fst nt) (g (snd nt)) m) ts m) = oget scmp n m).
Proof.
  induction ts as [|[k u] ts IH] using rev_ind; intros F m n; [split; [intros t []|reflexivity]|]. rewrite fold_left_app. cbn [fold_left fst snd].
  destruct (IH ltac:(intros a b c A B; apply (F a); apply in_app_iff; now left) m n) as [I1 I2]. split.
  - intros t I. apply in_app_iff in I. destruct (String.eqb_spec n k) as [->|D].
    + rewrite (oget_oins_same scmp scmp_order). do 2 f_equal. apply (F k); apply in_app_iff; [right; now left|exact I].
    + rewrite (oget_oins_other scmp scmp_order) by congruence. apply I1. destruct I as [I|[I|[]]]; [exact I|congruence].
  - intros N. rewrite map_app, in_app_iff in N. cbn in N. rewrite (oget_oins_other scmp scmp_order) by (intros ->; apply N; right; now left). apply I2. tauto.
Qed.
Lemma fold_insert_context (g : gtype -> gtype) ts : forall x,
  fold_left (fun x nt => insert_type (fst nt) (g (snd nt)) x) ts x = with_types (fold_left (fun m nt => oins scmp (fst nt) (g (snd nt)) m) ts (x_types x)) x.
Proof. induction ts as [|[k u] ts IH]; intros x; [now destruct x|]. cbn [fold_left]. rewrite IH. reflexivity. Qed.
Lemma fold_members ts : forall l n, In n (fold_left (fun l (nt : string * gtype) => sins scmp (fst nt) l) ts l) <-> In n (map fst ts) \/ In n l.
Proof.
  induction ts as [|[k u] ts IH]; intros l n; [cbn; tauto|]. cbn [fold_left fst map In]. rewrite IH, (sins_in scmp scmp_order). intuition congruence.
Qed.

(** What is inserted for a message with oneofs. *)
Lemma insert_oneofs_is name base gs x :
  (Forall (fun g => length g <= 1) gs -> insert_oneofs name base gs x = insert_type name (add_all (concat gs) base) x) /\
  (~ Forall (fun g => length g <= 1) gs -> exists types u,
     insert_oneofs name base gs x = with_unions (oins scmp name u (x_unions x)) (with_types types x) /\
     (forall n, In n (u_types u) <-> exists s l, chosen gs s l /\ n = (name ++ s)%string) /\
     oget scmp (name ++ "__Interface")%string types = Some base /\
     (forall s l, chosen gs s l -> oget scmp (name ++ s)%string types = Some (insert_interface (name ++ "__Interface")%string (add_all l base))) /\
     (forall n, n <> (name ++ "__Interface")%string -> (forall s l, chosen gs s l -> n <> (name ++ s)%string) -> oget scmp n types = oget scmp n (x_types x))).
Proof.
  split; intros H.
  - destruct (collect_one gs name base H) as (n & E). unfold insert_oneofs. now rewrite E.
  - pose proof (collect_many gs name base H) as L. pose proof (collect_is gs name base) as C. unfold insert_oneofs. set (ts := collect_types name base gs) in *.
    destruct ts as [|[n1 t1] [|nt2 ts']] eqn:Ets; [cbn in L; lia|cbn in L; lia|]. rewrite <- Ets in *. rewrite fold_insert_context. cbn [x_unions with_types insert_type x_types].
    eexists _, _. split; [reflexivity|]. cbn [u_types].
    assert (F : forall n t t', In (n, t) ts -> In (n, t') ts -> t = t').
    { intros n t t' A B. apply C in A, B. destruct A as (s & l & A & -> & ->), B as (s' & l' & B & E & ->). apply str_app_inv_head in E. now rewrite (chosen_fun _ _ _ A _ _ B E). }
    assert (K : forall n, In n (map fst ts) <-> exists s l, chosen gs s l /\ n = (name ++ s)%string).
    { intros n. rewrite in_map_iff. split; [intros ([k t] & <- & I); apply C in I; destruct I as (s & l & I & -> & _); eauto|]. intros (s & l & I & ->). exists ((name ++ s)%string, add_all l base). split; [reflexivity|]. apply C. eauto. }
    assert (Ni : forall s l, chosen gs s l -> s <> "__Interface").
    { intros s l I ->. apply chosen_names in I. apply variant_start in I; [destruct I as (t & I); discriminate I|]. destruct gs; [now destruct H|discriminate]. }
    split; [intros n; rewrite fold_members, K; cbn; tauto|]. split; [apply (oget_oins_same scmp scmp_order)|]. split.
    + intros s l I. rewrite (oget_oins_other scmp scmp_order) by (intros E; apply str_app_inv_head in E; now apply (Ni s l)).
      apply (fold_insert (insert_interface (name ++ "__Interface")%string) ts F). apply C. eauto.
    + intros n N1 N2. rewrite (oget_oins_other scmp scmp_order) by congruence. apply (fold_insert _ ts F). rewrite K. intros (s & l & I & E). now apply (N2 s l).
Qed.
